(** Properties C58 and C59: building containers, and slices of them. *)
From Coq Require Import String Ascii List ZArith Bool Arith Lia.
From Verif Require Import Base Frames CoMod Leaf Rnn Net Calls Build BuildSpec BuildProof ZFrames ZNets.
Import ListNotations.

(** Some attribute names of the containers, for examples. *)
Definition some_attributes (k : string) : bool :=
  existsb (String.eqb k) ["forward"; "stride"; "delay"; "append"; "reduce"; "training"; "call_mode"]%string.

Lemma some_attributes_free : numerals_free some_attributes.
Proof.
  intros n. unfold some_attributes. cbn [existsb].
  assert (H : forall c s, Ascii.eqb c "0" = false -> Ascii.eqb c "1" = false -> Ascii.eqb c "2" = false -> Ascii.eqb c "3" = false ->
    Ascii.eqb c "4" = false -> Ascii.eqb c "5" = false -> Ascii.eqb c "6" = false -> Ascii.eqb c "7" = false -> Ascii.eqb c "8" = false ->
    Ascii.eqb c "9" = false -> String.eqb (str n) (String c s) = false).
  { intros c s H0 H1 H2 H3 H4 H5 H6 H7 H8 H9. unfold str, DecimalString.NilZero.string_of_uint.
    rewrite Ascii.eqb_sym in H0, H1, H2, H3, H4, H5, H6, H7, H8, H9.
    destruct (Nat.to_uint n); cbn [DecimalString.NilEmpty.string_of_uint String.eqb]; rewrite ?H0, ?H1, ?H2, ?H3, ?H4, ?H5, ?H6, ?H7, ?H8, ?H9; reflexivity. }
  rewrite !H by reflexivity. reflexivity.
Qed.

(** C58.  A Sequential of the modules given computes what [mk_seq] of them does (C08-C25
    speak of [mk_seq]); its children are named "0", "1", .... *)
Theorem C58_sequential :
  forall (F : Type) (FA : Frames F) (reserved : string -> bool) (ms : list (md F)),
    numerals_free reserved ->
    exists c, co_sequential reserved (APos ms) = Ok c /\ run_as c = mk_seq ms /\
      map fst (kids c) = map str (seq 0 (length ms)).
Proof. intros F FA reserved ms NF. exact (seq_pos_runs reserved NF ms). Qed.
Print Assumptions C58_sequential.

(** An OrderedDict gives the same, with its names, if these are accepted; one bad name is
    a KeyError. *)
Theorem C58_ordered_dict :
  forall (F : Type) (FA : Frames F) (reserved : string -> bool) (d : named F),
    NoDup (map fst d) ->
    ((forall k, In k (map fst d) -> good_name reserved k) ->
       exists c, co_sequential reserved (ADict d) = Ok c /\ run_as c = mk_seq (map snd d) /\ map fst (kids c) = map fst d) /\
    (forall k, In k (map fst d) -> ~ good_name reserved k -> co_sequential reserved (ADict d) = Err KeyError).
Proof.
  intros F FA reserved d Hn.
  exact (conj (seq_dict_ok reserved d Hn) (fun k => seq_dict_bad reserved d k Hn)).
Qed.
Print Assumptions C58_ordered_dict.

(** Appending modules one by one is the same as passing them to the constructor, except
    for a Broadcast that would have got its number of streams from a Parallel after it. *)
Theorem C58_append_is_constructor :
  forall (F : Type) (FA : Frames F) (reserved : string -> bool) (ms ls : list (md F)),
    numerals_free reserved ->
    (forall i, length ms <= S i -> ~ needs_streams (ms ++ ls) i) ->
    (c <- co_sequential reserved (APos ms) ;; append_all reserved c ls) = co_sequential reserved (APos (ms ++ ls)).
Proof. intros F FA. exact append_is_constructor. Qed.
Print Assumptions C58_append_is_constructor.

(** In that case the network raises on every input. *)
Theorem C58_append_broadcast_refuted :
  forall (F : Type) (FA : Frames F) (reserved : string -> bool) (a b : md F) (r : red F),
    numerals_free reserved ->
    exists c, (c <- co_sequential reserved (APos []) ;; append_all reserved c [MBroadcast None; MPar [a; b]; MReduce r]) = Ok c /\
      forall v upd pe, step (run_as c) v upd = Err AssertionError /\ fwd (run_as c) v = Err AssertionError /\
        (stops v = false -> steps (run_as c) v pe upd = Err AssertionError).
Proof.
  intros F FA reserved a b r NF. rewrite co_seq_pos by auto. cbn [bind].
  rewrite append_all_numbered with (ms := []) by auto. eexists. split; [reflexivity|]. cbn [with_kids run_as]. rewrite numbered_snd.
  intros v upd pe. cbn. split; [reflexivity|]. split; [reflexivity|]. intros ->. reflexivity.
Qed.
Print Assumptions C58_append_broadcast_refuted.

(** append looks up the name str(len(self)): if it is free the module goes to the end, and
    if some child has it that child is replaced. *)
Theorem C58_append :
  forall (F : Type) (FA : Frames F) (reserved : string -> bool) (c : cont F) (m : md F),
    numerals_free reserved ->
    let k := str (length (kids c)) in
    (~ In k (map fst (kids c)) -> append reserved c m = Ok (with_kids c (kids c ++ [(k, m)]))) /\
    (forall a b m0, kids c = a ++ (k, m0) :: b -> ~ In k (map fst a) ->
       append reserved c m = Ok (with_kids c (a ++ (k, m) :: b))).
Proof. intros F FA. exact append_dict. Qed.
Print Assumptions C58_append.

(** Slices keep the names of the children. *)
Theorem C58_slice :
  forall (F : Type) (FA : Frames F) (reserved : string -> bool) (ms : list (md F)) (a b : nat),
    numerals_free reserved ->
    exists c, (c <- co_sequential reserved (APos ms) ;; getslice reserved c a b) = Ok c /\
      run_as c = MSeq (firstn (b - a) (skipn a (infer_streams ms))) /\
      map fst (kids c) = map str (seq a (Nat.min b (length ms) - a)).
Proof. intros F FA. exact slice_runs. Qed.
Print Assumptions C58_slice.

(** Therefore append to a slice net[a:b] adds the module at the end only if a = 0 or
    b < 2a; otherwise it replaces the module at position b-2a. *)
Theorem C58_append_to_slice :
  forall (F : Type) (FA : Frames F) (reserved : string -> bool) (ms : list (md F)) (a b : nat) (m : md F),
    numerals_free reserved -> a <= b -> b <= length ms ->
    (c <- co_sequential reserved (APos ms) ;; s <- getslice reserved c a b ;; s' <- append reserved s m ;; Ok (run_as s'))
    = Ok (MSeq (let l := firstn (b - a) (skipn a (infer_streams ms)) in
                if (0 <? a) && (2 * a <=? b) && (a <? b) then set_nth l (b - 2 * a) m else l ++ [m])).
Proof. intros F FA. exact append_to_slice. Qed.
Print Assumptions C58_append_to_slice.

(** net[:n] followed by net[n:] is net, in every history of calls. *)
Theorem C58_slices_compose :
  forall (F : Type) (FA : Frames F) (reserved : string -> bool) (ms : list (md F)) (n : nat),
    numerals_free reserved -> 0 < n -> n < length ms ->
    exists c p q, co_sequential reserved (APos ms) = Ok c /\
      getslice reserved c 0 n = Ok p /\ getslice reserved c n (length ms) = Ok q /\
      forall cs : list (call F),
        (exists e, run_calls (run_as c) cs = Err e /\ run_pair (run_as p, run_as q) cs = Err e) \/
        (exists ws m pq, run_calls (run_as c) cs = Ok (ws, m) /\ run_pair (run_as p, run_as q) cs = Ok (ws, pq)).
Proof. intros F FA. exact slices_compose. Qed.
Print Assumptions C58_slices_compose.

Definition conts (r : res (cont Z)) : cont Z := match r with Ok c => c | Err _ => CSeq [] end.

(** Four convolutions; a module appended to [1:4] replaces net[3]. *)
Example C58_example :
  let net := conts (co_sequential some_attributes (APos [cv [1] 1 0; cv [2] 1 0; cv [3] 1 0; cv [5] 1 0]%Z)) in
  let part := conts (getslice some_attributes net 1 4) in
  let app1 := conts (append some_attributes part (cv [10]%Z 1 0)) in
  map fst (kids part) = ["1"; "2"; "3"]%string /\
  fwd (run_as net) (VS [1; 2]%Z) = Ok (VS [30; 60]%Z) /\
  fwd (run_as part) (VS [1; 2]%Z) = Ok (VS [30; 60]%Z) /\
  map fst (kids app1) = ["1"; "2"; "3"]%string /\
  fwd (run_as app1) (VS [1; 2]%Z) = Ok (VS [60; 120]%Z) /\
  co_sequential some_attributes (ADict [("conv", cv [1]%Z 1 0); ("stride", cv [1]%Z 1 0)]%string) = Err KeyError.
Proof. vm_compute. repeat split. Qed.

(** C59.  Parallel and BroadcastReduce of the modules given. *)
Theorem C59_broadcast_reduce :
  forall (F : Type) (FA : Frames F) (reserved : string -> bool) (ms : list (md F)) (r : red F) (auto : bool),
    numerals_free reserved ->
    (exists e, co_br reserved (APos ms) r auto = Err e /\ mk_br ms r auto = Err e) \/
    (exists c, co_br reserved (APos ms) r auto = Ok c /\ mk_br ms r auto = Ok (run_as c) /\
       c_delay c = del (run_as c) /\ c_rf c = rfield (run_as c)).
Proof.
  intros F FA reserved ms r auto NF.
  destruct (br_pos reserved ms r auto NF) as [H|(c & A & B & C & D & _)]; [left; exact H|right; exists c; auto].
Qed.
Print Assumptions C59_broadcast_reduce.

Theorem C59_parallel :
  forall (F : Type) (FA : Frames F) (reserved : string -> bool) (ms : list (md F)) (auto : bool),
    numerals_free reserved ->
    (exists e, co_parallel reserved (APos ms) auto = Err e /\ mk_par ms auto = Err e) \/
    (exists c, co_parallel reserved (APos ms) auto = Ok c /\ mk_par ms auto = Ok (run_as c) /\
       c_delay c = del (run_as c) /\ c_rf c = rfield (run_as c)).
Proof.
  intros F FA reserved ms auto NF.
  destruct (par_pos reserved ms auto NF) as [H|(c & A & B & C & D & _)]; [left; exact H|right; exists c; auto].
Qed.
Print Assumptions C59_parallel.

(** append adds a branch as it is and leaves the reported delay and receptive field. *)
Theorem C59_append :
  forall (F : Type) (FA : Frames F) (reserved : string -> bool) (ms : list (md F)) (r : red F) (auto : bool) (c : cont F) (m : md F),
    numerals_free reserved -> co_br reserved (APos ms) r auto = Ok c ->
    exists c', append reserved c m = Ok c' /\ run_as c' = MBR (map snd (kids c) ++ [m]) r /\
      c_delay c' = c_delay c /\ c_rf c' = c_rf c.
Proof. intros F FA. exact br_append. Qed.
Print Assumptions C59_append.

(** With auto_delay=False that is the constructor's result if the new branch has the
    common stride and no larger delay or receptive field. *)
Theorem C59_append_is_constructor :
  forall (F : Type) (FA : Frames F) (reserved : string -> bool) (ms : list (md F)) (r : red F) (c : cont F) (m : md F),
    numerals_free reserved -> co_br reserved (APos ms) r false = Ok c ->
    strd m = strd (run_as c) -> (del m <= c_delay c)%Z -> (rfield m <= c_rf c)%Z ->
    append reserved c m = co_br reserved (APos (ms ++ [m])) r false.
Proof. intros F FA. exact br_append_constructor. Qed.
Print Assumptions C59_append_is_constructor.

(** Otherwise it is not: BroadcastReduce(conv1x1, conv1x1).append(conv3) reports delay 0,
    gives its first output at step 1, and adds frames of different times (frame n of the
    short branches to the output centred at frame n-1); the constructor aligns them.  A
    branch of another stride, which the constructor refuses, is accepted. *)
Theorem C59_append_refuted :
  let a := cv [1]%Z 1 0 in let b := cv [10]%Z 1 0 in let m := cv [100; 200; 300]%Z 1 1 in
  exists c c' k m1 m2,
    co_br some_attributes (APos [a; b]) zred true = Ok c /\ append some_attributes c m = Ok c' /\
    co_br some_attributes (APos [a; b; m]) zred true = Ok k /\
    c_delay c' = 0%Z /\ del (run_as c') = 1%Z /\ c_rf c' = 1%Z /\ rfield (run_as c') = 3%Z /\ c_delay k = 1%Z /\
    run_calls (run_as c') [CStep (VT 1) true; CStep (VT 2) true; CStep (VT 3) true]%Z = Ok ([VNone; VT 822; VT 1433]%Z, m1) /\
    run_calls (run_as k) [CStep (VT 1) true; CStep (VT 2) true; CStep (VT 3) true]%Z = Ok ([VNone; VT 811; VT 1422]%Z, m2) /\
    (exists s, append some_attributes c (cv [1; 1]%Z 2 0) = Ok s) /\
    co_br some_attributes (APos [a; b; cv [1; 1]%Z 2 0]) zred true = Err AssertionError.
Proof.
  cbv zeta. do 5 eexists.
  split; [vm_compute; reflexivity|]. split; [vm_compute; reflexivity|]. split; [vm_compute; reflexivity|].
  do 5 (split; [vm_compute; reflexivity|]). split; [vm_compute; reflexivity|]. split; [vm_compute; reflexivity|].
  split; [eexists; vm_compute; reflexivity|vm_compute; reflexivity].
Qed.
Print Assumptions C59_append_refuted.

(** Slices of at least two branches with a common delay sum their outputs, whatever the
    reduction was; shorter slices raise. *)
Theorem C59_slice :
  forall (F : Type) (FA : Frames F) (reserved : string -> bool) (ms : list (md F)) (r : red F) (auto : bool) (c : cont F) (a b : nat),
    numerals_free reserved -> co_br reserved (APos ms) r auto = Ok c -> b <= length ms ->
    (forall D, (forall m, In m (map snd (kids c)) -> del m = D) -> a + 2 <= b ->
       exists c', getslice reserved c a b = Ok c' /\ run_as c' = MBR (firstn (b - a) (skipn a (map snd (kids c)))) sum_red) /\
    (b <= a + 1 -> getslice reserved c a b = Err AssertionError).
Proof.
  intros F FA reserved ms r auto c a b NF E Hb.
  exact (conj (fun D HD Hab => br_slice reserved ms r auto c a b D NF E HD Hab Hb) (br_slice_short reserved ms r auto c a b E)).
Qed.
Print Assumptions C59_slice.

(** Slices of a Parallel are aligned, also if auto_delay=False was given: every branch that
    is faster than the slowest of the slice gets a Delay.  An empty slice raises. *)
Theorem C59_slice_parallel :
  forall (F : Type) (FA : Frames F) (reserved : string -> bool) (ms : list (md F)) (auto : bool) (c : cont F) (a b : nat),
    numerals_free reserved -> co_parallel reserved (APos ms) auto = Ok c ->
    (a < b -> b <= length ms ->
     exists c' ns D, getslice reserved c a b = Ok c' /\ run_as c' = MPar ns /\
       let old := firstn (b - a) (skipn a (map snd (kids c))) in
       (exists m, In m old /\ del m = D) /\
       Forall2 (fun m n => (del m <= D)%Z /\ (del m = D -> n = m) /\
                           ((del m < D)%Z -> n = MSeq [m; MDelay (Z.to_nat (D - del m)) Zeros ShNo obj_init])) old ns) /\
    (b <= a -> getslice reserved c a b = Err ValueError).
Proof. intros F FA. exact par_slice. Qed.
Print Assumptions C59_slice_parallel.

Example C59_slice_parallel_ex :
  exists c s, co_parallel some_attributes (APos [cv [1]%Z 1 0; cv [10; 20; 30]%Z 1 0; cv [5]%Z 1 0]) false = Ok c /\
    getslice some_attributes c 0 2 = Ok s /\ map del (map snd (kids c)) = [0; 2; 0]%Z /\ map del (map snd (kids s)) = [2; 2]%Z.
Proof. do 2 eexists. repeat split; vm_compute; reflexivity. Qed.

(** So net[:] is not net. *)
Theorem C59_whole_slice_refuted :
  let zmul : red Z := {| r_op := Z.mul; r_bcast := true; r_min2 := true |} in
  exists c s, co_br some_attributes (APos [cv [2]%Z 1 0; cv [3]%Z 1 0]) zmul true = Ok c /\
    getslice some_attributes c 0 2 = Ok s /\
    fwd (run_as c) (VS [1; 10]%Z) = Ok (VS [6; 600]%Z) /\ fwd (run_as s) (VS [1; 10]%Z) = Ok (VS [5; 50]%Z).
Proof. cbv zeta. do 2 eexists. repeat split; vm_compute; reflexivity. Qed.
Print Assumptions C59_whole_slice_refuted.

(** Appending to a Parallel after the number of streams was inferred raises. *)
Theorem C59_append_parallel_refuted :
  forall (F : Type) (FA : Frames F) (reserved : string -> bool) (g h k : F -> F) (r : red F) (x : F) (upd : bool),
    numerals_free reserved ->
    exists p p', co_parallel reserved (APos [MMap g; MMap h]) true = Ok p /\ append reserved p (MMap k) = Ok p' /\
      infer_streams [MBroadcast None; run_as p] = [MBroadcast (Some 2); run_as p] /\
      step (MSeq [MBroadcast (Some 2); run_as p'; MReduce r]) (VT x) upd = Err IndexError.
Proof.
  intros F FA reserved g h k r x upd NF.
  destruct (par_pos reserved [MMap g; MMap h] true NF) as [(e & _ & B)|(c & A & B & _ & _ & K)]; [discriminate B|].
  exists c. unfold co_parallel in A. cbn [items] in A. fold (numbered [MMap g; MMap h]) in A.
  cbn in B. injection B as B.
  destruct c as [d|d ? ?|d ? ? ?]; try discriminate B. cbn [run_as] in B. injection B as B.
  cbn [kids] in K. rewrite <- B in K.
  rewrite (append_numbered reserved (CPar d dly rf) [MMap g; MMap h] (MMap k) NF K).
  eexists. split; [exact A|]. split; [reflexivity|]. cbn [with_kids run_as]. rewrite numbered_snd, <- B.
  split; reflexivity.
Qed.
Print Assumptions C59_append_parallel_refuted.

Example C59_example :
  let c := conts (co_br some_attributes (APos [cv [1; 2; 3]%Z 1 1; cv [5]%Z 1 0]) zred true) in
  let c' := conts (append some_attributes c (cv [0; 1; 0]%Z 1 1)) in
  map fst (kids c') = ["0"; "1"; "2"]%string /\ c_delay c' = 1%Z /\ c_rf c' = 3%Z /\
  fwd (run_as c') (VS [1; 2; 3]%Z) = Ok (VS [14; 26; 26]%Z).
Proof. vm_compute. repeat split. Qed.
