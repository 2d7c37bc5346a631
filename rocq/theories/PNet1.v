(** Properties C08-C12, C14, C15, C17, C18 and C45: networks. *)
From Coq Require Import List ZArith Bool Arith Lia.
From Verif Require Import Base Frames CoMod Leaf Rnn Net Spec LeafSpec NetSpec Calls NetDef.
From Verif Require Import NetProps NetFwd NetPad NetAcc NetAlg NetThm ZFrames ZNets.
Import ListNotations.

(** C08.  In every state reached by feeding, peeking, forward and clean_state,
    any two ways of cutting the next part of the stream into single frames and
    clips return the same frames and reach the same state. *)
Theorem C08_chunking :
  forall (F : Type) (FA : Frames F) (sh : bool) (m0 m : md F) (history : list (call F)) ws
         (cs cs' : list (chunk F)),
    net sh m0 ->
    run_calls m0 history = Ok (ws, m) -> forallb stream_call history = true ->
    (forall c, In c cs -> frames c <> []) -> (forall c, In c cs' -> frames c <> []) ->
    concat (map frames cs) = concat (map frames cs') ->
    exists ys m', run_chunks m cs = Ok (ys, m') /\ run_chunks m cs' = Ok (ys, m').
Proof. intros F FA sh m0 m history ws cs cs'. exact (chunking sh m0 history ws m cs cs'). Qed.
Print Assumptions C08_chunking.

Example C08_example :
  exists m1 m2,
    run_calls ex_net [CStep (VT 1%Z) true; CSteps (VS [9; 9]%Z) true false; CSteps (VS [2; 3]%Z) false true]
      = Ok ([VNone; VS [19360%Z]; VNone], m1) /\
    run_chunks m1 [Clip [4; 5]; Frame 6; Clip [7; 8; 9]]%Z = Ok ([18669; 33750; 48534]%Z, m2) /\
    run_chunks m1 [Frame 4; Frame 5; Frame 6; Frame 7; Frame 8; Frame 9]%Z = Ok ([18669; 33750; 48534]%Z, m2).
Proof. runs. Qed.

(** C09.  One call with pad_end=True on a clean network is [forward]. *)
Theorem C09_pad_end_is_forward :
  forall (F : Type) (FA : Frames F) (FL : FrameLaws F) (m : md F) (xs zs : list F),
    net false m -> xs <> [] -> nfwd m xs = Ok zs ->
    exists m', steps m (VS xs) true true = Ok (of_clip (stack_outs zs), m').
Proof. exact @net_pad_end. Qed.
Print Assumptions C09_pad_end_is_forward.

(** The last chunk may also come after single steps, if it is long enough to
    produce an output before the end padding. *)
Theorem C09_pad_end_after_steps :
  forall (F : Type) (FA : Frames F) (FL : FrameLaws F) (m : md F) (xs1 xs2 zs : list F) os m1,
    net false m -> xs2 <> [] ->
    nfwd m (xs1 ++ xs2) = Ok zs -> feed (nstep true) m xs1 = Ok (os, m1) ->
    Z.to_nat (del m) + Z.to_nat (strd m) <= length xs2 ->
    exists m2 rest,
      steps m1 (VS xs2) true true = Ok (of_clip (stack_outs rest), m2) /\ somes os ++ rest = zs.
Proof. exact @net_pad_end_mid. Qed.
Print Assumptions C09_pad_end_after_steps.

(** Networks that satisfy conditions on the reported numbers only are well
    formed: the hypothesis can be discharged without looking at [forward]. *)
Theorem C09_regular_networks :
  forall (F : Type) (FA : Frames F) (sh : bool) (m : md F), regular sh m -> net sh m.
Proof. exact @regular_is_net. Qed.
Print Assumptions C09_regular_networks.

(** [forward] accepts every long enough clip, with as many outputs as wanted. *)
Theorem C09_forward_accepts :
  forall (F : Type) (FA : Frames F) (sh : bool) (m : md F),
    net sh m ->
    forall L, exists N, forall xs, N <= length xs -> exists ys, nfwd m xs = Ok ys /\ L <= length ys.
Proof. exact @net_accepts. Qed.
Print Assumptions C09_forward_accepts.

(** A final chunk too short for an intermediate stage loses end padding. *)
Theorem C09_pad_end_short_chunk_refuted :
  exists (m : md Z) xs1 xs2 zs os m1 m2 rest,
    net false m /\ xs2 <> [] /\ nfwd m (xs1 ++ xs2) = Ok zs /\
    feed (nstep true) m xs1 = Ok (os, m1) /\
    steps m1 (VS xs2) true true = Ok (of_clip (stack_outs rest), m2) /\ somes os ++ rest <> zs.
Proof.
  exists (mk_seq [cv [1; 1]%Z 2 0; cv [1; 10; 100]%Z 1 1]), [1; 2; 3; 4]%Z, [5]%Z.
  do 5 eexists. split.
  { apply net_seq. intros x [<-|[<-|[]]]; constructor; apply cv_ok; simpl; lia. }
  split; [discriminate|]. split; [runs|]. split; [runs|].
  split; [instantiate (2 := []); runs|]. discriminate.
Qed.
Print Assumptions C09_pad_end_short_chunk_refuted.

Example C09_example :
  net false ex_net /\
  nfwd ex_net [1; 2; 3; 4; 5; 6; 7; 8]%Z = Ok [18669; 33750; 45834; 18165]%Z /\
  (exists m', steps ex_net (VS [1; 2; 3; 4; 5; 6; 7; 8]%Z) true true = Ok (VS [18669; 33750; 45834; 18165]%Z, m')).
Proof. split; [apply ex_net_net|]. runs. Qed.

(** C10.  Values and schedule of single steps. *)
Theorem C10_step_schedule :
  forall (F : Type) (FA : Frames F) (FL : FrameLaws F) (sh : bool) (m : md F) (xs ws zs : list F),
    net sh m -> nfwd m (xs ++ ws) = Ok zs ->
    exists m',
      feed (nstep true) m xs
      = Ok (map (scheduled (Z.to_nat (del m)) (Z.to_nat (strd m)) zs) (seq 0 (length xs)), m').
Proof. exact @net_sched. Qed.
Print Assumptions C10_step_schedule.

(** The schedule does not depend on [forward] accepting anything. *)
Theorem C10_step_pattern :
  forall (F : Type) (FA : Frames F) (sh : bool) (m : md F) (xs : list F),
    net sh m ->
    exists ys m',
      feed (nstep true) m xs = Ok (ys, m') /\
      map is_some ys = map (emits (Z.to_nat (del m)) (Z.to_nat (strd m))) (seq 0 (length xs)).
Proof. exact @net_pattern. Qed.
Print Assumptions C10_step_pattern.

Example C10_example :
  del ex_net = 4%Z /\ strd ex_net = 2%Z /\
  nfwd ex_net [1; 2; 3; 4; 5; 6; 7; 8; 9; 9; 9; 9]%Z = Ok [18669; 33750; 48534; 61385; 63567; 22265]%Z /\
  exists m', feed (nstep true) ex_net [1; 2; 3; 4; 5; 6; 7; 8; 9]%Z
    = Ok ([None; None; None; None; Some 18669; None; Some 33750; None; Some 48534]%Z, m').
Proof. runs. Qed.
Example C10_example_shrink :
  net true ex_shrink /\ exists m', feed (nstep true) ex_shrink [1; 2; 3; 4]%Z
    = Ok ([None; None; Some 323; Some 435]%Z, m').
Proof. split; [apply ex_shrink_net|]. runs. Qed.

(** C11.  The last output depends on the last [receptive_field] frames only. *)
Theorem C11_receptive_field :
  forall (F : Type) (FA : Frames F) (FL : FrameLaws F) (sh : bool) (m : md F) (a a' b : list F),
    net sh m -> rnn_free m -> length a = length a' ->
    (rfield m <= Z.of_nat (length b))%Z -> b <> [] ->
    exists ys ys' y m1 m1',
      feed (nstep true) m (a ++ b) = Ok (ys ++ [y], m1) /\
      feed (nstep true) m (a' ++ b) = Ok (ys' ++ [y], m1').
Proof. exact @net_memory. Qed.
Print Assumptions C11_receptive_field.

(** The bound is sharp, and fails for recurrent modules (which report 1). *)
Theorem C11_receptive_field_sharp :
  exists (m : md Z) (a a' b : list Z) ys ys' m1 m1',
    net true m /\ rnn_free m /\ length a = length a' /\ (rfield m = Z.of_nat (length b) + 1)%Z /\
    feed (nstep true) m (a ++ b) = Ok (ys, m1) /\ feed (nstep true) m (a' ++ b) = Ok (ys', m1') /\
    last ys None <> last ys' None.
Proof.
  exists ex_net, [1; 1; 1; 1; 1; 1]%Z, [2; 2; 2; 2; 2; 2]%Z, [3; 3; 3; 3; 3; 3; 3]%Z. do 4 eexists.
  split; [apply ex_net_net|]. split; [cbn; tauto|]. split; [reflexivity|]. split; [runs|].
  split; [runs|]. split; [runs|]. discriminate.
Qed.
Print Assumptions C11_receptive_field_sharp.

Theorem C11_rnn_receptive_field_refuted :
  exists (m : md Z) (a a' b : list Z) ys ys' m1 m1',
    net true m /\ length a = length a' /\ (rfield m <= Z.of_nat (length b))%Z /\
    feed (nstep true) m (a ++ b) = Ok (ys, m1) /\ feed (nstep true) m (a' ++ b) = Ok (ys', m1') /\
    last ys None <> last ys' None.
Proof.
  exists zrnn, [1]%Z, [2]%Z, [3; 3; 3; 3]%Z. do 4 eexists.
  split; [constructor|]. split; [reflexivity|]. split; [vm_compute; discriminate|].
  split; [runs|]. split; [runs|]. discriminate.
Qed.
Print Assumptions C11_rnn_receptive_field_refuted.

Example C11_example :
  rfield ex_net = 8%Z /\
  exists m1 m2, feed (nstep true) ex_net ([1] ++ [3; 4; 5; 6; 7; 8; 9; 9])%Z = Ok ([None; None; None; None; Some 24592; None; Some 41121; None; Some 55626]%Z, m1) /\
                feed (nstep true) ex_net ([7] ++ [3; 4; 5; 6; 7; 8; 9; 9])%Z = Ok ([None; None; None; None; Some 30658; None; Some 41241; None; Some 55626]%Z, m2).
Proof. split; [reflexivity|]. runs. Qed.

(** C12.  Closed forms of the reported numbers of a Sequential. *)
Theorem C12_sequential_stride :
  forall (F : Type) (ms : list (md F)), strd (MSeq ms) = fold_right Z.mul 1%Z (map strd ms).
Proof. exact @seq_strd. Qed.
Print Assumptions C12_sequential_stride.

Theorem C12_sequential_receptive_field :
  forall (F : Type) (ms : list (md F)), rfield (MSeq ms) = (1 + weighted (fun m => rfield m - 1) ms)%Z.
Proof. exact @seq_rf. Qed.
Print Assumptions C12_sequential_receptive_field.

Theorem C12_sequential_padding :
  forall (F : Type) (ms : list (md F)), padg (MSeq ms) = weighted padg ms.
Proof. exact @seq_padg. Qed.
Print Assumptions C12_sequential_padding.

Theorem C12_sequential_delay :
  forall (F : Type) (FA : Frames F) (sh : bool) (ms : list (md F)),
    (forall m, In m ms -> net sh m) -> del (MSeq ms) = weighted del ms.
Proof. exact @seq_delay. Qed.
Print Assumptions C12_sequential_delay.

Theorem C12_rebracketing :
  forall (F : Type) (a b c : list (md F)),
    let m := MSeq (a ++ MSeq b :: c) in
    let m' := MSeq (a ++ b ++ c) in
    strd m = strd m' /\ padg m = padg m' /\ rfield m = rfield m' /\ del m = del m'.
Proof. exact @nest_reports. Qed.
Print Assumptions C12_rebracketing.

(** Number of output frames of [forward]. *)
Theorem C12_output_length_chain :
  forall (F : Type) (FA : Frames F) (m : md F) (xs ys : list F),
    chain m -> xs <> [] -> nfwd m xs = Ok ys ->
    Z.of_nat (length ys) = ((Z.of_nat (length xs) + 2 * padg m - rfield m) / strd m + 1)%Z.
Proof. exact @chain_length. Qed.
Print Assumptions C12_output_length_chain.

Theorem C12_output_length_network :
  forall (F : Type) (FA : Frames F) (sh : bool) (m : md F) (xs ys : list F),
    regular sh m -> xs <> [] -> nfwd m xs = Ok ys ->
    Z.of_nat (length ys) = ((Z.of_nat (length xs) + 2 * padg m - rfield m) / strd m + 1)%Z.
Proof. exact @regular_len. Qed.
Print Assumptions C12_output_length_network.

(** Delay and Skip do not follow the length formula, and Skip does not report its
    start-up. *)
Theorem C12_delay_skip_reports_refuted :
  (exists (m : md Z) xs ys, nfwd m xs = Ok ys /\
     Z.of_nat (length ys) <> ((Z.of_nat (length xs) + 2 * padg m - rfield m) / strd m + 1)%Z) /\
  (exists (m : md Z) xs ys m', feed (nstep true) m xs = Ok (ys, m') /\
     map is_some ys <> map (emits (Z.to_nat (del m)) (Z.to_nat (strd m))) (seq 0 (length xs))).
Proof.
  split.
  - exists (dl 2), [1; 2; 3]%Z, [1; 2; 3]%Z. split; [reflexivity|]. vm_compute. discriminate.
  - exists (MSkip 2 (skip_init 2)), [1; 2; 3]%Z. do 2 eexists. split; [runs|]. vm_compute. discriminate.
Qed.
Print Assumptions C12_delay_skip_reports_refuted.

Example C12_example :
  (strd ex_net, padg ex_net, rfield ex_net, del ex_net) = (2, 3, 8, 4)%Z /\
  length [18669; 33750; 45834; 18165]%Z = 4 /\ ((8 + 2 * 3 - 8) / 2 + 1 = 4)%Z.
Proof. runs. Qed.

(** C14.  [forward] and the calls with update_state=False can be erased. *)
Theorem C14_peek_erasure :
  forall (F : Type) (FA : Frames F) (history : list (call F)) (m : md F),
    cond_free m ->
    forall ws m', run_calls m history = Ok (ws, m') ->
    run_calls m (filter (fun c => negb (pure_call c)) history) = Ok (keep_outs history ws, m').
Proof. exact @peek_erasure. Qed.
Print Assumptions C14_peek_erasure.

(** A peek returns what the real call would return (no end padding). *)
Theorem C14_peek_value_step :
  forall (F : Type) (FA : Frames F) (m : md F) (v w : val F) (m' : md F),
    step m v true = Ok (w, m') -> step m v false = Ok (w, m).
Proof. exact @peek_step_val. Qed.
Print Assumptions C14_peek_value_step.

Theorem C14_peek_value_steps :
  forall (F : Type) (FA : Frames F) (m : md F),
    cond_free m -> forall (v w : val F) (m' : md F),
    steps m v false true = Ok (w, m') -> steps m v false false = Ok (w, m).
Proof. exact @peek_steps_val. Qed.
Print Assumptions C14_peek_value_steps.

(** Inside a Conditional forward_steps drops the flag. *)
Theorem C14_conditional_peek_refuted :
  exists (m : md Z) xs ys w m' ws m'',
    run_calls m [CSteps (VS xs) false false; CStep (VT 5%Z) true] = Ok ([w; ys], m') /\
    run_calls m [CStep (VT 5%Z) true] = Ok (ws, m'') /\ ws <> [ys].
Proof.
  exists (mk_cond (fun _ => true) (dl 1) None), [1; 2]%Z. do 5 eexists.
  split; [runs|]. split; [runs|]. discriminate.
Qed.
Print Assumptions C14_conditional_peek_refuted.

Example C14_example :
  exists m' , run_calls ex_res [CStep (VT 1) true; CSteps (VS [7; 7]) true false; CForward (VS [1; 2]);
                            CStep (VT 2) true; CStep (VT 9) false; CStep (VT 3) true]%Z
    = Ok ([VNone; VS [711; 778; 11]; VS [211; 23]; VT 211; VT 923; VT 323]%Z, m') /\
  run_calls ex_res [CStep (VT 1) true; CStep (VT 2) true; CStep (VT 3) true]%Z = Ok ([VNone; VT 211; VT 323]%Z, m').
Proof. runs. Qed.

(** C15.  clean_state after any history gives back the new network. *)
Theorem C15_clean_restores :
  forall (F : Type) (FA : Frames F) (m : md F) (history : list (call F)) ws m',
    cond_free m -> fresh m -> run_calls m history = Ok (ws, m') -> clean m' = m.
Proof. exact @clean_restores. Qed.
Print Assumptions C15_clean_restores.

Theorem C15_conditional_clean_refuted :
  exists (m : md Z) history ws m',
    fresh m /\ run_calls m history = Ok (ws, m') /\ clean m' <> m /\
    (exists w w' u u', step (clean m') (VT 5%Z) true = Ok (w, u) /\ step m (VT 5%Z) true = Ok (w', u') /\ w <> w').
Proof.
  exists (mk_cond (fun _ => true) (dl 1) None), [CStep (VT 3%Z) true]. do 2 eexists.
  split; [repeat split|]. split; [runs|]. split; [discriminate|].
  do 4 eexists. split; [runs|]. split; [runs|]. discriminate.
Qed.
Print Assumptions C15_conditional_clean_refuted.

Example C15_example :
  fresh ex_net /\ cond_free ex_net /\
  exists ws m', run_calls ex_net [CSteps (VS [1; 2; 3]%Z) false true; CStep (VT 5%Z) true] = Ok (ws, m') /\
    out (step m' (VT 5%Z) true) <> out (step ex_net (VT 5%Z) true) /\ clean m' = ex_net.
Proof.
  split; [cbn; tauto|]. split; [cbn; tauto|]. do 2 eexists. split; [runs|].
  split; [vm_compute; discriminate|]. vm_cast_no_check (eq_refl ex_net).
Qed.

(** C17.  End padding is not saved by a leaf module. *)
Theorem C17_leaf_end_not_saved :
  forall (F : Type) (FA : Frames F) (m : md F) (xs : list F) (upd : bool) (w : val F) (m' : md F),
    leaf m -> steps m (VS xs) true upd = Ok (w, m') ->
    exists w', steps m (VS xs) false upd = Ok (w', m').
Proof. exact @leaf_end_not_saved. Qed.
Print Assumptions C17_leaf_end_not_saved.

(** A Sequential saves the outputs of the end padding downstream: the next step
    differs. *)
Theorem C17_sequential_refuted :
  exists (m : md Z) xs w w' m1 m2 v v' m1' m2',
    net false m /\
    steps m (VS xs) true true = Ok (w, m1) /\ steps m (VS xs) false true = Ok (w', m2) /\
    step m1 (VT 1%Z) true = Ok (v, m1') /\ step m2 (VT 1%Z) true = Ok (v', m2') /\ v <> v'.
Proof.
  exists (mk_seq [cv [1; 10; 100]%Z 1 1; cv [1; 2; 3]%Z 1 0]), [1; 2; 3]%Z. do 8 eexists. split.
  { apply net_seq. intros x [<-|[<-|[]]]; constructor; apply cv_ok; simpl; lia. }
  split; [runs|]. split; [runs|].
  split; [runs|]. split; [runs|]. discriminate.
Qed.
Print Assumptions C17_sequential_refuted.

Example C17_example :
  exists w w' m', steps (cv [1; 10; 100]%Z 1 1) (VS [1; 2; 3]%Z) true true = Ok (w, m') /\
                  steps (cv [1; 10; 100]%Z 1 1) (VS [1; 2; 3]%Z) false true = Ok (w', m') /\ w <> w'.
Proof. do 3 eexists. split; [runs|]. split; [runs|]. discriminate. Qed.

(** C18.  pad_end=True with update_state=False agrees with update_state=True on a
    clean network, for every argument. *)
Theorem C18_clean_pad_end_peek :
  forall (F : Type) (FA : Frames F) (m : md F),
    fresh m -> cond_free m ->
    forall v, bind (steps m v true true) (fun p => Ok (fst p)) = bind (steps m v true false) (fun p => Ok (fst p)).
Proof. exact @clean_pad_end_peek. Qed.
Print Assumptions C18_clean_pad_end_peek.

(** It does not agree in mid-stream, already for one convolution. *)
Theorem C18_midstream_pad_end_peek_refuted :
  exists (m : md Z) x m1 xs w w' u u' m2,
    net false m /\ step m (VT x) true = Ok (w, m1) /\
    steps m1 (VS xs) true true = Ok (u, m2) /\ steps m1 (VS xs) true false = Ok (u', w') /\ u <> u'.
Proof.
  exists (cv [1; 10; 100]%Z 1 1), 1%Z. eexists. exists [2; 3]%Z. do 5 eexists.
  split; [constructor; apply cv_ok; simpl; lia|].
  split; [runs|]. split; [runs|]. split; [runs|]. discriminate.
Qed.
Print Assumptions C18_midstream_pad_end_peek_refuted.

Example C18_example :
  (exists m', steps ex_net (VS [1; 2; 3; 4]%Z) true true = Ok (VS [17169; 8269]%Z, m')) /\
  steps ex_net (VS [1; 2; 3; 4]%Z) true false = Ok (VS [17169; 8269]%Z, ex_net).
Proof. runs. Qed.

(** C45.  Nesting or flattening Sequentials is not observable in any history. *)
Theorem C45_nesting_unobservable :
  forall (F : Type) (FA : Frames F) (history : list (call F)) (a b c : list (md F)),
    b <> [] ->
    (exists e, run_calls (MSeq (a ++ MSeq b :: c)) history = Err e /\ run_calls (MSeq (a ++ b ++ c)) history = Err e) \/
    (exists ws m m', run_calls (MSeq (a ++ MSeq b :: c)) history = Ok (ws, m) /\
                     run_calls (MSeq (a ++ b ++ c)) history = Ok (ws, m')).
Proof. exact @nest_calls. Qed.
Print Assumptions C45_nesting_unobservable.

Example C45_example :
  exists m m',
    run_calls (MSeq [cv [1; 2]%Z 1 0; MSeq [dl 1; cv [1; 10; 100]%Z 1 1]])
      [CStep (VT 1) true; CSteps (VS [2; 3; 4; 5]) true true; CStep (VT 7) false]%Z = Ok ([VNone; VS [850; 1185; 1518; 151]; VT 1551]%Z, m) /\
    run_calls (MSeq [cv [1; 2]%Z 1 0; dl 1; cv [1; 10; 100]%Z 1 1])
      [CStep (VT 1) true; CSteps (VS [2; 3; 4; 5]) true true; CStep (VT 7) false]%Z = Ok ([VNone; VS [850; 1185; 1518; 151]; VT 1551]%Z, m').
Proof. runs. Qed.
