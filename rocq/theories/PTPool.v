(** Property C56: pooling on whole tensors, in time and any number of spatial
    dimensions. *)
From Coq Require Import List ZArith Bool Arith Lia QArith Qcanon.
From Verif Require Import Base Frames CoMod Spec Tensor TPool TPoolSpec TPoolProof TPoolEntry.
Import ListNotations.
Close Scope Qc_scope. Close Scope Q_scope. Open Scope nat_scope.

(** C56.  Stepping the first [n] frames of a clip gives the frames of the tensor
    that [forward] returns for the clip, on the schedule of C01. *)
Theorem C56_step :
  forall (K : Type) (P : Pool K) (PL : PoolLaws K) (B C : nat) (sp : list nat) (c : tpool), tpool_ok sp c ->
  forall T X Y n, p_forward B C sp c T X = Ok Y -> n <= T ->
  exists o,
    feed (fun o x => p_forward_step B C sp c o x true) obj_init (pin_frames B C sp T X (seq 0 n))
    = Ok (map (scheduled (p_delay c) (p_s c) (pout_frames B C sp c T Y)) (seq 0 n), o).
Proof. exact @pool_tensor_step. Qed.
Print Assumptions C56_step.

(** Any number of single steps, then [forward_steps(pad_end=True)] on the rest:
    the frames of the result of [forward] were returned, and stacking them gives that
    result unless ceil_mode adds an output. *)
Theorem C56_pad_end :
  forall (K : Type) (P : Pool K) (PL : PoolLaws K) (B C : nat) (sp : list nat) (c : tpool), tpool_ok sp c ->
  forall T X Y n, p_forward B C sp c T X = Ok Y -> n < T ->
  exists os o1 o2 rest,
    feed (fun o x => p_forward_step B C sp c o x true) obj_init (pin_frames B C sp T X (seq 0 n)) = Ok (os, o1) /\
    p_forward_steps B C sp c o1 (pin_frames B C sp T X (seq n (T - n))) true true = Ok (stack_outs rest, o2) /\
    somes os ++ rest = pout_frames B C sp c T Y /\
    (p_clen c T = p_olen c T -> stack2 B C (p_osp sp c) (somes os ++ rest) = Y).
Proof. exact @pool_tensor_pad_end. Qed.
Print Assumptions C56_pad_end.

(** [forward] accepts every clip that is long enough for the kernel. *)
Theorem C56_forward_shape :
  forall (K : Type) (P : Pool K) (B C : nat) (sp : list nat) (c : tpool), tpool_ok sp c ->
  forall T X, 1 <= T -> p_k c <= T + 2 * p_p c ->
  exists Y, p_forward B C sp c T X = Ok Y /\
    length Y = size (B :: C :: pool_out_dims (p_ceil c) (T :: sp) (p_k c :: p_ks c) (p_s c :: p_ss c) (p_p c :: p_ps c) (1 :: p_ds c)).
Proof. exact @pool_forward_shape. Qed.
Print Assumptions C56_forward_shape.

(** ceil_mode changes nothing if the stride fits the clip. *)
Theorem C56_ceil_harmless :
  forall (K : Type) (P : Pool K) (sp : list nat) (c : tpool), tpool_ok sp c ->
  forall T, p_k c <= T + 2 * p_p c ->
  p_ceil c = false \/ (T + 2 * p_p c - p_k c) mod p_s c = 0 -> p_clen c T = p_olen c T.
Proof. exact @ceil_harmless. Qed.
Print Assumptions C56_ceil_harmless.

(** Every entry that [forward] returns is joined from the entries of the clip in its
    window and, for the average, divided by divisor_override or by the number of
    entries in the window, with those in the padding unless count_include_pad=False.
    There is an entry for each window that begins early enough.  The dilation of
    AvgPool is always 1. *)
Theorem C56_forward_entry :
  forall (K : Type) (P : Pool K) (PL : PoolLaws K) (B C : nat) (sp : list nat) (c : tpool) T X Y,
  length (p_ks c) = length sp -> length (p_ss c) = length sp -> length (p_ps c) = length sp -> length (p_ds c) = length sp ->
  Forall (fun s => 1 <= s) (p_s c :: p_ss c) -> Forall (fun d => 1 <= d) (p_ds c) ->
  (forall n (v : K), pscale n v = v) \/ Forall (fun d => d = 1) (p_ds c) ->
  p_forward B C sp c T X = Ok Y ->
  forall b ch q, b < B -> ch < C ->
  let W w := windows w (T :: sp) (p_k c :: p_ks c) (p_s c :: p_ss c) (p_p c :: p_ps c) (1 :: p_ds c) q in
  let od := pool_out_dims (p_ceil c) (T :: sp) (p_k c :: p_ks c) (p_s c :: p_ss c) (p_p c :: p_ps c) (1 :: p_ds c) in
  have_windows (p_ceil c) (T :: sp) (p_k c :: p_ks c) (p_s c :: p_ss c) (p_p c :: p_ps c) (1 :: p_ds c) q ->
  offset (B :: C :: od) (map Z.of_nat (b :: ch :: q)) <> None /\
  at_ (B :: C :: od) Y (map Z.of_nat (b :: ch :: q)) =
  pscale (match p_div c with Some n => n | None => length (W (if p_cip c then pwindow else window)) end)
    (ksum (map (fun ix => at_ (B :: C :: T :: sp) X (map Z.of_nat (b :: ch :: ix))) (W window))).
Proof. exact @forward_entry. Qed.
Print Assumptions C56_forward_entry.

(* ------------------------------------------------------------------ *)
(** ** Average and maximum *)

(** Rationals: the average.  There is no -inf; the value stands for any number. *)
Definition qdiv (n : nat) (x : Qc) : Qc := Qcmult x (Qcinv (Q2Qc (inject_Z (Z.of_nat n)))).
Lemma qdiv_op n a b : qdiv n (Qcplus a b) = Qcplus (qdiv n a) (qdiv n b).
Proof. apply Qcmult_plus_distr_l. Qed.
Lemma qdiv_e n : qdiv n (Q2Qc 0) = Q2Qc 0.
Proof. apply Qcmult_0_l. Qed.
Lemma qdiv_mul m n a : qdiv m (qdiv n a) = qdiv (m * n) a.
Proof.
  unfold qdiv. rewrite <- Qcmult_assoc. f_equal. apply Qc_is_canon. unfold Qcmult, Qcinv, Q2Qc. cbn [this].
  rewrite !Qred_correct, <- Qinv_mult_distr, Nat2Z.inj_mul, inject_Z_mult. apply Qinv_comp. apply Qmult_comm.
Qed.
Lemma qdiv_1 a : qdiv 1 a = a.
Proof. apply Qc_is_canon. unfold qdiv. cbn [Z.of_nat Pos.of_succ_nat]. unfold Qcmult, Qcinv, Q2Qc. cbn [this]. rewrite !Qred_correct. apply Qmult_1_r. Qed.
#[global] Instance QAvg : Pool Qc := {|
  pe := Q2Qc 0; pop := Qcplus; pscale := qdiv; pz := Q2Qc 0; pninf := Q2Qc (inject_Z (-1)); pmode_ := Zeros
|}.
#[global] Instance QAvgLaws : PoolLaws Qc := {|
  pop_comm := Qcplus_comm; pop_assoc := Qcplus_assoc; pop_e := Qcplus_0_l; pscale_op := qdiv_op; pscale_e := qdiv_e;
  pscale_mul := qdiv_mul; pscale_1 := qdiv_1; pmode_e := eq_refl
|}.

(** Integers and -inf (None): the maximum. *)
Definition omax (a b : option Z) : option Z :=
  match a, b with None, _ => b | _, None => a | Some x, Some y => Some (Z.max x y) end.
Lemma omax_comm a b : omax a b = omax b a.
Proof. destruct a, b; cbn; f_equal; lia. Qed.
Lemma omax_assoc a b c : omax a (omax b c) = omax (omax a b) c.
Proof. destruct a, b, c; cbn; f_equal; lia. Qed.
#[global] Instance ZMax : Pool (option Z) := {|
  pe := None; pop := omax; pscale := fun _ x => x; pz := Some 0%Z; pninf := None; pmode_ := NegInf
|}.
#[global] Instance ZMaxLaws : PoolLaws (option Z) := {|
  pop_comm := omax_comm; pop_assoc := omax_assoc; pop_e := fun _ => eq_refl; pscale_op := fun _ _ _ => eq_refl;
  pscale_e := fun _ => eq_refl; pscale_mul := fun _ _ _ => eq_refl; pscale_1 := fun _ => eq_refl;
  pmode_e := eq_refl
|}.

(** Kernel (3, 2), stride (2, 2), padding (1, 1), and the same with two spatial
    dimensions. *)
Definition ex_pool (d2 : bool) (f : fill) (ceil cip : bool) (div sdiv : option nat) : tpool :=
  let sq (n : nat) := if d2 then [n] else [n; n] in
  {| p_k := 3; p_ks := sq 2; p_s := 2; p_ss := sq 2; p_p := 1; p_ps := sq 1; p_ds := sq 1;
     p_ceil := ceil; p_cip := cip; p_div := div; p_sdiv := sdiv; p_fill := f |}.
Definition ex_sp (d2 : bool) : list nat := if d2 then [4] else [4; 3].
Definition ex_qs (n : nat) : list Qc := map (fun i => Q2Qc (inject_Z (Z.of_nat (i * i mod 17)))) (seq 0 n).
Definition ex_zs (n : nat) : list (option Z) := map (fun i => Some (Z.of_nat (i * i mod 17) - 20)%Z) (seq 0 n).
Definition nums : list Qc -> list (Z * Z) := map (fun q => (Qnum (this q), Zpos (Qden (this q)))).

Lemma ex_avg_ok d2 ceil : tpool_ok (P := QAvg) (ex_sp d2) (ex_pool d2 Zeros ceil true None None).
Proof. destruct d2; constructor; cbn; auto with arith; right; reflexivity. Qed.
Lemma ex_max_ok d2 ceil : tpool_ok (P := ZMax) (ex_sp d2) (ex_pool d2 NegInf ceil true None None).
Proof. destruct d2; constructor; cbn; auto with arith; right; reflexivity. Qed.

(** Five frames of 4 positions, batch of 2, 2 channels: an average over up to six
    entries. *)
Example C56_step_avg_ex :
  let c := ex_pool true Zeros true true None None in
  tpool_ok (P := QAvg) [4] c /\ p_delay c = 1 /\ p_olen c 5 = 3 /\ p_clen c 5 = 3 /\
  exists Y, p_forward 2 2 [4] c 5 (ex_qs 80) = Ok Y /\ length Y = 36 /\
    firstn 4 (nums Y) = [(8, 3); (5, 2); (4, 1); (37, 6)]%Z.
Proof.
  cbv zeta. split; [apply (ex_avg_ok true)|]. split; [reflexivity|]. split; [reflexivity|]. split; [reflexivity|].
  unfold p_forward, poolnd. cbn [p_k p_ks p_s p_ss p_p p_ps p_ds p_ceil p_cip p_div ex_pool].
  match goal with |- exists Y, (if ?b then _ else _) = _ /\ _ => change b with true end. cbv iota.
  eexists. split; [reflexivity|]. split; [rewrite TensorProof.tab_len; reflexivity|]. vm_compute. reflexivity.
Qed.

(** A maximum in three dimensions; ceil_mode adds an output for six frames. *)
Example C56_step_max_ex :
  let c := ex_pool false NegInf true true None None in
  tpool_ok (P := ZMax) [4; 3] c /\ p_delay c = 1 /\ p_olen c 6 = 3 /\ p_clen c 6 = 4 /\
  exists Y, p_forward 1 2 [4; 3] c 6 (ex_zs 144) = Ok Y /\ length Y = 2 * 4 * 3 * 2 /\
    exists o, feed (fun o x => p_forward_step 1 2 [4; 3] c o x true) obj_init (pin_frames 1 2 [4; 3] 6 (ex_zs 144) (seq 0 6))
      = Ok ([None; Some (slice2 1 2 4 [3; 2] Y 0); None; Some (slice2 1 2 4 [3; 2] Y 1); None; Some (slice2 1 2 4 [3; 2] Y 2)], o).
Proof.
  cbv zeta. split; [apply (ex_max_ok false)|]. split; [reflexivity|]. split; [reflexivity|]. split; [reflexivity|].
  eexists. split; [vm_compute; reflexivity|]. split; [vm_compute; reflexivity|]. eexists. vm_compute. reflexivity.
Qed.

(** ceil_mode without count_include_pad: the last window of six frames of 4 positions,
    kernel (3, 2), stride (2, 2), padding (1, 1), reads one entry, the last. *)
Example C56_forward_entry_ex :
  let c := ex_pool true Zeros true false None None in
  have_windows true [6; 4] [3; 2] [2; 2] [1; 1] [1; 1] [3; 2] /\
  windows window [6; 4] [3; 2] [2; 2] [1; 1] [1; 1] [3; 2] = [[5; 3]] /\
  windows pwindow [6; 4] [3; 2] [2; 2] [1; 1] [1; 1] [3; 2] = [[6; 4]; [6; 5]; [7; 4]; [7; 5]] /\
  exists Y, p_forward 1 1 [4] c 6 (ex_qs 24) = Ok Y /\ nums (skipn 11 Y) = [(2, 1)]%Z /\ nums (skipn 23 (ex_qs 24)) = [(2, 1)]%Z.
Proof.
  cbv zeta. split; [cbn; repeat split; lia|]. split; [reflexivity|]. split; [reflexivity|].
  unfold p_forward, poolnd. cbn [p_k p_ks p_s p_ss p_p p_ps p_ds p_ceil p_cip p_div ex_pool].
  match goal with |- exists Y, (if ?b then _ else _) = _ /\ _ => change b with true end. cbv iota.
  eexists. split; [reflexivity|]. split; vm_compute; reflexivity.
Qed.

Example C56_pad_end_ex :
  let c := ex_pool true NegInf false true None None in
  exists Y, p_forward 2 2 [4] c 5 (ex_zs 80) = Ok Y /\
  exists o rest, p_forward_steps 2 2 [4] c obj_init (pin_frames 2 2 [4] 5 (ex_zs 80) (seq 0 5)) true true = Ok (Some rest, o) /\
    length rest = 3 /\ stack2 2 2 [3] rest = Y /\ firstn 4 Y = [Some (-4); Some (-12); Some (-5); Some (-4)]%Z.
Proof.
  cbv zeta. eexists. split; [vm_compute; reflexivity|]. do 2 eexists. split; [vm_compute; reflexivity|].
  repeat split; vm_compute; reflexivity.
Qed.

Example C56_forward_shape_ex :
  exists Y, p_forward 2 2 [4] (ex_pool true NegInf true true None None) 6 (ex_zs 96) = Ok Y /\
    pool_out_dims true [6; 4] [3; 2] [2; 2] [1; 1] [1; 1] = [4; 3] /\ length Y = 48.
Proof. eexists. split; [vm_compute; reflexivity|]. split; reflexivity. Qed.

Example C56_ceil_harmless_ex :
  p_clen (ex_pool true Zeros true true None None) 7 = 4 /\ p_clen (ex_pool true Zeros true true None None) 6 = 4 /\
  p_olen (ex_pool true Zeros true true None None) 7 = 4 /\ p_olen (ex_pool true Zeros true true None None) 6 = 3.
Proof. repeat split; reflexivity. Qed.

(* ------------------------------------------------------------------ *)
(** ** Arguments under which stepping is not [forward] *)

(** The whole clip given to [forward_steps(pad_end=True)] of a new module. *)
Definition differs {K} {P : Pool K} (B C : nat) (sp : list nat) (c : tpool) (T : nat) (X Y : list K) (ys : list (list K)) : Prop :=
  p_forward B C sp c T X = Ok Y /\
  (exists o, p_forward_steps B C sp c obj_init (pin_frames B C sp T X (seq 0 T)) true true = Ok (Some ys, o)) /\
  stack2 B C (p_osp sp c) ys <> Y.

Definition diffb (B C : nat) (sp : list nat) (c : tpool) (T : nat) (X : list Qc) : bool :=
  match p_forward B C sp c T X, p_forward_steps B C sp c obj_init (pin_frames B C sp T X (seq 0 T)) true true with
  | Ok Y, Ok (Some ys, _) =>
      if list_eq_dec (fun a b : Z * Z => match Z.eq_dec (fst a) (fst b), Z.eq_dec (snd a) (snd b) with
                                         | left e, left f => left (eq_trans (surjective_pairing a) (eq_trans (f_equal2 pair e f) (eq_sym (surjective_pairing b))))
                                         | right n, _ => right (fun e => n (f_equal fst e))
                                         | _, right n => right (fun e => n (f_equal snd e))
                                         end) (nums (stack2 B C (p_osp sp c) ys)) (nums Y) then false else true
  | _, _ => false
  end.
Lemma diffb_differs B C sp c T X : diffb B C sp c T X = true -> exists Y ys, differs B C sp c T X Y ys.
Proof.
  unfold diffb, differs. destruct (p_forward B C sp c T X) as [Y|]; [|discriminate].
  destruct (p_forward_steps _ _ _ _ _ _ _ _) as [[[ys|] o]|]; [|discriminate|discriminate].
  destruct (list_eq_dec _ _ _) as [|N]; [discriminate|]. intros _. exists Y, ys. split; [reflexivity|]. split; [eauto|].
  intros E. apply N. rewrite E. reflexivity.
Qed.

Definition with_div (c : tpool) (div sdiv : option nat) : tpool :=
  {| p_k := p_k c; p_ks := p_ks c; p_s := p_s c; p_ss := p_ss c; p_p := p_p c; p_ps := p_ps c; p_ds := p_ds c;
     p_ceil := p_ceil c; p_cip := p_cip c; p_div := div; p_sdiv := sdiv; p_fill := p_fill c |}.
Definition with_cip (c : tpool) (cip : bool) : tpool :=
  {| p_k := p_k c; p_ks := p_ks c; p_s := p_s c; p_ss := p_ss c; p_p := p_p c; p_ps := p_ps c; p_ds := p_ds c;
     p_ceil := p_ceil c; p_cip := cip; p_div := p_div c; p_sdiv := p_sdiv c; p_fill := p_fill c |}.

(** With divisor_override neither AvgPool2d (the spatial pooling does not get it,
    pooling.py:409-416) nor AvgPool3d (it gets it in addition to the division by the
    temporal kernel size, pooling.py:539-547) steps to [forward]. *)
Theorem C56_divisor_override_refuted : forall d2 : bool,
  exists (c : tpool) n B C sp T (X Y : list Qc) ys,
    length sp = (if d2 then 1 else 2) /\ tpool_ok (P := QAvg) sp c /\ n <> 0 /\
    differs B C sp (with_div c (Some n) (if d2 then None else Some n)) T X Y ys.
Proof.
  intros d2. exists (ex_pool d2 Zeros false true None None), 4, 1, 1, (ex_sp d2), 3, (ex_qs (if d2 then 12 else 36)).
  destruct (diffb_differs 1 1 (ex_sp d2) (with_div (ex_pool d2 Zeros false true None None) (Some 4) (if d2 then None else Some 4)) 3 (ex_qs (if d2 then 12 else 36))) as (Y & ys & H).
  { destruct d2; vm_compute; reflexivity. }
  exists Y, ys. split; [destruct d2; reflexivity|]. split; [apply ex_avg_ok|]. split; [lia|exact H].
Qed.
Print Assumptions C56_divisor_override_refuted.

(** With count_include_pad=False and temporal padding the temporal pooling of a step
    still divides by the kernel size (pooling.py:101-137). *)
Theorem C56_count_include_pad_refuted :
  exists (c : tpool) B C sp T (X Y : list Qc) ys,
    tpool_ok (P := QAvg) sp c /\ differs B C sp (with_cip c false) T X Y ys.
Proof.
  exists (ex_pool true Zeros false true None None), 1, 1, [4], 3, (ex_qs 12).
  destruct (diffb_differs 1 1 [4] (with_cip (ex_pool true Zeros false true None None) false) 3 (ex_qs 12)) as (Y & ys & H); [vm_compute; reflexivity|].
  exists Y, ys. split; [apply (ex_avg_ok true)|exact H].
Qed.
Print Assumptions C56_count_include_pad_refuted.

(** With ceil_mode=True [forward] may return a frame that stepping never returns. *)
Theorem C56_ceil_mode_refuted :
  exists (c : tpool) B C sp T (X Y : list (option Z)) ys,
    tpool_ok (P := ZMax) sp c /\ p_ceil c = true /\ differs B C sp c T X Y ys /\
    length ys = p_olen c T /\ length Y = size (B :: C :: S (p_olen c T) :: p_osp sp c).
Proof.
  exists (ex_pool true NegInf true true None None), 1, 1, [4], 6, (ex_zs 24). do 2 eexists.
  split; [apply (ex_max_ok true)|]. split; [reflexivity|]. split; [|split].
  - split; [vm_compute; reflexivity|]. split; [eexists; vm_compute; reflexivity|]. vm_compute. discriminate.
  - reflexivity.
  - reflexivity.
Qed.
Print Assumptions C56_ceil_mode_refuted.
