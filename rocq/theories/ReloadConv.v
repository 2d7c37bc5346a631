(** Proofs for C79: a convolution whose parameters are different at every step. *)
From Coq Require Import List ZArith Bool Arith Lia ZifyBool ZifyNat.
From Verif Require Import Base Frames CoMod Leaf Rnn Net Spec LeafSpec Ring LeafProof NetSpec NetOk Calls NetRel Reload ReloadSpec.
Import ListNotations.
Ltac Zify.zify_post_hook ::= Z.div_mod_to_equations.

Section ReloadConv.
Context {F : Type} {FA : Frames F} {FL : FrameLaws F}.
Variables (k s p : nat) (g : Z -> conv_cfg F) (h : Z -> F).
Hypothesis Hsh : forall z, shaped k s p (g z).
Hypothesis Hok : forall z, conv_ok (g z).
Hypothesis Hpast : forall z, (z < 0)%Z -> g z = g 0%Z /\ h z = make_padding (cfill (g 0%Z)) (h 0%Z).

Definition lval (n : nat) : F :=
  add_bias (cb (g (Z.of_nat n)))
    (fsum (map (fun i => let z := (Z.of_nat n - Z.of_nat (k - 1) + Z.of_nat i)%Z in cW (g z) i (h z)) (seq 0 k))).
Definition lout (n : nat) : option F := if emits (k - 1 - p) s n then Some (lval n) else None.

Definition lstate (n : nat) : obj (list F) :=
  Obj (ring (k - 1) (fun z => row_of (g z) (h z)) (Z.of_nat n))
      (Z.of_nat n mod Z.of_nat (k - 1))
      (str_at (Z.of_nat s - Z.of_nat k + Z.of_nat p) s n).

Lemma learn_step n : 2 <= k ->
  conv_fstep (g (Z.of_nat n)) (h (Z.of_nat n)) (Some (lstate n)) = Ok (lout n, Some (lstate (S n))).
Proof.
  intros Hk. set (c := g (Z.of_nat n)). destruct (Hsh (Z.of_nat n)) as (Ek & Es & Ep). fold c in Ek, Es, Ep.
  pose proof (Hok (Z.of_nat n)) as Hc. fold c in Hc. unfold conv_fstep.
  assert (St : conv_stateless c = false) by (unfold conv_stateless; lia). rewrite St. cbn [pad_time bind]. unfold pad_time. cbn [make_padding bind].
  change (repeat f0 (ck c - 1) ++ h (Z.of_nat n) :: repeat f0 (ck c - 1)) with (repeat f0 (ck c - 1) ++ [h (Z.of_nat n)] ++ repeat f0 (ck c - 1)).
  rewrite xcorr_frame by auto. cbn -[ring conv_gather Z.mul Z.add Nat.ltb lval]. rewrite Ek, Es.
  assert (Hv : Z.eqb (str_at (Z.of_nat s - Z.of_nat k + Z.of_nat p) s n) (Z.of_nat s - 1) = emits (k - 1 - p) s n).
  { destruct Hc. rewrite <- str_at_valid by lia. do 2 f_equal. lia. }
  rewrite Hv. replace (Nat.ltb 1 k) with true by lia. rewrite (ring_set (k - 1) (fun z => row_of (g z) (h z))) by (auto; lia).
  assert (Hg : conv_gather (ring (k - 1) (fun z => row_of (g z) (h z)) (Z.of_nat n)) (Z.of_nat n mod Z.of_nat (k - 1)) (k - 1)
     = Ok (map (fun i => let z := (Z.of_nat n - Z.of_nat (k - 1) + Z.of_nat i)%Z in cW (g z) i (h z)) (seq 0 (k - 1)))).
  { unfold conv_gather. apply mapM_ok. intros m Hm%in_seq. rewrite Zplus_mod_idemp_r, ring_get by lia. cbn [bind].
    set (z := (Z.of_nat n - Z.of_nat (k - 1) + Z.of_nat m)%Z). pose proof (row_get (g z) (h z) m) as G. rewrite (proj1 (Hsh z)) in G. now rewrite G by lia. }
  rewrite Hg.
  assert (Hnext : lstate (S n) = Obj (ring (k - 1) (fun z : Z => row_of (g z) (h z)) (Z.of_nat n + 1))
         ((Z.of_nat n mod Z.of_nat (k - 1) + 1) mod Z.of_nat (k - 1))
         (let ns := (str_at (Z.of_nat s - Z.of_nat k + Z.of_nat p) s n + 1)%Z in
          if Z.ltb 0 ns then (ns mod Z.of_nat s)%Z else ns)).
  { unfold lstate. rewrite str_at_next by (destruct Hc; lia). rewrite Zplus_mod_idemp_l. f_equal; [f_equal|f_equal]; lia. }
  rewrite Hnext. cbv zeta. unfold lout.
  assert (Hval : add_bias (cb c) (fadd (cW c (k - 1) (h (Z.of_nat n)))
     (fsum (map (fun i => let z := (Z.of_nat n - Z.of_nat (k - 1) + Z.of_nat i)%Z in cW (g z) i (h z)) (seq 0 (k - 1))))) = lval n).
  { unfold lval. fold c. f_equal.
    replace (seq 0 k) with (seq 0 (k - 1) ++ [k - 1]) by (replace k with ((k - 1) + 1) at 3 by lia; rewrite seq_app; reflexivity).
    rewrite map_app, fsum_app. cbn [map fsum fold_right]. rewrite fadd_0_r, fadd_comm. f_equal. cbv zeta.
    replace (Z.of_nat n - Z.of_nat (k - 1) + Z.of_nat (k - 1))%Z with (Z.of_nat n) by lia. reflexivity. }
  cbv zeta in Hval. destruct (emits (k - 1 - p) s n); cbn [bind]; [|reflexivity]. now rewrite Hval.
Qed.

Lemma learn_first : 2 <= k -> conv_fstep (g 0%Z) (h 0%Z) None = Ok (lout 0, Some (lstate 1)).
Proof.
  intros Hk. rewrite <- (learn_step 0 Hk). cbn [Z.of_nat]. destruct (Hsh 0%Z) as (Ek & Es & Ep). pose proof (Hok 0%Z) as Hc.
  rewrite conv_fstep_init by (auto; lia).
  assert (E : conv_init (g 0%Z) (row_of (g 0%Z) (h 0%Z)) = lstate 0); [|now rewrite E].
  unfold conv_init, lstate. cbn [Z.of_nat]. rewrite Ek, Es, Ep.
  rewrite ring_init with (v := row_of (g 0%Z) (conv_v (g 0%Z) (h 0%Z))).
  2:{ intros z Hz. destruct (Hpast z Hz) as [-> ->]. reflexivity. }
  rewrite repeat_length, Z.mod_0_l by lia. rewrite str_at_0 by (destruct Hc; lia). f_equal; [|lia]. f_equal.
  unfold row_of, conv_v. rewrite map_map. apply map_ext. intros j.
  destruct Hc. destruct (cfill (g 0%Z)); simpl; auto. contradiction.
Qed.

Definition lobj (n : nat) : obj (list F) := match n with 0 => obj_init | _ => lstate n end.

Lemma learn_call n : 2 <= k -> conv_forward_step (g (Z.of_nat n)) (lobj n) (h (Z.of_nat n)) true = Ok (lout n, lobj (S n)).
Proof.
  intros Hk. unfold conv_forward_step, co_forward_step. destruct n as [|n].
  - change (obj_get (lobj 0)) with (@None (obj (list F))). change (Z.of_nat 0) with 0%Z. rewrite learn_first by auto. reflexivity.
  - assert (G : obj_get (lobj (S n)) = Some (lstate (S n))).
    { unfold obj_get, lobj, lstate. cbn [o_buf]. destruct (ring _ _ _) eqn:E; auto. apply (f_equal (@length _)) in E. rewrite ring_length in E. cbn in E. lia. }
    rewrite G, learn_step by auto. reflexivity.
Qed.

Lemma learn_feed m : 2 <= k -> forall n,
  feed_learning (lobj n) (map (fun i => (g (Z.of_nat i), h (Z.of_nat i))) (seq n m)) = Ok (map lout (seq n m), lobj (n + m)).
Proof.
  intros Hk. induction m as [|m IH]; intros n; cbn [seq map feed_learning]; [now rewrite Nat.add_0_r|].
  rewrite learn_call by auto. cbn [bind]. rewrite IH. cbn [bind]. do 3 f_equal. lia.
Qed.

Lemma learn_feed1 m : k = 1 -> forall n,
  feed_learning obj_init (map (fun i => (g (Z.of_nat i), h (Z.of_nat i))) (seq n m)) = Ok (map lout (seq n m), obj_init).
Proof.
  intros Hk. induction m as [|m IH]; intros n; cbn [seq map feed_learning]; [reflexivity|].
  destruct (Hsh (Z.of_nat n)) as (Ek & Es & Ep). pose proof (Hok (Z.of_nat n)) as Hc.
  unfold conv_forward_step, co_forward_step. change (obj_get obj_init) with (@None (obj (list F))). rewrite conv1_fstep by (auto; lia). cbn [bind].
  change (@Obj (list F) [] 0 0) with (@obj_init (list F)). rewrite IH. cbn [bind].
  assert (E : lout n = Some (conv1_val (g (Z.of_nat n)) (h (Z.of_nat n)))).
  { destruct Hc. assert (S1 : s = 1) by (rewrite <- Es; apply cok_1; lia). unfold lout, emits. rewrite S1, Hk. rewrite Nat.mod_1_r. replace (1 - 1 - p <=? n) with true by lia.
    cbn [andb Nat.eqb]. unfold lval, conv1_val. rewrite Hk. cbn [seq map fsum fold_right]. cbv zeta.
    replace (Z.of_nat n - Z.of_nat (1 - 1) + Z.of_nat 0)%Z with (Z.of_nat n) by lia. reflexivity. }
  now rewrite E.
Qed.
End ReloadConv.

Theorem online_learning (F : Type) (FA : Frames F) (FL : FrameLaws F) (k s p : nat) (l : list (conv_cfg F * F)) (d : conv_cfg F) :
  (forall c x, In (c, x) l -> conv_ok c /\ shaped k s p c) -> conv_ok d -> shaped k s p d ->
  exists o, feed_learning obj_init l
    = Ok (map (fun n => if emits (k - 1 - p) s n then Some (learned l d k n) else None) (seq 0 (length l)), o).
Proof.
  intros Hl Hd Hsd. set (g := params_at l d). set (h := frame_at l d).
  assert (A : forall z, conv_ok (g z) /\ shaped k s p (g z)).
  { intros z. unfold g, params_at. destruct (nth_in_or_default (Z.to_nat z) l (d, f0)) as [H|H].
    - destruct (nth (Z.to_nat z) l (d, f0)) as [c x]. exact (Hl c x H).
    - rewrite H. cbn [fst]. auto. }
  assert (P : forall z, (z < 0)%Z -> g z = g 0%Z /\ h z = make_padding (cfill (g 0%Z)) (h 0%Z)).
  { intros z Hz. unfold g, h, params_at, frame_at. replace (Z.to_nat z) with 0 by lia. replace (Z.ltb z 0) with true by lia. split; reflexivity. }
  assert (E : l = map (fun i => (g (Z.of_nat i), h (Z.of_nat i))) (seq 0 (length l))).
  { apply nth_error_ext. intros j. rewrite nth_error_map_seq. destruct (Nat.ltb_spec j (length l)) as [Hj|Hj].
    - rewrite (nth_error_nth' l (d, f0) Hj). unfold g, h, params_at, frame_at. cbn [Nat.add]. replace (Z.ltb (Z.of_nat j) 0) with false by lia. rewrite Nat2Z.id. f_equal. apply surjective_pairing.
    - apply nth_error_None. lia. }
  assert (Hk : 1 <= k) by (destruct (A 0%Z) as [[] (<- & _)]; auto).
  destruct (Nat.eq_dec k 1) as [H1|H1].
  - exists obj_init. rewrite E at 1. rewrite (learn_feed1 k s p g h (fun z => proj2 (A z)) (fun z => proj1 (A z)) P (length l) H1 0). reflexivity.
  - eexists. rewrite E at 1. change (@obj_init (list F)) with (lobj k s p g h 0).
    rewrite (learn_feed k s p g h (fun z => proj2 (A z)) (fun z => proj1 (A z)) P (length l) ltac:(lia) 0). reflexivity.
Qed.
