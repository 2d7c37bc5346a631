(** Proofs for C88. *)
From Coq Require Import List ZArith Bool Arith Lia.
From Verif Require Import Base Tensor TensorProof Axis AxisProof Glu.
Import ListNotations.

Lemma half_le n : n / 2 <= n.
Proof. apply Nat.div_le_upper_bound; lia. Qed.
Lemma half_sum i n : Nat.odd n = false -> i < n / 2 -> i + n / 2 < n.
Proof.
  intros Ho H. pose proof (Nat.div_mod n 2 ltac:(lia)). lia.
Qed.
Lemma upd_in : forall sh d m v ix, d < length sh -> m <= nth d sh 0 -> v < nth d sh 0 -> inr ix (upd d m sh) -> inr (upd d v ix) sh.
Proof.
  induction sh as [|n sh IH]; intros d m v ix Hd Hm Hv Hi; [cbn in Hd; lia|]. destruct d as [|d]; cbn [upd nth length] in *.
  - inversion Hi; subst. cbn [upd]. constructor; assumption.
  - inversion Hi; subst. cbn [upd]. constructor; [assumption|]. apply (IH d m v); try assumption; lia.
Qed.
Lemma upd_weak : forall sh d m ix, m <= nth d sh 0 -> inr ix (upd d m sh) -> inr ix sh.
Proof.
  induction sh as [|n sh IH]; intros d m ix Hm Hi; destruct d as [|d]; cbn [upd nth] in *; try exact Hi; inversion Hi; subst; constructor; try assumption; try lia.
  eapply IH; eassumption.
Qed.
Lemma upd_pos : forall sh d m ix, d < length sh -> inr ix (upd d m sh) -> nth d ix 0 < m.
Proof.
  induction sh as [|n sh IH]; intros d m ix Hd Hi; [cbn in Hd; lia|]. destruct d as [|d]; cbn [upd length] in *; inversion Hi; subst; cbn [nth]; [assumption|].
  eapply IH; [|eassumption]. lia.
Qed.

Section P.
Context {K : Type} {SC : Scal K}.
Variables (B C T : nat) (sp : list nat).

Lemma glu_slice h dim d (X : list K) n : dimension (3 + length sp) dim = Ok d -> d <> 2 -> n = nth d (B :: C :: T :: sp) 0 ->
  if Nat.odd n then
    glu h dim (B :: C :: T :: sp) X = Err RuntimeError /\ forall x, glu h dim (B :: C :: 1 :: sp) x = Err RuntimeError
  else
    let '(B', C', sp') := sizes B C sp d (n / 2) in
    exists y, glu h dim (B :: C :: T :: sp) X = Ok (B' :: C' :: T :: sp', y)
      /\ forall t, t < T -> glu h dim (B :: C :: 1 :: sp) (slice2 B C T sp X t) = Ok (B' :: C' :: 1 :: sp', slice2 B' C' T sp' y t).
Proof.
  intros Hd H2 En.
  assert (Hr : d < 3 + length sp) by (pose proof (dimension_all (3 + length sp) dim) as H; rewrite Hd in H; exact (proj1 H)).
  unfold glu. cbn [length]. cbn [plus] in Hd. rewrite Hd. cbn [bind].
  assert (En1 : nth d (B :: C :: 1 :: sp) 0 = n) by (subst n; destruct d as [|[|[|d]]]; try reflexivity; congruence).
  rewrite <- En, En1. destruct (Nat.odd n) eqn:Ho; [split; [reflexivity|intros; reflexivity]|].
  destruct (sizes B C sp d (n / 2)) as [[B' C'] sp'] eqn:Es.
  assert (Eu : forall T', upd d (n / 2) (B :: C :: T' :: sp) = B' :: C' :: T' :: sp').
  { intros T'. destruct d as [|[|[|d]]]; cbn [sizes upd] in *; try congruence. replace (S (S (S d)) - 3) with d in Es by lia. congruence. }
  rewrite !Eu. eexists. split; [reflexivity|]. intros t Ht. f_equal. f_equal. rewrite tab_one. unfold slice2 at 3. apply tab_ext.
  intros ix Hx. inversion Hx as [|b ? ix1 ? Hb H1 Z1 Z2]; subst ix; clear Z2. inversion H1 as [|c ? q ? Hc Hq Z1 Z2]; subst ix1; clear Z2.
  assert (HT : inr (b :: c :: t :: q) (B' :: C' :: T :: sp')) by (repeat constructor; assumption).
  assert (HU : inr (b :: c :: 0 :: q) (upd d (n / 2) (B :: C :: 1 :: sp))) by (rewrite Eu; repeat constructor; auto).
  rewrite at_tab_in by exact HT.
  assert (G0 : inr (b :: c :: 0 :: q) (B :: C :: 1 :: sp)) by (eapply upd_weak; [|exact HU]; rewrite En1; apply half_le).
  assert (Hp : nth d (b :: c :: 0 :: q) 0 < n / 2) by (eapply upd_pos; [|exact HU]; cbn [length]; lia).
  assert (G1 : inr (upd d (nth d (b :: c :: 0 :: q) 0 + n / 2) (b :: c :: 0 :: q)) (B :: C :: 1 :: sp)).
  { eapply upd_in; [cbn [length]; lia| | |exact HU]; rewrite En1; [apply half_le|apply half_sum; assumption]. }
  f_equal.
  - apply slice_at; assumption.
  - destruct d as [|[|[|d]]]; cbn [upd nth] in G1 |- *; try congruence; apply slice_at; assumption.
Qed.

Lemma glu_time h dim (x : list K) : dimension (3 + length sp) dim = Ok 2 -> glu h dim (B :: C :: 1 :: sp) x = Err RuntimeError.
Proof. intros Hd. unfold glu. cbn [length]. cbn [plus] in Hd. rewrite Hd. reflexivity. Qed.
End P.

Lemma glu_entry {K} {SC : Scal K} h dim d sh (x : list K) ix n : dimension (length sh) dim = Ok d -> nth d sh 0 = 2 * n -> inr ix (upd d n sh) ->
  exists y, glu h dim sh x = Ok (upd d n sh, y) /\ length y = size (upd d n sh)
    /\ at_ (upd d n sh) y (map Z.of_nat ix) = h (at_ sh x (map Z.of_nat ix)) (at_ sh x (map Z.of_nat (firstn d ix ++ (nth d ix 0 + n) :: skipn (S d) ix))).
Proof.
  intros Hd En Hx. unfold glu. rewrite Hd. cbn [bind]. rewrite En.
  replace (Nat.odd (2 * n)) with false by (symmetry; rewrite Nat.odd_mul; reflexivity).
  replace (2 * n / 2) with n by (rewrite Nat.mul_comm, Nat.div_mul; lia).
  eexists. split; [reflexivity|]. split; [apply tab_len|]. rewrite at_tab_in by exact Hx. f_equal. f_equal. f_equal.
  assert (Hr : d < length sh) by (pose proof (dimension_all (length sh) dim) as H; rewrite Hd in H; exact (proj1 H)).
  assert (L : length (upd d n sh) = length sh) by (clear; revert d; induction sh as [|a sh IH]; intros [|d]; cbn; auto).
  assert (L2 : d < length ix) by (rewrite (inr_len _ _ Hx), L; exact Hr).
  clear -L2. generalize (nth d ix 0 + n) as v. revert d L2. induction ix as [|a ix IH]; intros [|d] L v; cbn [length] in L; try lia; cbn [upd firstn skipn app]; [reflexivity|].
  f_equal. rewrite IH by lia. reflexivity.
Qed.
