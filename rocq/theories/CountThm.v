(** Comparisons of the costs, and of the reports with the costs. *)
From Coq Require Import List ZArith Bool Arith Lia.
From Verif Require Import Base Tensor TAttn TAttnProof Attn Count CountSpec CountProof.
Import ListNotations.

Section Compare.
Context {K : Type}.
Variable m : tattn K.
Notation N := (t_N m). Notation H := (t_H m). Notation D := (t_D m). Notation E := (t_H m * t_D m).

Lemma batch_linear B : single_step m B = times B (single_step m 1) /\ retro_step m B = times B (retro_step m 1) /\ full_forward m B = times B (full_forward m 1).
Proof. unfold single_step, retro_step, full_forward. cbn [times]. rewrite !plus_free_r. auto. Qed.

Lemma window_cost B : 0 < N -> 0 < D -> times N (single_step m B) = full_forward m B.
Proof.
  intros P1 P2. unfold single_step, full_forward, single_head, full_head, project. rewrite !times_fields.
  destruct N as [|n]; [lia|]. destruct D as [|d]; [lia|].
  replace (2 * S n * S n * S d - S n * S d - S n) with (S n * (S n * d + n + S d * n))
    by (assert (X : 2 * S n * S n * S d = S n * (S n * d + n + S d * n) + S n * S d + S n) by ring; rewrite X; lia).
  replace (2 * S n * S d - S d - 1) with (S n * d + n + S d * n)
    by (assert (X : 2 * S n * S d = S n * d + n + S d * n + S d + 1) by ring; rewrite X; lia).
  generalize (H * S d - 1). intros e. generalize (t_H m). intros H'.
  apply cost_eq; cbn [muls adds exps plus]; destruct (has (t_bin m)), (has (t_bout m)); ring.
Qed.

Lemma times_mono n a b : cheaper a b -> cheaper (times n a) (times n b).
Proof. unfold cheaper. rewrite !times_fields. cbn [muls adds exps]. intros (A & B & C). repeat split; apply Nat.mul_le_mono_l; assumption. Qed.
Lemma plus_mono a b c d : cheaper a b -> cheaper c d -> cheaper (plus a c) (plus b d).
Proof. unfold cheaper. cbn [muls adds exps plus]. lia. Qed.
Lemma project_mono a b E' bias : a <= b -> cheaper (project a E' bias) (project b E' bias).
Proof.
  intros L. unfold cheaper, project; cbn [muls adds exps]. repeat split; [|apply Nat.mul_le_mono_r, L|lia].
  apply Nat.mul_le_mono_r, Nat.mul_le_mono_r, L.
Qed.
Lemma cheaper_refl a : cheaper a a. Proof. unfold cheaper. lia. Qed.

Lemma retro_cheaper B : 3 <= N -> 0 < D -> cheaper (retro_step m B) (full_forward m B).
Proof.
  intros P1 P2. unfold retro_step, full_forward. apply times_mono. repeat apply plus_mono; try apply cheaper_refl.
  - apply project_mono. lia.
  - apply times_mono. unfold cheaper, retro_head, full_head; cbn [muls adds exps].
    destruct N as [|[|[|n]]]; try lia. destruct D as [|d]; [lia|]. repeat split; nia.
Qed.
Lemma retro_fewer_muls B : 2 <= N -> 0 < H -> 0 < D -> muls (retro_step m B) <= muls (full_forward m B) /\ exps (retro_step m B) <= exps (full_forward m B).
Proof.
  intros P1 P2 P3. unfold retro_step, full_forward. rewrite !times_fields. cbn [muls adds exps plus project retro_head full_head].
  split; apply Nat.mul_le_mono_l.
  - destruct N as [|[|n]]; try lia. destruct D as [|d]; [lia|]. destruct H as [|h]; [lia|]. nia.
  - apply Nat.add_le_mono_l, Nat.add_le_mono_r, Nat.mul_le_mono_l. clear - P1. destruct N as [|[|n]]; [lia|lia|nia].
Qed.
Lemma single_cheaper B : 0 < N -> 0 < D -> cheaper (single_step m B) (single_forward m B) /\ cheaper (single_step m B) (full_forward m B).
Proof.
  intros P1 P2. split.
  - unfold single_step, single_forward. apply times_mono. apply plus_mono; [|apply cheaper_refl].
    apply project_mono. lia.
  - rewrite <- window_cost by assumption. destruct N as [|n]; [lia|]. cbn [times]. unfold cheaper. cbn [muls adds exps plus]. lia.
Qed.
Lemma single_below_retro B : 2 <= N -> 0 < D -> cheaper (single_step m B) (retro_step m B).
Proof.
  intros P1 P2. unfold single_step, retro_step. apply times_mono. repeat apply plus_mono; try apply cheaper_refl.
  - apply times_mono. unfold cheaper, single_head, retro_head; cbn [muls adds exps].
    destruct N as [|[|n]]; try lia. destruct D as [|d]; [lia|]. repeat split; nia.
  - apply project_mono. lia.
Qed.
End Compare.

Local Open Scope Z_scope.
Lemma head_reports (n d : nat) : (0 < n)%nat -> (0 < d)%nat -> let zn := Z.of_nat n in let zd := Z.of_nat d in
  (f_single zn zd true false false = Z.of_nat (muls (single_head n d)) + zd - zn
   /\ f_single zn zd false true false = Z.of_nat (adds (single_head n d))
   /\ f_single zn zd false false true = Z.of_nat (exps (single_head n d)))
  /\ (f_retro zn zd true false false = Z.of_nat (muls (retro_head n d)) + 2 * zn
   /\ f_retro zn zd false true false = Z.of_nat (adds (retro_head n d)) + 3 * zn - zd - 2
   /\ f_retro zn zd false false true = Z.of_nat (exps (retro_head n d)))
  /\ (f_forward zn zd true false false = Z.of_nat (muls (full_head n d)) + zn * zd - zn * zn
   /\ f_forward zn zd false true false = Z.of_nat (adds (full_head n d)) - 2 * zn * zn * (zd - 1)
   /\ f_forward zn zd false false true = Z.of_nat (exps (full_head n d))).
Proof.
  intros P1 P2 zn zd. subst zn zd. unfold f_single, f_retro, f_forward, single_head, retro_head, full_head; cbn [muls adds exps].
  destruct n as [|n]; [lia|]. destruct d as [|d]; [lia|]. repeat apply conj; nia.
Qed.

Section Reports.
Context {K : Type}.
Variable m : tattn K.
Notation n := (Z.of_nat (t_N m)). Notation H := (Z.of_nat (t_H m)). Notation d := (Z.of_nat (t_D m)).
Hypothesis PN : (0 < t_N m)%nat.
Hypothesis PH : (0 < t_H m)%nat.
Hypothesis PD : (0 < t_D m)%nat.
Lemma e_div : Z.of_nat (t_H m * t_D m) / H = d.
Proof. rewrite Nat2Z.inj_mul, Z.mul_comm. apply Z.div_mul. lia. Qed.
Lemma muls_times B c : muls (times B c) = (B * muls c)%nat. Proof. rewrite times_fields. reflexivity. Qed.
Let bias : Z := if has (t_bin m) then 1 else 0.

Lemma retro_report : re_reports m MStep true false false = Ok (Z.of_nat (muls (retro_step m 1)) + 3 * (H * d) * bias + 2 * n * H + n * (H * d)).
Proof.
  unfold re_reports, re_flops, f_in. cbn [bind]. rewrite e_div. destruct (head_reports (t_N m) (t_D m) PN PD) as (_ & (-> & _) & _).
  f_equal. unfold retro_step. cbn [times]. rewrite plus_free_r. cbn [plus muls project]. rewrite muls_times. rewrite !Nat2Z.inj_add, !Nat2Z.inj_mul. unfold bias. change (Z.of_nat 3) with 3. change (Z.of_nat 2) with 2. change (Z.of_nat 1) with 1. destruct (has (t_bin m)); ring.
Qed.
Lemma retro_forward_report : re_reports m MForward true false false = Ok (Z.of_nat (muls (full_forward m 1)) + 3 * n * (H * d) * bias + 2 * n * (H * d) - n * n * H).
Proof.
  unfold re_reports, re_flops, f_in. cbn [bind]. rewrite e_div. destruct (head_reports (t_N m) (t_D m) PN PD) as (_ & _ & (-> & _)).
  f_equal. unfold full_forward. cbn [times]. rewrite plus_free_r. cbn [plus muls project]. rewrite muls_times. rewrite !Nat2Z.inj_add, !Nat2Z.inj_mul. unfold bias. change (Z.of_nat 3) with 3. change (Z.of_nat 2) with 2. change (Z.of_nat 1) with 1. destruct (has (t_bin m)); ring.
Qed.
Lemma single_report s : so_reports m s MStep true false false = Ok (Z.of_nat (muls (single_step m 1)) + 3 * (H * d) * bias + 2 * (H * d) - n * H).
Proof.
  unfold so_reports, so_flops, f_in. cbn [bind]. rewrite e_div. destruct (head_reports (t_N m) (t_D m) PN PD) as ((-> & _) & _).
  f_equal. unfold single_step. cbn [times]. rewrite plus_free_r. cbn [plus muls project]. rewrite muls_times. rewrite !Nat2Z.inj_add, !Nat2Z.inj_mul. unfold bias. change (Z.of_nat 3) with 3. change (Z.of_nat 2) with 2. change (Z.of_nat 1) with 1. destruct (has (t_bin m)); ring.
Qed.
Lemma single_forward_report : so_reports m true MForward true false false
  = Ok (Z.of_nat (muls (single_forward m 1)) + 3 * (H * d) * bias + 2 * (H * d) - n * H - 2 * (n - 1) * (H * d) * (H * d)).
Proof.
  unfold so_reports, so_flops, f_in. cbn [bind]. rewrite e_div. destruct (head_reports (t_N m) (t_D m) PN PD) as ((-> & _) & _).
  f_equal. unfold single_forward. cbn [times]. rewrite plus_free_r. cbn [plus muls project]. rewrite muls_times. rewrite !Nat2Z.inj_add, !Nat2Z.inj_mul. replace (Z.of_nat (1 + 2 * t_N m)) with (1 + 2 * n) by lia. unfold bias. change (Z.of_nat 3) with 3. change (Z.of_nat 2) with 2. change (Z.of_nat 1) with 1. destruct (has (t_bin m)); ring.
Qed.
End Reports.
