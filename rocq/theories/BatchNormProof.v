(** Proofs for C85. *)
From Coq Require Import List ZArith Bool Arith Lia QArith Qcanon.
From Verif Require Import Base BatchNorm.
Import ListNotations.
Open Scope nat_scope.

Lemma qn_add a b : qn (a + b) = (qn a + qn b)%Qc.
Proof. unfold qn. rewrite Nat2Z.inj_add, inject_Z_plus. apply Qc_is_canon. cbn [this Qcplus Q2Qc]. rewrite !Qred_correct. reflexivity. Qed.
Lemma qn_mul a b : qn (a * b) = (qn a * qn b)%Qc.
Proof. unfold qn. rewrite Nat2Z.inj_mul, inject_Z_mult. apply Qc_is_canon. cbn [this Qcmult Q2Qc]. rewrite !Qred_correct. reflexivity. Qed.
Lemma qn_S a : qn (S a) = (qn a + 1)%Qc.
Proof. rewrite <- Nat.add_1_r, qn_add. reflexivity. Qed.
Lemma qn_pos a : 0 < a -> qn a <> 0%Qc.
Proof.
  intros H E. unfold qn in E. assert (E' : Qeq (inject_Z (Z.of_nat a)) 0).
  { rewrite <- (Qred_correct (inject_Z _)). change (Qred (inject_Z (Z.of_nat a))) with (this (Q2Qc (inject_Z (Z.of_nat a)))). rewrite E. reflexivity. }
  unfold Qeq in E'. cbn in E'. lia.
Qed.

Lemma qsum_app a b : qsum (a ++ b) = (qsum a + qsum b)%Qc.
Proof. unfold qsum. induction a as [|x a IH]; cbn [app fold_right]; [ring|]. rewrite IH. ring. Qed.
Lemma qsum_scale k (g : nat -> Qc) l : qsum (map (fun t => k * g t)%Qc l) = (k * qsum (map g l))%Qc.
Proof. unfold qsum. induction l as [|x l IH]; cbn [map fold_right]; [ring|]. rewrite IH. ring. Qed.
Lemma qsum_ext (g h : nat -> Qc) l : (forall t, In t l -> g t = h t) -> qsum (map g l) = qsum (map h l).
Proof. intros H. f_equal. apply map_ext_in, H. Qed.
Lemma qsum_concat (l : list (list Qc)) : qsum (concat l) = qsum (map qsum l).
Proof. induction l as [|x l IH]; cbn [concat map]; [reflexivity|]. rewrite qsum_app, IH. reflexivity. Qed.

(** ** Exponential averages *)
Lemma exponential_nil f r : exponential f r [] = r.
Proof. unfold exponential. cbn. ring. Qed.
Lemma exponential_snoc f r ms m : exponential f r (ms ++ [m]) = ((1 - f) * exponential f r ms + f * m)%Qc.
Proof.
  unfold exponential. rewrite app_length. cbn [length]. rewrite Nat.add_1_r, seq_S, map_app, qsum_app. cbn [Nat.add map].
  rewrite app_nth2, Nat.sub_diag by lia. replace (S (length ms) - 1 - length ms) with 0 by lia.
  replace (qsum (map (fun t => f * (1 - f) ^ (S (length ms) - 1 - t) * nth t (ms ++ [m]) 0) (seq 0 (length ms))))%Qc
    with (qsum (map (fun t => (1 - f) * (f * (1 - f) ^ (length ms - 1 - t) * nth t ms 0)) (seq 0 (length ms))))%Qc.
  - rewrite qsum_scale. cbn [Qcpower nth qsum fold_right]. unfold qsum. cbn [fold_right]. ring.
  - apply qsum_ext. intros t Ht. apply in_seq in Ht. rewrite app_nth1 by lia.
    replace (S (length ms) - 1 - t) with (S (length ms - 1 - t)) by lia. cbn [Qcpower]. ring.
Qed.
Lemma exponential_cons f r m ms : exponential f r (m :: ms) = exponential f ((1 - f) * r + f * m)%Qc ms.
Proof.
  induction ms as [|a ms IH] using rev_ind.
  - change [m] with ([] ++ [m]). rewrite exponential_snoc, !exponential_nil. reflexivity.
  - change (m :: ms ++ [a]) with ((m :: ms) ++ [a]). rewrite !exponential_snoc, IH. reflexivity.
Qed.

Section Norm.
Variable nrm : Qc -> Qc.

(** ** Evaluation *)
Lemma bn_eval c s xs : b_track c = true ->
  bn_run nrm c false s xs = (s, snd (bn_call nrm c false s (map fst xs))) /\ fst (bn_call nrm c false s (map fst xs)) = s.
Proof.
  intros Ht. split; [|unfold bn_call; rewrite Ht; reflexivity].
  unfold bn_call. rewrite Ht. cbn [negb orb snd]. induction xs as [|[x u] xs IH]; [reflexivity|].
  cbn [bn_run map fst]. unfold bn_step, bn_call. rewrite Ht. cbn [negb orb bind hd map]. rewrite IH. reflexivity.
Qed.

(** ** Training *)
Lemma bn_train_step c s x u : length x <> 1 ->
  bn_step nrm c true s x u = (if b_track c then running c s x else s, Ok (map (affine nrm (b_w c) (b_b c) (mean x) (var x)) x)).
Proof.
  intros H. unfold bn_step, bn_call. cbn [orb andb concat]. rewrite app_nil_r. apply Nat.eqb_neq in H. rewrite H. reflexivity.
Qed.
Lemma bn_train_run c xs : forall s, (forall x, In x (map fst xs) -> length x <> 1) ->
  bn_run nrm c true s xs = (if b_track c then fold_left (running c) (map fst xs) s else s,
    Ok (map (fun x => map (affine nrm (b_w c) (b_b c) (mean x) (var x)) x) (map fst xs))).
Proof.
  induction xs as [|[x u] xs IH]; intros s H; cbn [bn_run map fst fold_left]; [destruct (b_track c); reflexivity|].
  rewrite bn_train_step by (apply H; left; reflexivity). rewrite IH by (intros y Hy; apply H; right; exact Hy).
  destruct (b_track c); reflexivity.
Qed.
Lemma running_exponential c f xs : b_momentum c = Some f -> forall s,
  fold_left (running c) xs s = {| r_mean := exponential f (r_mean s) (map mean xs);
    r_var := exponential f (r_var s) (map unbiased xs); r_count := r_count s + length xs |}.
Proof.
  intros Hf. induction xs as [|x xs IH]; intros [rm rv n]; cbn [fold_left map length].
  - rewrite !exponential_nil, Nat.add_0_r. reflexivity.
  - rewrite IH, !exponential_cons. unfold running, factor. rewrite Hf. cbn [r_mean r_var r_count]. f_equal. lia.
Qed.
Lemma running_cumulative c xs : b_momentum c = None -> forall s,
  let s' := fold_left (running c) xs s in
  r_count s' = r_count s + length xs
  /\ (qn (r_count s') * r_mean s' = qn (r_count s) * r_mean s + qsum (map mean xs))%Qc
  /\ (qn (r_count s') * r_var s' = qn (r_count s) * r_var s + qsum (map unbiased xs))%Qc.
Proof.
  intros Hf. induction xs as [|x xs IH]; intros s; cbn [fold_left map length qsum fold_right].
  - split; [lia|]. split; unfold qsum; cbn [fold_right]; ring.
  - destruct (IH (running c s x)) as (E1 & E2 & E3). cbv zeta. rewrite E1 in *. rewrite E2, E3.
    unfold running, factor, qsum in *. rewrite Hf in *. cbn [r_mean r_var r_count fold_right] in *.
    assert (N : (qn (r_count s) + 1)%Qc <> 0%Qc) by (rewrite <- qn_S; apply qn_pos; lia).
    split; [lia|]. split; rewrite qn_S; field; exact N.
Qed.

(** ** The same statistics in all frames *)
Lemma concat_len {A} n (l : list (list A)) : (forall x, In x l -> length x = n) -> length (concat l) = length l * n.
Proof. induction l as [|x l IH]; intros H; [reflexivity|]. cbn [concat length]. rewrite app_length, (H x (or_introl eq_refl)), IH by (intros; apply H; right; assumption). lia. Qed.
Lemma mean_sum x : x <> [] -> qsum x = (qn (length x) * mean x)%Qc.
Proof. intros H. unfold mean. field. apply qn_pos. destruct x; [congruence|cbn; lia]. Qed.
Lemma mean_concat n clip : 0 < n -> clip <> [] -> (forall x, In x clip -> length x = n) ->
  mean (concat clip) = (qsum (map mean clip) / qn (length clip))%Qc.
Proof.
  intros Hn Hc H. unfold mean at 1. rewrite (concat_len n), qn_mul, qsum_concat by exact H.
  assert (E : qsum (map qsum clip) = (qn n * qsum (map mean clip))%Qc).
  { clear Hc. induction clip as [|x clip IH]; unfold qsum at 1 3; cbn [map fold_right]; [ring|]. fold (qsum (map qsum clip)) (qsum (map mean clip)).
    pose proof (H x (or_introl eq_refl)) as Hx. assert (Nx : x <> []) by (intros ->; cbn in Hx; lia).
    rewrite IH by (intros; apply H; right; assumption). rewrite (mean_sum x Nx), Hx. ring. }
  rewrite E. field. split; apply qn_pos; [destruct clip; [congruence|cbn; lia]|exact Hn].
Qed.
Lemma qsum_const (A : Type) (g : A -> Qc) k l : (forall x, In x l -> g x = k) -> qsum (map g l) = (qn (length l) * k)%Qc.
Proof.
  induction l as [|x l IH]; intros H; unfold qsum; cbn [map fold_right length].
  - change (qn 0) with 0%Qc. ring.
  - fold (qsum (map g l)). rewrite (H x (or_introl eq_refl)), IH, qn_S by (intros; apply H; right; assumption). ring.
Qed.
Lemma same_stats n m v clip : 0 < n -> clip <> [] -> (forall x, In x clip -> length x = n /\ mean x = m /\ var x = v) ->
  mean (concat clip) = m /\ var (concat clip) = v.
Proof.
  intros Hn Hc H. assert (Hl : forall x, In x clip -> length x = n) by (intros; apply H; assumption).
  assert (Nc : qn (length clip) <> 0%Qc) by (apply qn_pos; destruct clip; [congruence|cbn; lia]).
  assert (Nn : qn n <> 0%Qc) by (apply qn_pos; exact Hn).
  assert (Em : mean (concat clip) = m).
  { rewrite (mean_concat n) by assumption. rewrite (qsum_const _ mean m) by (intros; apply H; assumption). field. exact Nc. }
  split; [exact Em|]. unfold var, dev2. rewrite Em, (concat_len n), qn_mul, concat_map, qsum_concat, map_map by exact Hl.
  rewrite (qsum_const _ _ (qn n * v)%Qc); [field; split; assumption|].
  intros x Hx. destruct (H x Hx) as (H1 & H2 & H3). unfold var, dev2 in H3. rewrite H2, H1 in H3. rewrite <- H3. field. exact Nn.
Qed.
Lemma gn_same n m v w b clip : 0 < n -> clip <> [] -> (forall x, In x clip -> length x = n /\ mean x = m /\ var x = v) ->
  gn_call nrm w b clip = map (gn_step nrm w b) clip.
Proof.
  intros Hn Hc H. destruct (same_stats n m v clip Hn Hc H) as [E1 E2]. unfold gn_call. rewrite E1, E2. apply map_ext_in. intros x Hx.
  unfold gn_step, gn_call. cbn [concat map hd]. rewrite app_nil_r. destruct (H x Hx) as (_ & -> & ->). reflexivity.
Qed.

(** ** Shifted frames *)
Lemma mean_shift k x : x <> [] -> mean (map (Qcplus k) x) = (k + mean x)%Qc.
Proof.
  intros H. unfold mean. rewrite map_length. assert (N : qn (length x) <> 0%Qc) by (apply qn_pos; destruct x; [congruence|cbn; lia]).
  assert (E : qsum (map (Qcplus k) x) = (qn (length x) * k + qsum x)%Qc).
  { clear. unfold qsum. induction x as [|a x IH]; cbn [map fold_right length]; [change (qn 0) with 0%Qc; ring|]. rewrite IH, qn_S. ring. }
  rewrite E. field. exact N.
Qed.
Lemma var_shift k x : x <> [] -> var (map (Qcplus k) x) = var x.
Proof.
  intros H. unfold var, dev2. rewrite map_length, map_map. do 2 f_equal. apply map_ext. intros a. rewrite mean_shift by exact H. ring.
Qed.
Lemma affine_shift w b k x : x <> [] ->
  map (affine nrm w b (mean (map (Qcplus k) x)) (var (map (Qcplus k) x))) (map (Qcplus k) x) = map (affine nrm w b (mean x) (var x)) x.
Proof. intros H. rewrite mean_shift, var_shift, map_map by exact H. apply map_ext. intros a. unfold affine. ring. Qed.
End Norm.
