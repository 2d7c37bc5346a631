(** The counted computations have the values of [Attn.v] and cost what [CountSpec.v] says. *)
From Coq Require Import List ZArith Bool Arith Lia.
From Verif Require Import Base Tensor TensorProof TAttn TAttnProof Attn AttnProof AttnSpec AttnMemSpec AttnMem Count CountSpec.
Import ListNotations.

Lemma plus_free_l c : plus free c = c. Proof. destruct c; reflexivity. Qed.
Lemma plus_free_r c : plus c free = c. Proof. destruct c; unfold plus; cbn. f_equal; lia. Qed.
Lemma plus_assoc' a b c : plus a (plus b c) = plus (plus a b) c.
Proof. unfold plus; cbn. f_equal; lia. Qed.
Lemma cost_eq a b : muls a = muls b -> adds a = adds b -> exps a = exps b -> a = b.
Proof. destruct a, b; cbn; congruence. Qed.
Lemma times_fields n c : times n c = Cost (n * muls c) (n * adds c) (n * exps c).
Proof. induction n; [reflexivity|]. cbn [times]. rewrite IHn. unfold plus; cbn. reflexivity. Qed.
Lemma times_plus n a b : times n (plus a b) = plus (times n a) (times n b).
Proof. rewrite !times_fields. unfold plus; cbn. f_equal; lia. Qed.

Lemma then_pair {A B} (a : A) c (f : A -> cnt B) b d : f a = (b, d) -> then_ (a, c) f = (b, plus c d).
Proof. intros H. cbn. rewrite H. reflexivity. Qed.
Lemma cseq_map {A B} (f : A -> cnt B) (g : A -> B) c l : (forall a, In a l -> f a = (g a, c)) ->
  cseq (map f l) = (map g l, times (length l) c).
Proof.
  induction l as [|a l IH]; intros H; [reflexivity|]. cbn [map cseq length times]. rewrite (H a (or_introl eq_refl)), IH by (intros; apply H; right; assumption).
  cbn. rewrite plus_free_r. reflexivity.
Qed.
Lemma cmap_eq {A B} (f : A -> cnt B) (g : A -> B) c l : (forall a, In a l -> f a = (g a, c)) -> cmap f l = (map g l, times (length l) c).
Proof. apply cseq_map. Qed.
Lemma map2_len {A B C} (f : A -> B -> C) : forall l m, length (map2 f l m) = Nat.min (length l) (length m).
Proof. induction l; intros [|b m]; cbn; try lia. rewrite IHl. reflexivity. Qed.
Lemma cmap2_eq {A B C} (f : A -> B -> cnt C) (g : A -> B -> C) c : (forall a b, f a b = (g a b, c)) -> forall l m,
  cmap2 f l m = (map2 g l m, times (Nat.min (length l) (length m)) c).
Proof.
  intros H. unfold cmap2. induction l as [|a l IH]; intros [|b m]; try reflexivity. cbn [map2 cseq length Nat.min times]. rewrite H, IH.
  cbn. rewrite plus_free_r. reflexivity.
Qed.
Lemma cmap3_eq {A B C D} (f : A -> B -> C -> cnt D) (g : A -> B -> C -> D) c : (forall a b x, f a b x = (g a b x, c)) -> forall l m n,
  cmap3 f l m n = (map3 g l m n, times (Nat.min (length l) (Nat.min (length m) (length n))) c).
Proof.
  intros H. unfold cmap3. induction l as [|a l IH]; intros [|b m] [|x n]; try reflexivity.
  cbn [map3 cseq length Nat.min times]. rewrite H, IH. cbn. rewrite plus_free_r. reflexivity.
Qed.

Section CountProof.
Context {K : Type} {NK : Num K} {NL : NumLaws K}.

Lemma ctab_eq E (f : nat -> cnt K) g c : (forall e, e < E -> f e = (g e, c)) -> ctab E f = (Attn.tab E g, times E c).
Proof. intros H. unfold ctab, Attn.tab. rewrite (cmap_eq f g c), seq_length; [reflexivity|]. intros a Ha. apply H. apply in_seq in Ha. lia. Qed.

Lemma c_dot_eq E q k : c_dot E q k = (dot E q k, Cost E (E - 1) 0).
Proof.
  unfold c_dot. rewrite (ctab_eq _ _ (fun e => kmul (Attn.at_ q e) (Attn.at_ k e)) one_mul) by reflexivity. cbn [then_ csum].
  unfold dot. f_equal. rewrite times_fields. unfold plus, one_mul; cbn. unfold Attn.tab. rewrite map_length, seq_length. f_equal; lia.
Qed.
Definition wsum_cost (E n : nat) : cost := Cost (E * n) (E * (n - 1)) 0.
Lemma c_wsum_eq E ws vs : length ws = length vs -> c_wsum E ws vs = (wsum E ws vs, wsum_cost E (length vs)).
Proof.
  intros L. unfold c_wsum, wsum. rewrite (ctab_eq _ _ (fun e => Attn.ksum (map2 (fun w v => kmul w (Attn.at_ v e)) ws vs)) (Cost (length vs) (length vs - 1) 0)).
  - rewrite times_fields. unfold wsum_cost; cbn. f_equal. f_equal; lia.
  - intros e _. rewrite (cmap2_eq _ (fun w v => kmul w (Attn.at_ v e)) one_mul) by reflexivity. cbn [then_ csum]. f_equal.
    rewrite times_fields, map2_len, L, Nat.min_id. unfold plus, one_mul; cbn. f_equal; lia.
Qed.
Lemma c_softmax_eq x : c_softmax x = (softmax x, Cost (length x) (length x - 1) (length x)).
Proof.
  unfold c_softmax, softmax. rewrite (cmap_eq _ kexp one_exp) by reflexivity. cbn [then_ csum].
  rewrite (cmap_eq _ (fun e => kdiv e (Attn.ksum (map kexp x))) one_mul) by reflexivity. cbn [then_]. f_equal.
  rewrite !times_fields, !map_length. unfold plus, one_mul, one_exp; cbn. f_equal; lia.
Qed.
Lemma softmax_len (x : list K) : length (softmax x) = length x.
Proof. unfold softmax. rewrite !map_length. reflexivity. Qed.

(** ** Heads *)
Definition so_cost (n d l : nat) : cost :=
  plus (Cost l 0 0) (plus (Cost (n * d) (n * (d - 1)) 0) (plus (Cost n (n - 1) n) (wsum_cost d n))).
Definition re_cost (n d l : nat) : cost :=
  plus (Cost l 0 0) (plus (times (n - 1) (Cost d (d - 1) 1)) (plus (times (n - 1) (Cost d (d - 1) 1)) (plus (times n (Cost d (d - 1) 1))
  (plus (Cost 0 (2 * (n - 1)) 0) (plus (Cost 0 (n - 1) 0) (plus (Cost ((n - 1) * d) 0 0) (plus (Cost ((n - 1) * d) 0 0)
  (plus (Cost 0 ((n - 1) * (2 * d)) 0) (plus (wsum_cost d n) (Cost (n * d) 0 0)))))))))).

Lemma c_so_eq E scale s q k v n : length (so_K s) = n -> length (so_V s) = n ->
  c_so_step E scale s q k v = costing (so_step E scale s q k v) (so_cost n E (length q)).
Proof.
  intros LK LV. unfold c_so_step, so_step.
  destruct (roll_in (so_K s) k) as [K'|] eqn:EK; [|reflexivity]. destruct (roll_in (so_V s) v) as [V'|] eqn:EV; [|reflexivity].
  apply roll_in_len in EK. apply roll_in_len in EV. cbn [bind costing]. f_equal.
  rewrite (cmap_eq (cscale scale) scale one_mul) by reflexivity. cbn [then_].
  rewrite (cmap_eq _ (dot E match so_Q s with [] => map scale q | q0 :: _ => q0 end) (Cost E (E - 1) 0)) by (intros; apply c_dot_eq). cbn [then_].
  rewrite c_softmax_eq. cbn [then_]. rewrite c_wsum_eq by (rewrite softmax_len, map_length; congruence). cbn [then_ ret]. f_equal.
  unfold so_cost. rewrite map_length, EK, EV, LK, LV, !times_fields. unfold one_mul, plus, wsum_cost; cbn. f_equal; lia.
Qed.

Lemma at_tab' E (f : nat -> K) e : e < E -> Attn.at_ (Attn.tab E f) e = f e.
Proof. intros H. unfold Attn.at_, Attn.tab. apply nth_map_seq. exact H. Qed.
Lemma tab_ext' E (f g : nat -> K) : (forall e, e < E -> f e = g e) -> Attn.tab E f = Attn.tab E g.
Proof. intros H. unfold Attn.tab. apply map_ext_in. intros a Ha. apply in_seq in Ha. apply H. lia. Qed.
Lemma map3_map {A B C A' B' D} (f : C -> A' -> B' -> D) (g : A -> A') (h : B -> B') : forall l m n,
  map3 f l (map g m) (map h n) = map3 (fun c a b => f c (g a) (h b)) l m n.
Proof. induction l; intros [|b m] [|c n]; cbn; try reflexivity. rewrite IHl. reflexivity. Qed.
Lemma map3_ext {A B C D} (f g : A -> B -> C -> D) : (forall a b c, f a b c = g a b c) -> forall l m n, map3 f l m n = map3 g l m n.
Proof. intros H. induction l; intros [|b m] [|c n]; cbn; try reflexivity. rewrite H, IHl. reflexivity. Qed.

Lemma c_re_eq E scale s q k v n : re_rows s = [n - 1; n - 1; n - 1; n; n] ->
  c_re_step E scale s q k v = costing (re_step E scale s q k v) (re_cost n E (length q)).
Proof.
  intros L. unfold re_rows in L. assert (L1 : length (re_d s) = n - 1) by congruence. assert (L2 : length (re_AV s) = n - 1) by congruence.
  assert (L3 : length (re_Q s) = n - 1) by congruence. assert (L4 : length (re_K s) = n) by congruence. assert (L5 : length (re_V s) = n) by congruence.
  clear L. unfold c_re_step, re_step.
  destruct (re_K s) as [|k1 Kt] eqn:EK; [reflexivity|]. cbn [first_row roll_in bind].
  destruct (re_Q s) as [|q1 Qt] eqn:EQ; [reflexivity|]. cbn [first_row roll_in bind].
  destruct (re_V s) as [|v1 Vt] eqn:EV; [reflexivity|]. cbn [first_row roll_in bind costing]. f_equal.
  assert (M1 : length (Kt ++ [k]) = n) by (rewrite app_length; cbn in *; lia). assert (M2 : length (Vt ++ [v]) = n) by (rewrite app_length; cbn in *; lia).
  set (Kn := Kt ++ [k]) in *. set (Vn := Vt ++ [v]) in *. assert (M3 : tl (q1 :: Qt) = Qt) by reflexivity. rewrite M3. set (Qs := q1 :: Qt) in *. clearbody Kn Vn Qs.
  rewrite (cmap_eq (cscale scale) scale one_mul) by reflexivity. cbn [then_].
  assert (X : forall (f : list K -> cnt K) g l, (forall a, f a = (g a, Cost E (E - 1) 1)) -> cmap f l = (map g l, times (length l) (Cost E (E - 1) 1))) by (intros; apply cmap_eq; auto).
  assert (Y : forall a b, (d <~ c_dot E a b;; cexp d) = (kexp (dot E a b), Cost E (E - 1) 1)) by (intros a b; rewrite c_dot_eq; cbn; unfold plus, one_exp; cbn; rewrite !Nat.add_0_r; reflexivity).
  rewrite (X _ (fun qm => kexp (dot E qm k1)) Qs) by (intros; apply Y). cbn [then_].
  rewrite (X _ (fun qm => kexp (dot E qm k)) Qs) by (intros; apply Y). cbn [then_].
  rewrite (X _ (fun kk => kexp (dot E (map scale q) kk)) Kn) by (intros; apply Y). cbn [then_].
  rewrite (cmap3_eq _ (fun d l r => kadd (ksub d l) r) (Cost 0 2 0)) by reflexivity. cbn [then_ csum].
  rewrite (cmap_eq _ (fun l => Attn.tab E (fun e => kmul l (Attn.at_ v1 e))) (times E one_mul)) by (intros; apply ctab_eq; reflexivity). cbn [then_].
  rewrite (cmap_eq _ (fun r => Attn.tab E (fun e => kmul r (Attn.at_ v e))) (times E one_mul)) by (intros; apply ctab_eq; reflexivity). cbn [then_].
  rewrite (cmap3_eq _ (fun av l r => Attn.tab E (fun e => kadd (ksub (Attn.at_ av e) (Attn.at_ l e)) (Attn.at_ r e))) (times E (Cost 0 2 0))) by (intros; apply ctab_eq; reflexivity). cbn [then_].
  rewrite c_wsum_eq by (rewrite map_length; congruence). cbn [then_].
  rewrite (cmap2_eq _ (fun av dd => Attn.tab E (fun e => kdiv (Attn.at_ av e) dd)) (times E one_mul)) by (intros; apply ctab_eq; reflexivity). cbn [then_ ret].
  rewrite map3_map.
  rewrite (map3_ext _ (fun av l r => Attn.tab E (fun e => kadd (ksub (Attn.at_ av e) (kmul l (Attn.at_ v1 e))) (kmul r (Attn.at_ v e)))))
    by (intros; apply tab_ext'; intros; rewrite !at_tab' by assumption; reflexivity).
  f_equal. unfold re_cost. rewrite !app_length, !map3_len, !map_length, L1, L2, L3, M1, M2. cbn [length].
  assert (P : 1 <= n) by (cbn in L4; lia). rewrite !Nat.min_id. replace (n - 1 + 1) with n by lia. rewrite !times_fields. clear. generalize (n - 1) (E - 1) (length q). intros a b l.
  apply cost_eq; cbn [muls adds exps plus one_mul wsum_cost free]; lia.
Qed.

Lemma so_cost_eq n d : 1 <= n -> 1 <= d -> so_cost n d d = single_head n d.
Proof.
  intros H1 H2. unfold so_cost, single_head, wsum_cost, plus; cbn [muls adds exps]. f_equal; [lia| |lia].
  destruct n as [|n]; [lia|]. destruct d as [|d]; [lia|]. cbn [Nat.sub]. rewrite !Nat.sub_0_r. lia.
Qed.
Lemma re_cost_eq n d : 1 <= n -> 1 <= d -> re_cost n d d = retro_head n d.
Proof.
  intros H1 H2. unfold re_cost, retro_head, wsum_cost. rewrite !times_fields.
  destruct n as [|n]; [lia|]. destruct d as [|d]; [lia|]. cbn [Nat.sub]. rewrite !Nat.sub_0_r. apply cost_eq; cbn [muls adds exps plus]; lia.
Qed.

(** ** Projections *)
Lemma cseq_tab2 (f : list nat -> cnt K) (g : list nat -> K) c R O : (forall r o, f [r; o] = (g [r; o], c)) ->
  cseq (Tensor.tab [R; O] f) = (Tensor.tab [R; O] g, times (R * O) c).
Proof.
  intros H. set (ixs := flat_map (fun r => map (fun o => [r; o]) (seq 0 O)) (seq 0 R)).
  assert (M : forall A (F : list nat -> A), Tensor.tab [R; O] F = map F ixs).
  { intros A F. unfold ixs. cbn [Tensor.tab]. rewrite flat_map_concat_map, (flat_map_concat_map (fun r => map _ _)), concat_map, map_map. f_equal. apply map_ext. intros r.
    rewrite map_map, flat_map_concat_map. induction (seq 0 O) as [|o l IH]; [reflexivity|]. cbn. f_equal. exact IH. }
  rewrite !M. rewrite (cseq_map f g c).
  - f_equal. f_equal. unfold ixs. rewrite (flat_map_len _ O); [reflexivity|]. intros i. rewrite map_length, seq_length. reflexivity.
  - intros a Ha. unfold ixs in Ha. apply in_flat_map in Ha. destruct Ha as (r & _ & Ha). apply in_map_iff in Ha. destruct Ha as (o & <- & _). apply H.
Qed.
Lemma c_linear_eq R I O w b x : c_linear R I O w b x = (linear R I O w b x, Cost (R * O * I) (R * O * (I - 1 + if has b then 1 else 0)) 0).
Proof.
  unfold c_linear, linear. rewrite (cseq_tab2 _ (fun ix => match ix with
    | [r; o] => kadd (bias_at b o)
                  (Tensor.ksum (map (fun i => kmul (Tensor.at_ [R; I] x [Z.of_nat r; Z.of_nat i]) (Tensor.at_ [O; I] w [Z.of_nat o; Z.of_nat i])) (seq 0 I)))
    | _ => k0 end) (Cost I (I - 1 + if has b then 1 else 0) 0)).
  - rewrite times_fields. cbn [muls adds exps]. f_equal. f_equal; lia.
  - intros r o. rewrite (cmap_eq _ (fun i => kmul (Tensor.at_ [R; I] x [Z.of_nat r; Z.of_nat i]) (Tensor.at_ [O; I] w [Z.of_nat o; Z.of_nat i])) one_mul) by reflexivity.
    cbn [then_ csum]. rewrite times_fields, seq_length, map_length, seq_length. destruct b; cbn [has cadd ret then_]; f_equal; unfold plus, one_mul, one_add, free; cbn; f_equal; lia.
Qed.

Section Module.
Variable m : tattn K.
Notation N := (t_N m). Notation H := (t_H m). Notation D := (t_D m). Notation E := (t_H m * t_D m).

(** A projection of B samples. *)
Lemma proj_cost B (b : bool) : Cost (B * E * E) (B * E * (E - 1 + if b then 1 else 0)) 0 = times B (project 1 E b).
Proof. rewrite times_fields. unfold project; cbn [muls adds exps]. f_equal; destruct b; lia. Qed.
Lemma c_in_eq i B x : c_in_proj m i B x = (in_proj m i B x, times B (project 1 E (has (t_bin m)))).
Proof. unfold c_in_proj, in_proj. rewrite c_linear_eq, <- proj_cost. unfold t_E. destruct (t_bin m); reflexivity. Qed.
Lemma c_out_eq B hs : c_out_proj m B hs = (out_proj m B hs, times B (project 1 E (has (t_bout m)))).
Proof. unfold c_out_proj, out_proj. rewrite c_linear_eq, <- proj_cost. reflexivity. Qed.
Lemma in_proj_len i B x : length (in_proj m i B x) = B * E.
Proof. unfold in_proj. apply linear_len. Qed.
Lemma head_len B i x a : In a (heads m B (in_proj m i B x)) -> length a = D.
Proof.
  unfold heads. intros Ha. apply in_map_iff in Ha. destruct Ha as (r & <- & Hr). apply in_seq in Hr. apply chunk_len.
  rewrite in_proj_len, Nat.mul_assoc. apply Nat.mul_le_mono_r. lia.
Qed.

(** ** Steps *)
Section Steps.
Variables (p : sdpa K) (f : p_state p -> list K -> list K -> list K -> res (cnt (list (list K) * p_state p))).
Variables (sz : p_state p -> list nat) (hc : cost) (rows : nat).
Hypothesis st : steady p sz.
Hypothesis f_eq : forall s q k v, sz s = sz (p_default p) -> length q = D -> f s q k v = costing (p_step p s q k v) hc.
Hypothesis f_rows : forall s q k v o s', sz s = sz (p_default p) -> p_step p s q k v = Ok (o, s') -> length o = rows.

Lemma c_heads_eq : forall n ss qs ks vs, map sz ss = repeat (sz (p_default p)) n -> Forall (fun q => length q = D) qs ->
  c_heads p f ss qs ks vs = costing (heads_step p ss qs ks vs) (times n hc).
Proof.
  induction n as [|n IH]; intros [|s ss] [|q qs] [|k ks] [|v vs] S F; cbn [c_heads heads_step costing]; try discriminate; try reflexivity.
  assert (S1 : sz s = sz (p_default p)) by (cbn in S; congruence). assert (S2 : map sz ss = repeat (sz (p_default p)) n) by (cbn in S; congruence).
  inversion F; subst. rewrite f_eq by assumption. destruct (p_step p s q k v) as [[o s']|]; [|reflexivity]. cbn [costing bind].
  rewrite IH by assumption. destruct (heads_step p ss qs ks vs) as [[os ss']|]; [|reflexivity]. cbn [costing bind then_ ret fst snd times].
  rewrite plus_free_r. reflexivity.
Qed.
Lemma heads_rows : forall n ss qs ks vs os ss', map sz ss = repeat (sz (p_default p)) n -> heads_step p ss qs ks vs = Ok (os, ss') ->
  length os = n /\ Forall (fun o => length o = rows) os.
Proof.
  induction n as [|n IH]; intros [|s ss] [|q qs] [|k ks] [|v vs] os ss' S X; cbn [heads_step] in X; try discriminate; [inversion X; split; constructor|].
  assert (S1 : sz s = sz (p_default p)) by (cbn in S; congruence). assert (S2 : map sz ss = repeat (sz (p_default p)) n) by (cbn in S; congruence).
  destruct (p_step p s q k v) as [[o s']|] eqn:E1; [|discriminate]. cbn [bind] in X.
  destruct (heads_step p ss qs ks vs) as [[os1 ss1]|] eqn:E2; [|discriminate]. cbn [bind] in X. inversion X; subst.
  destruct (IH _ _ _ _ _ _ S2 E2) as (A1 & A2). split; [cbn; congruence|]. constructor; [eapply f_rows; eauto|exact A2].
Qed.
Lemma c_join_eq B os : 0 < B * H -> length os = B * H -> Forall (fun o => length o = rows) os ->
  c_join m B os = (join_heads (acfg m B) os, times rows (times B (project 1 E (has (t_bout m))))).
Proof.
  intros P L F. unfold c_join, join_heads. destruct os as [|o os]; [cbn in L; lia|]. inversion F; subst.
  rewrite (cmap_eq _ (fun i => out_proj m B (map (fun o => nth i o []) (o :: os))) (times B (project 1 E (has (t_bout m))))) by (intros; apply c_out_eq).
  rewrite seq_length. reflexivity.
Qed.
Definition step_cost (B : nat) : cost :=
  plus (times 3 (times B (project 1 E (has (t_bin m))))) (plus (times (B * H) hc) (times rows (times B (project 1 E (has (t_bout m)))))).
Lemma c_mh_eq B ss t : 0 < B * H -> map sz ss = repeat (sz (p_default p)) (B * H) ->
  c_mh_step m p f B ss t = costing (mh_forward_step (acfg m B) p ss t) (step_cost B).
Proof.
  intros P S. destruct t as [[q k] v]. unfold c_mh_step, mh_forward_step. rewrite !c_in_eq. cbn [acfg c_zero_attn c_packed c_bias negb c_q c_k c_v].
  rewrite (c_heads_eq (B * H)) by (try exact S; apply Forall_forall; intros a Ha; eapply head_len, Ha).
  destruct (heads_step p ss _ _ _) as [[os ss']|] eqn:X; [|reflexivity]. cbn [costing bind then_ fst snd].
  destruct (heads_rows _ _ _ _ _ _ _ S X) as (A1 & A2). rewrite c_join_eq by assumption. cbn [then_ ret]. unfold step_cost. f_equal. f_equal.
  rewrite plus_free_r. f_equal. cbn [times]. rewrite plus_free_r. reflexivity.
Qed.
Lemma c_fstep_eq B t o h : 0 < B * H -> held_ok (acfg m B) p sz o ->
  c_fstep m p f B t o h = costing (m_fstep (acfg m B) p t o h) (step_cost B).
Proof.
  intros P S. unfold c_fstep, m_fstep. destruct o as [[mem r]|].
  - cbn [held_ok acfg c_H] in S. rewrite c_mh_eq by assumption. destruct (mh_forward_step (acfg m B) p mem t) as [[rs mem']|]; [|reflexivity].
    cbn [costing bind then_ ret fst snd]. rewrite plus_free_r. reflexivity.
  - cbn [acfg c_N c_H]. destruct (cell_new h (- Z.of_nat N)) as [r h1]. rewrite c_mh_eq by (try assumption; apply map_repeat').
    change (Cfg _ _ _ _ _ _ _ _ _ _ _) with (acfg m B).
    destruct (mh_forward_step (acfg m B) p _ t) as [[rs mem']|]; [|reflexivity].
    cbn [costing bind then_ ret fst snd]. rewrite plus_free_r. reflexivity.
Qed.
Lemma c_run_eq B ts : 0 < B * H -> forall o h, held_ok (acfg m B) p sz o ->
  c_run m p f B o ts h = costing (m_run (acfg m B) p o ts h) (times (length ts) (step_cost B)).
Proof.
  intros P. induction ts as [|t ts IH]; intros o h S; [reflexivity|]. cbn [c_run m_run length times]. rewrite c_fstep_eq by assumption.
  unfold m_forward_step. replace (match o with Some _ => _ | None => (None, h) end) with (@None (mstate p), h) by (destruct o; reflexivity).
  destruct (m_fstep (acfg m B) p t o h) as [[[out s] h1]|] eqn:X; [|reflexivity]. cbn [costing bind].
  rewrite IH by (eapply fstep_held; eauto). destruct (m_run (acfg m B) p (Some s) ts h1) as [[[outs o2] h2]|]; [|reflexivity].
  cbn [costing bind then_ ret fst snd]. rewrite plus_free_r. reflexivity.
Qed.
End Steps.

Lemma so_step_rows d (sc : K -> K) s q k v o s' : so_step d sc s q k v = Ok (o, s') -> length o = 1.
Proof.
  unfold so_step. destruct (roll_in (so_K s) k); [|discriminate]. destruct (roll_in (so_V s) v); [|discriminate]. cbn [bind]. intros X; inversion X. reflexivity.
Qed.
Lemma re_step_rows d (sc : K -> K) s q k v n o s' : re_rows s = [n - 1; n - 1; n - 1; n; n] -> re_step d sc s q k v = Ok (o, s') -> length o = n.
Proof.
  intros L. unfold re_rows in L. assert (L1 : length (re_d s) = n - 1) by congruence. assert (L2 : length (re_AV s) = n - 1) by congruence.
  assert (L3 : length (re_Q s) = n - 1) by congruence. assert (L4 : length (re_K s) = n) by congruence. clear L. unfold re_step.
  destruct (re_K s) as [|k1 Kt]; [discriminate|]. destruct (roll_in (re_Q s) (map sc q)); [|discriminate].
  cbn [first_row roll_in bind]. destruct (first_row (re_V s)); [|discriminate]. destruct (roll_in (re_V s) v); [|discriminate]. cbn [bind].
  intros X; inversion X. rewrite map2_len, !app_length, !map3_len, !map_length, L1, L2, L3. cbn in *. lia.
Qed.

Lemma single_cost B : step_cost (single_head N D) 1 B = single_step m B.
Proof.
  unfold step_cost, single_step. rewrite !times_plus. f_equal; [|f_equal].
  - rewrite !times_fields. unfold project; cbn [muls adds exps]. f_equal; lia.
  - rewrite !times_fields. cbn [muls adds exps]. f_equal; lia.
  - cbn [times]. apply plus_free_r.
Qed.
Lemma retro_cost B : step_cost (retro_head N D) N B = retro_step m B.
Proof.
  unfold step_cost, retro_step. rewrite !times_plus. f_equal; [|f_equal].
  - rewrite !times_fields. unfold project; cbn [muls adds exps]. f_equal; lia.
  - rewrite !times_fields. cbn [muls adds exps]. f_equal; lia.
  - rewrite !times_fields. unfold project; cbn [muls adds exps]. f_equal; lia.
Qed.

Lemma single_run B qi ts l h : 0 < B * H -> 0 < N -> 0 < D ->
  let o := fst (ahist (acfg m B) (ts_sdpa m qi) None [] l) in
  c_single m qi B o ts h = costing (m_run (acfg m B) (ts_sdpa m qi) o ts h) (times (length ts) (single_step m B)).
Proof.
  intros P PN PD o. rewrite <- single_cost. unfold c_single. apply (c_run_eq (ts_sdpa m qi) _ so_rows).
  - exact (so_steady (acfg m B) qi).
  - intros s q k v S L. change (so_rows s = so_rows (so_default N D qi)) in S. unfold so_rows, so_default in S. cbn [so_Q so_K so_V] in S. rewrite !repeat_length in S.
    cbn [ts_sdpa so_sdpa p_step p_state]. cbn [acfg c_E c_scale]. rewrite (c_so_eq _ _ s q k v N) by congruence. rewrite L, so_cost_eq by assumption. reflexivity.
  - intros s q k v o' s' _ X. exact (so_step_rows _ _ _ _ _ _ _ _ X).
  - exact P.
  - unfold o. apply ahist_held; [exact (so_steady (acfg m B) qi)|exact I].
Qed.
Lemma retro_run B ts l h : 0 < B * H -> 0 < N -> 0 < D ->
  let o := fst (ahist (acfg m B) (tr_sdpa m) None [] l) in
  c_retro m B o ts h = costing (m_run (acfg m B) (tr_sdpa m) o ts h) (times (length ts) (retro_step m B)).
Proof.
  intros P PN PD o. rewrite <- retro_cost. unfold c_retro.
  assert (X : forall s : @re_state K, re_rows s = re_rows (p_default (tr_sdpa m)) -> re_rows s = [N - 1; N - 1; N - 1; N; N]).
  { intros s ->. cbn [tr_sdpa re_sdpa p_default acfg c_N c_E]. unfold re_rows, re_default. cbn [re_d re_AV re_Q re_K re_V]. rewrite !repeat_length. reflexivity. }
  apply (c_run_eq (tr_sdpa m) _ re_rows).
  - exact (re_steady (acfg m B)).
  - intros s q k v S L. apply X in S. cbn [tr_sdpa re_sdpa p_step p_state]. cbn [acfg c_E c_scale]. rewrite (c_re_eq _ _ s q k v N) by assumption. rewrite L, re_cost_eq by assumption. reflexivity.
  - intros s q k v o' s' S Y. apply X in S. exact (re_step_rows _ _ _ _ _ _ _ _ _ S Y).
  - exact P.
  - unfold o. apply ahist_held; [exact (re_steady (acfg m B))|exact I].
Qed.

(** ** forward *)
Definition attend_cost (n d : nat) : cost := plus (Cost (n * d) (n * (d - 1)) 0) (plus (Cost n (n - 1) n) (wsum_cost d n)).
Lemma c_attend_eq q keys vals : length keys = length vals ->
  c_attend m q keys vals = (wsum D (softmax (map (dot D q) keys)) vals, attend_cost (length vals) D).
Proof.
  intros L. unfold c_attend. rewrite (cmap_eq _ (dot D q) (Cost D (D - 1) 0)) by (intros; apply c_dot_eq). cbn [then_].
  rewrite c_softmax_eq. cbn [then_]. rewrite c_wsum_eq by (rewrite softmax_len, map_length; exact L). f_equal. unfold attend_cost.
  rewrite map_length, L, times_fields. cbn [muls adds exps]. rewrite Nat.mul_0_r. reflexivity.
Qed.
Lemma c_forward_eq B qs ks vs : length ks = length vs ->
  c_forward m B qs ks vs = (mha_forward (acfg m B) qs ks vs,
    plus (times (length qs + 2 * length vs) (times B (project 1 E (has (t_bin m)))))
         (plus (times (length qs * (B * H)) (plus (Cost D 0 0) (attend_cost (length vs) D)))
               (times (length qs) (times B (project 1 E (has (t_bout m))))))).
Proof.
  intros L. unfold c_forward.
  rewrite (cmap_eq _ (in_proj m 0 B) (times B (project 1 E (has (t_bin m))))) by (intros; apply c_in_eq). cbn [then_].
  rewrite (cmap_eq _ (in_proj m 1 B) (times B (project 1 E (has (t_bin m))))) by (intros; apply c_in_eq). cbn [then_].
  rewrite (cmap_eq _ (in_proj m 2 B) (times B (project 1 E (has (t_bin m))))) by (intros; apply c_in_eq). cbn [then_].
  rewrite (cmap_eq _ (fun q => map (map (t_scale m)) (heads m B q)) (times (B * H) (Cost D 0 0))).
  2: { intros a Ha. apply in_map_iff in Ha. destruct Ha as (x & <- & _).
       rewrite (cmap_eq _ (map (t_scale m)) (Cost D 0 0)).
       - f_equal. f_equal. unfold heads. rewrite map_length, seq_length. reflexivity.
       - intros b Hb. apply head_len in Hb. rewrite (cmap_eq _ (t_scale m) one_mul) by reflexivity. rewrite Hb, times_fields. cbn. f_equal. f_equal; lia. }
  cbn [then_]. rewrite map_map.
  rewrite (cmap_eq _ (fun q => out_proj m B (map (fun h => wsum D (softmax (map (dot D (head h q)) (map (fun k => head h (heads m B k)) (map (in_proj m 1 B) ks))))
                                        (map (fun v => head h (heads m B v)) (map (in_proj m 2 B) vs))) (seq 0 (B * H))))
             (plus (times (B * H) (attend_cost (length vs) D)) (times B (project 1 E (has (t_bout m)))))).
  2: { intros a _. rewrite (cmap_eq _ (fun h => wsum D (softmax (map (dot D (head h a)) (map (fun k => head h (heads m B k)) (map (in_proj m 1 B) ks))))
                                        (map (fun v => head h (heads m B v)) (map (in_proj m 2 B) vs))) (attend_cost (length vs) D)).
       - rewrite seq_length. cbn [then_]. rewrite c_out_eq. reflexivity.
       - intros h _. rewrite c_attend_eq by (rewrite !map_length; exact L). rewrite !map_length. reflexivity. }
  cbn [then_]. f_equal.
  - rewrite map_map. unfold mha_forward. apply map_ext. intros q. cbn [acfg c_o c_E c_k c_v c_q c_bias c_zero_attn c_scale c_H]. f_equal. apply map_ext_in. intros h Hh.
    assert (Hq : head h (map (map (t_scale m)) (heads m B (in_proj m 0 B q))) = map (t_scale m) (head h (heads m B (in_proj m 0 B q)))).
    { unfold head. exact (map_nth (map (t_scale m)) _ [] h). }
    rewrite Hq, !app_nil_r, !map_map. reflexivity.
  - rewrite !map_length, L, !times_plus, !times_fields. unfold plus; cbn [muls adds exps]. f_equal; lia.
Qed.
Lemma full_cost B qs ks vs : length qs = N -> length ks = N -> length vs = N -> 0 < N -> 0 < D ->
  c_forward m B qs ks vs = (mha_forward (acfg m B) qs ks vs, full_forward m B).
Proof.
  intros L1 L2 L3 P1 P2. rewrite c_forward_eq by congruence. f_equal. rewrite L1, L3. unfold full_forward, full_head, attend_cost, wsum_cost, project.
  destruct N as [|n]; [lia|]. destruct D as [|d]; [lia|].
  rewrite !times_plus, !times_fields. unfold plus; cbn [muls adds exps]. replace (S n - 1) with n by lia. replace (S d - 1) with d by lia.
  replace (2 * S n * S n * S d - S n * S d - S n) with (S n * (S n * d + n + S d * n))
    by (assert (X : 2 * S n * S n * S d = S n * (S n * d + n + S d * n) + S n * S d + S n) by ring; rewrite X; lia).
  generalize (H * S d - 1). intros e. generalize (t_H m). intros H'. f_equal; destruct (has (t_bin m)), (has (t_bout m)); ring.
Qed.
Lemma one_cost B q ks vs : length ks = N -> length vs = N -> 0 < N -> 0 < D ->
  c_forward m B [q] ks vs = (mha_forward (acfg m B) [q] ks vs, single_forward m B).
Proof.
  intros L2 L3 P1 P2. rewrite c_forward_eq by congruence. f_equal. rewrite L3. unfold single_forward, single_head, attend_cost, wsum_cost, project.
  destruct N as [|n]; [lia|]. destruct D as [|d]; [lia|].
  rewrite !times_plus, !times_fields. unfold plus; cbn [muls adds exps length]. replace (S n - 1) with n by lia. replace (S d - 1) with d by lia.
  replace (2 * S n * S d - S d - 1) with (S n * d + n + S d * n)
    by (assert (X : 2 * S n * S d = S n * d + n + S d * n + S d + 1) by ring; rewrite X; lia).
  generalize (H * S d - 1). intros e. generalize (t_H m). intros H'. f_equal; destruct (has (t_bin m)), (has (t_bout m)); ring.
Qed.
End Module.

End CountProof.
