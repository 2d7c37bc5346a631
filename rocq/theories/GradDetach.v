(** Proofs for C80: detached buffers. *)
From Coq Require Import List ZArith Bool Arith Lia ZifyBool ZifyNat.
From Verif Require Import Base Frames CoMod Leaf Rnn Net Spec LeafSpec NetSpec NetOk Calls NetDef NetRel Batch RelProof BatchProof FloatProof.
From Verif Require Import Reload ReloadSpec ReloadNet ReloadConv Grad GradSpec GradProof.
Import ListNotations.

Section Detach.
Context {F : Type} {FA : Frames F}.

Lemma det_all {A} (R : A -> A -> Prop) (f : A -> A) l : (forall x, R (f x) x) -> Forall2 R (map f l) l.
Proof. intros H. induction l; simpl; constructor; auto. Qed.

Lemma detach_arch (m : md (dual F)) : plain m -> same_arch (detach m) m.
Proof.
  unfold same_arch. induction m using md_ind'; cbn [plain detach]; intros Hp; try tauto.
  - constructor; [intros ?; exact I|]. repeat split. cbn. now apply det_all.
  - constructor.
  - constructor; [split; try reflexivity; try (intros ?; exact I); try (intros; exact I)|].
    + destruct (cb c); constructor; exact I.
    + intros ? ? ? ? _ _; exact I.
    + repeat split. cbn. apply det_all. intros x. now apply det_all.
  - constructor; [split; try reflexivity; try (intros ?; exact I); try (intros; exact I)|]. repeat split. cbn. now apply det_all.
  - constructor. intros; exact I.
  - constructor. rewrite allP_Forall in Hp. clear -H Hp. induction H; inversion Hp; subst; simpl; constructor; auto.
  - constructor; [|split; auto]. rewrite allP_Forall in Hp. clear -H Hp. induction H; inversion Hp; subst; simpl; constructor; auto.
Qed.

Lemma detach_clean (m : md (dual F)) : plain m -> clean (detach m) = clean m.
Proof.
  induction m using md_ind'; cbn [plain detach clean]; intros Hp; try reflexivity; try tauto; f_equal; rewrite map_map; apply map_ext_in;
    rewrite allP_Forall in Hp; rewrite Forall_forall in H, Hp; auto.
Qed.

Theorem detach_gradients sh (D : md (dual F)) xs us D1 b c : net sh D -> rnn_free D ->
  feed (nstep true) D xs = Ok (us, D1) -> (rfield D - 1 <= Z.of_nat (length b))%Z ->
  exists ub vb ws E1 E2,
    feed (nstep true) (detach D1) (b ++ c) = Ok (ub ++ ws, E1) /\ length ub = length b /\
    feed (nstep true) D1 (b ++ c) = Ok (vb ++ ws, E2) /\ length vb = length b.
Proof.
  intros Hn Hr E Hb. destruct (net_state sh D xs us D1 Hn Hr E) as (_ & _ & Hc & Hp & _ & _).
  destruct (meet sh D xs us D1 (detach D1) b c Hn Hr E (detach_arch D1 Hp)) as (ub & ws & m2 & vb & q2 & H); [now rewrite detach_clean|auto|].
  exists ub, vb, ws, m2, q2. exact H.
Qed.

(** Values do not depend on tangents. *)
Lemma det_pri (l : list (dual F)) k : Forall2 (graph pri) l k -> Forall2 (graph pri) (map det l) k.
Proof. induction 1; simpl; constructor; auto. Qed.
Lemma det_pris (l : list (list (dual F))) k : Forall2 (Forall2 (graph pri)) l k -> Forall2 (Forall2 (graph pri)) (map (map det) l) k.
Proof. induction 1; simpl; constructor; auto. now apply det_pri. Qed.

Lemma detach_pri (m : md (dual F)) : forall n, rel_md (graph pri) m n -> rel_md (graph pri) (detach m) n.
Proof.
  assert (L : forall ms, Forall (fun m => forall n, rel_md (graph pri) m n -> rel_md (graph pri) (detach m) n) ms ->
    forall ns, Forall2 (rel_md (graph pri)) ms ns -> Forall2 (rel_md (graph pri)) (map detach ms) ns).
  { induction 1; intros ns X; inversion X; subst; simpl; constructor; auto. }
  induction m using md_ind'; intros n' HM; inversion HM; subst; cbn [detach]; try (now constructor).
  - constructor; auto. match goal with X : rel_obj _ _ _ |- _ => destruct X as (X1 & X2) end. split; [now apply det_pri|exact X2].
  - constructor; auto. match goal with X : rel_obj _ _ _ |- _ => destruct X as (X1 & X2) end. split; [now apply det_pris|exact X2].
  - constructor; auto. match goal with X : rel_obj _ _ _ |- _ => destruct X as (X1 & X2) end. split; [now apply det_pri|exact X2].
  - constructor; auto. match goal with X : rel_opt _ _ _ |- _ => inversion X; subst end; cbn [option_map]; constructor. now apply det_pris.
  - constructor; auto.
  - constructor; auto.
  - constructor; auto.
  - constructor; auto. match goal with X : rel_opt _ _ _ |- _ => inversion X; subst end; cbn [option_map]; constructor. auto.
Qed.

Lemma pri_frames : rel_frames (graph (@pri F)).
Proof. constructor. reflexivity. Qed.

Theorem detach_values (D : md (dual F)) (m : md F) history ws D1 cs :
  rel_md (graph pri) D m -> run_calls D history = Ok (ws, D1) ->
  outs_map pri (outs (run_calls (detach D1) cs)) = outs_map pri (outs (run_calls D1 cs)).
Proof.
  intros HM E.
  assert (Hc : Forall2 (rel_call (graph pri)) history (map (call_map pri) history)).
  { clear. induction history; simpl; constructor; auto. apply g_call. }
  pose proof (r_calls (graph pri) pri_frames _ _ Hc D m HM) as Hr. rewrite E in Hr.
  inversion Hr as [a b [_ H2] Ea Eb|]; subst. cbn [snd] in H2.
  rewrite <- (batch_entry pri (detach D1) (snd b)); [|apply pri_frames|now apply detach_pri].
  rewrite <- (batch_entry pri D1 (snd b)); [reflexivity|apply pri_frames|exact H2].
Qed.

End Detach.

Section Truncated.
Context {F : Type} {FA : Frames F} {FL : FrameLaws F}.
Variables (c : conv_cfg F) (dW : nat -> F -> F) (db : F).
Hypothesis Hc : conv_ok c.
Hypothesis Hd : forall i, dW i f0 = f0.

Definition frozen : conv_cfg (dual F) := dual_conv c (fun _ _ => f0) f0.
Definition moving : conv_cfg (dual F) := dual_conv c dW db.

Lemma moving_ok : conv_ok moving.
Proof.
  destruct Hc. split; cbn; auto. intros i. rewrite cok_lin, Hd. now rewrite fadd_0_l.
Qed.
Lemma frozen_ok : conv_ok frozen.
Proof.
  destruct Hc. split; cbn; auto. intros i. rewrite cok_lin. now rewrite fadd_0_l.
Qed.

Lemma det_frames : rel_frames (graph (@det F FA)).
Proof. constructor. reflexivity. Qed.
Lemma freeze : rel_conv (graph (@det F FA)) moving frozen.
Proof.
  destruct Hc. split; try reflexivity; cbn; try (intros X; congruence).
  - intros i x y <-. unfold graph, det. cbn. now rewrite cok_lin, fadd_0_l.
  - destruct (cb c); cbn; constructor. reflexivity.
  - intros a a' b b' <- <-. unfold graph, det. cbn. now rewrite fadd_0_l.
Qed.

Lemma det_rows (l k : list (list (dual F))) : Forall2 (Forall2 (graph (@det F FA))) l k -> map (map det) l = k.
Proof.
  assert (X : forall l k, Forall2 (graph (@det F FA)) l k -> map det l = k).
  { induction 1 as [|a b l0 k0 <- _ IH]; simpl; [reflexivity|]. now rewrite IH. }
  induction 1 as [|a b l0 k0 H _ IH]; simpl; [reflexivity|]. now rewrite IH, (X _ _ H).
Qed.

(** Feeding a convolution is learning with parameters that stay the same. *)
Lemma learn_const {G : Type} {GA : Frames G} (e : conv_cfg G) xs : forall o,
  feed (nstep true) (MConv e o) xs = ('(ys, o1) <- feed_learning o (map (pair e) xs) ;; Ok (ys, MConv e o1)).
Proof.
  induction xs as [|x xs IH]; intros o; cbn [feed map feed_learning]; [reflexivity|].
  unfold nstep at 1. cbn [step]. destruct (conv_forward_step e o x true) as [[y o1]|]; cbn [bind]; [|reflexivity].
  destruct y; cbn [of_opt bind]; rewrite IH; destruct (feed_learning o1 (map (pair e) xs)) as [[ys o2]|]; reflexivity.
Qed.
Lemma learn_app {G : Type} {GA : Frames G} (l k : list (conv_cfg G * G)) : forall o,
  feed_learning o (l ++ k) = ('(ys, o1) <- feed_learning o l ;; '(zs, o2) <- feed_learning o1 k ;; Ok (ys ++ zs, o2)).
Proof.
  induction l as [|[e x] l IH]; intros o; cbn [app feed_learning bind].
  - destruct (feed_learning o k) as [[? ?]|]; reflexivity.
  - destruct (conv_forward_step e o x true) as [[y o1]|]; cbn [bind]; [|reflexivity]. rewrite IH.
    destruct (feed_learning o1 l) as [[ys o2]|]; cbn [bind]; [|reflexivity].
    destruct (feed_learning o2 k) as [[zs o3]|]; reflexivity.
Qed.

Lemma tan_fsum (l : list (dual F)) : tan (fsum l) = fsum (map tan l).
Proof. induction l as [|x l IH]; [reflexivity|]. change (fadd (tan x) (tan (fsum l)) = fadd (tan x) (fsum (map tan l))). now rewrite IH. Qed.

Variables (a b : list (dual F)).
Hypothesis Ha : a <> [].
Definition trace : list (conv_cfg (dual F) * dual F) := map (pair frozen) (map det a) ++ map (pair moving) b.

Lemma trace_old z : (z < Z.of_nat (length a))%Z ->
  params_at trace frozen z = frozen /\ tan (frame_at trace frozen z) = f0.
Proof.
  intros Hz. assert (0 < length a) by (destruct a; [congruence|simpl; lia]).
  assert (N : forall i, i < length a -> nth i trace (frozen, f0) = (frozen, det (nth i a f0))).
  { intros i Hi. unfold trace. rewrite app_nth1 by (now rewrite !map_length).
    rewrite map_map. rewrite (nth_indep _ (frozen, f0) (frozen, det f0)) by (now rewrite map_length).
    exact (map_nth (fun x => (frozen, det x)) a f0 i). }
  unfold params_at, frame_at. destruct (Z.ltb_spec z 0).
  - replace (Z.to_nat z) with 0 by lia. unfold params_at. cbn [Z.to_nat]. rewrite N by auto. cbn [fst snd]. split; [reflexivity|].
    unfold frozen, dual_conv. cbn [cfill]. destruct Hc. destruct (cfill c); cbn; congruence.
  - rewrite N by lia. cbn. auto.
Qed.
Lemma trace_new z : (Z.of_nat (length a) <= z < Z.of_nat (length (a ++ b)))%Z ->
  params_at trace frozen z = moving /\ frame_at trace frozen z = dual_at (a ++ b) (cfill c) z.
Proof.
  rewrite app_length. intros Hz. unfold params_at, frame_at, dual_at, trace. replace (z <? 0)%Z with false by lia.
  rewrite !app_nth2 by (rewrite ?map_length; lia). rewrite !map_length.
  rewrite (nth_indep _ (frozen, f0) (moving, f0)) by (rewrite map_length; lia).
  rewrite (map_nth (pair moving) b f0). auto.
Qed.

Lemma learned_truncated n : length a <= n < length (a ++ b) ->
  tan (learned trace frozen (ck c) n) = truncated c dW db (a ++ b) (length a) n.
Proof.
  intros Hn. unfold learned, truncated. cbv zeta. destruct (trace_new (Z.of_nat n)) as [-> _]; [lia|].
  assert (E : fsum (map tan (map (fun i => let z := (Z.of_nat n - Z.of_nat (ck c - 1) + Z.of_nat i)%Z in
      cW (params_at trace frozen z) i (frame_at trace frozen z)) (seq 0 (ck c)))) =
    fsum (map (fun i => let z := (Z.of_nat n - Z.of_nat (ck c - 1) + Z.of_nat i)%Z in
      let p := dual_at (a ++ b) (cfill c) z in
      if Z.ltb z (Z.of_nat (length a)) then f0 else fadd (cW c i (tan p)) (dW i (pri p))) (seq 0 (ck c)))).
  { rewrite map_map. f_equal. apply map_ext_in. intros i Hi. apply in_seq in Hi. cbv zeta.
    set (z := (Z.of_nat n - Z.of_nat (ck c - 1) + Z.of_nat i)%Z). destruct (Z.ltb_spec z (Z.of_nat (length a))) as [Hz|Hz].
    - destruct (trace_old z Hz) as [-> H2]. cbn [frozen dual_conv cW tan]. rewrite H2. destruct Hc. now rewrite cok_lin, fadd_0_l.
    - destruct (trace_new z) as [-> ->]; [subst z; lia|]. reflexivity. }
  cbv zeta in E. rewrite <- E, <- tan_fsum. cbn [moving dual_conv cb]. destruct (cb c); reflexivity.
Qed.

Theorem truncated_gradient us m1 : feed (nstep true) (MConv moving obj_init) a = Ok (us, m1) ->
  exists ys m2, feed (nstep true) (detach m1) b = Ok (ys, m2) /\
    map (option_map tan) ys =
    map (fun n => if emits (ck c - 1 - cp c) (cs c) n then Some (truncated c dW db (a ++ b) (length a) n) else None)
      (seq (length a) (length b)).
Proof.
  intros E. pose proof E as E0. rewrite learn_const in E0.
  destruct (feed_learning obj_init (map (pair moving) a)) as [[us0 o0]|] eqn:E00; cbn [bind] in E0; [|discriminate].
  injection E0 as <- <-. clear E00.
  assert (Hl : Forall2 (graph det) a (map det a)).
  { clear. induction a; simpl; constructor; auto. reflexivity. }
  assert (HM : rel_md (graph det) (MConv moving obj_init) (MConv frozen obj_init)).
  { constructor; [apply freeze|apply r_obj_init]. }
  pose proof (r_feed (graph det) det_frames _ _ Hl _ _ HM) as R. rewrite E, learn_const in R.
  destruct (feed_learning obj_init (map (pair frozen) (map det a))) as [[us' o']|] eqn:E1; cbn [bind] in R; [|inversion R].
  inversion R as [p q [_ H2] Ep Eq|]; subst. cbn [snd] in H2. assert (Ho : rel_obj (Forall2 (graph det)) o0 o') by (inversion H2; auto).
  assert (Eo : det_objs o0 = o').
  { destruct Ho as (X1 & X2 & X3). destruct o0, o'. unfold det_objs. cbn in *. apply det_rows in X1. congruence. }
  destruct (online_learning _ _ _ (ck c) (cs c) (cp c) trace frozen) as (oe & El).
  { intros e x Hi. unfold trace in Hi. apply in_app_or in Hi as [Hi|Hi]; apply in_map_iff in Hi as (y & [= <- <-] & _).
    - split; [apply frozen_ok|repeat split].
    - split; [apply moving_ok|repeat split]. }
  { apply frozen_ok. }
  { repeat split. }
  unfold trace in El at 1. rewrite learn_app, E1 in El. cbn [bind] in El.
  cbn [detach]. rewrite Eo, learn_const. destruct (feed_learning o' (map (pair moving) b)) as [[zs o2]|]; cbn [bind] in El; [|discriminate].
  cbn [bind]. exists zs, (MConv moving o2). split; [reflexivity|]. injection El as Ez _.
  assert (Lt : length trace = length a + length b) by (unfold trace; rewrite app_length, !map_length; reflexivity).
  assert (Lu : length us' = length a).
  { assert (Lx : forall (l : list (conv_cfg (dual F) * dual F)) o ys o1, feed_learning o l = Ok (ys, o1) -> length ys = length l).
    { clear. induction l as [|[e x] l IH]; intros o ys o1; cbn [feed_learning]; [intros [= <- <-]; reflexivity|].
      destruct (conv_forward_step e o x true) as [[y o2]|]; cbn [bind]; [|discriminate].
      destruct (feed_learning o2 l) as [[zs o3]|] eqn:E; cbn [bind]; [|discriminate]. intros [= <- <-]. simpl. f_equal. eapply IH; eauto. }
    rewrite (Lx _ _ _ _ E1), !map_length. reflexivity. }
  assert (Z : zs = map (fun n => if emits (ck c - 1 - cp c) (cs c) n then Some (learned trace frozen (ck c) n) else None) (seq (length a) (length b))).
  { rewrite Lt, seq_app, map_app in Ez. cbn [Nat.add] in Ez. apply (f_equal (skipn (length a))) in Ez.
    rewrite !skipn_app, !map_length, seq_length, Lu, Nat.sub_diag in Ez. rewrite !(skipn_all2 (n := length a)) in Ez by (rewrite ?map_length, ?seq_length; lia). exact Ez. }
  rewrite Z, map_map. apply map_ext_in. intros n Hn. apply in_seq in Hn. destruct (emits _ _ n); cbn [option_map]; [|reflexivity].
  rewrite learned_truncated; [reflexivity|]. rewrite app_length. lia.
Qed.

End Truncated.

Section Layers.
Context {F : Type} {FA : Frames F} {FL : FrameLaws F}.

Lemma dual_conv_ok (c : conv_cfg F) dW db : conv_ok c -> (forall i, dW i f0 = f0) -> conv_ok (dual_conv c dW db).
Proof. apply moving_ok. Qed.

Lemma dual_pool_ok (c : pool_cfg F) : pool_ok c -> pmode c <> NegInf -> pool_ok (dual_pool c).
Proof.
  intros [] Hm. split; cbn; auto.
  - intros l l' Hp. f_equal; apply pok_agg; now apply Permutation.Permutation_map.
  - intros x. destruct (pmode c) eqn:E; [|reflexivity|congruence]. cbn. pose proof (pok_sp f0) as X. cbn in X. now rewrite X.
Qed.

(** A maximum without ties does not depend on the order of the frames. *)
Lemma first_max_unique (le : F -> F -> bool) (l : list (dual F)) p : In p l ->
  (forall q, In q l -> q = p \/ (le (pri q) (pri p) = true /\ le (pri p) (pri q) = false)) -> first_max le l = p.
Proof.
  assert (K : forall l, (forall q, In q l -> q = p \/ (le (pri q) (pri p) = true /\ le (pri p) (pri q) = false)) ->
    fold_left (fun a q => if le (pri q) (pri a) then a else q) l p = p).
  { induction l0 as [|q l0 IH]; intros H; cbn [fold_left]; [reflexivity|].
    destruct (H q (or_introl eq_refl)) as [->|[H1 H2]].
    - destruct (le (pri p) (pri p)); apply IH; intros; apply H; now right.
    - rewrite H1. apply IH. intros; apply H; now right. }
  destruct l as [|a l]; cbn [first_max]; [intros []|]. revert a. induction l as [|b l IH]; intros a Hi H.
  - destruct Hi as [->|[]]. reflexivity.
  - destruct Hi as [->|Hi]; [apply K; intros; apply H; now right|]. cbn [fold_left].
    destruct (H a (or_introl eq_refl)) as [->|[A1 A2]].
    + apply (K (b :: l)). intros; apply H; now right.
    + destruct Hi as [->|Hi].
      * rewrite A2. apply K. intros; apply H; right; now right.
      * destruct (le (pri b) (pri a)); apply IH; try (now right); intros q [<-|Hq]; apply H; cbn; tauto.
Qed.
End Layers.
