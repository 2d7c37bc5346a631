(** Related networks behave alike (C53, C54). *)
From Coq Require Import List ZArith Bool Arith Lia.
From Verif Require Import Base Frames CoMod Leaf Rnn Net Spec NetSpec Calls NetOk NetProps NetRel.
Import ListNotations.

(* ------------------------------------------------------------------ *)
(** ** Lists, options, results *)

Section Rel.
Context {A B : Type} (R : A -> B -> Prop).

Lemma r_len l l' : Forall2 R l l' -> length l = length l'.
Proof. induction 1; simpl; auto. Qed.
Lemma r_repeat n a b : R a b -> Forall2 R (repeat a n) (repeat b n).
Proof. intros H. induction n; simpl; constructor; auto. Qed.
Lemma r_app l l' k k' : Forall2 R l l' -> Forall2 R k k' -> Forall2 R (l ++ k) (l' ++ k').
Proof. intros H1 H2. induction H1; simpl; auto. Qed.
Lemma r_skipn n l l' : Forall2 R l l' -> Forall2 R (skipn n l) (skipn n l').
Proof. intros H. revert n. induction H; intros [|n]; simpl; auto. Qed.
Lemma r_firstn n l l' : Forall2 R l l' -> Forall2 R (firstn n l) (firstn n l').
Proof. intros H. revert n. induction H; intros [|n]; simpl; auto. Qed.
Lemma r_nth n l l' a b : Forall2 R l l' -> R a b -> R (nth n l a) (nth n l' b).
Proof. intros H Hab. revert n. induction H; intros [|n]; simpl; auto. Qed.
Lemma r_last l l' a b : Forall2 R l l' -> R a b -> R (last l a) (last l' b).
Proof. intros H Hab. induction H as [|x y l l' H1 H2 IH]; [auto|]. destruct H2; [auto|]. exact IH. Qed.
Lemma r_nth_error n l l' : Forall2 R l l' -> rel_opt R (nth_error l n) (nth_error l' n).
Proof. intros H. revert n. induction H; intros [|n]; simpl; auto; constructor; auto. Qed.
Lemma r_set_nth n l l' a b : Forall2 R l l' -> R a b -> Forall2 R (set_nth l n a) (set_nth l' n b).
Proof. intros H Hab. revert n. induction H; intros [|n]; simpl; auto. Qed.

Lemma r_getz i l l' : Forall2 R l l' -> rel_res R (getz l i) (getz l' i).
Proof.
  intros H. unfold getz. destruct (Z.ltb i 0); [constructor|].
  destruct (r_nth_error (Z.to_nat i) l l' H); constructor; auto.
Qed.
Lemma r_setz i l l' a b : Forall2 R l l' -> R a b -> rel_res (Forall2 R) (setz l i a) (setz l' i b).
Proof.
  intros H Hab. unfold setz. destruct (Z.ltb i 0); [constructor|]. rewrite (r_len l l' H).
  destruct (_ <? _); constructor. now apply r_set_nth.
Qed.
Lemma r_slice a b l l' : Forall2 R l l' -> Forall2 R (slice_ab a b l) (slice_ab a b l').
Proof. intros H. unfold slice_ab. rewrite (r_len l l' H). now apply r_skipn, r_firstn. Qed.
Lemma r_somes l l' : Forall2 (rel_opt R) l l' -> Forall2 R (somes l) (somes l').
Proof. induction 1 as [|x y l l' H1 H2 IH]; [constructor|]. destruct H1; simpl; auto. Qed.
Lemma r_stack l l' : Forall2 R l l' -> rel_opt (Forall2 R) (stack_outs l) (stack_outs l').
Proof. intros H. destruct H; simpl; constructor; auto. Qed.
End Rel.

Lemma r_bind {A B C D} (RA : A -> B -> Prop) (RC : C -> D -> Prop) r r' f f' :
  rel_res RA r r' -> (forall a b, RA a b -> rel_res RC (f a) (f' b)) -> rel_res RC (bind r f) (bind r' f').
Proof. intros H Hf. destruct H; simpl; [auto|constructor]. Qed.

Lemma r_bindp {A B A2 B2 C D} (RA : A -> B -> Prop) (RB : A2 -> B2 -> Prop) (RC : C -> D -> Prop) r r'
  (f : A -> A2 -> res C) (f' : B -> B2 -> res D) :
  rel_res (rel_pair RA RB) r r' -> (forall a b a2 b2, RA a b -> RB a2 b2 -> rel_res RC (f a a2) (f' b b2)) ->
  rel_res RC (bind r (fun '(a, a2) => f a a2)) (bind r' (fun '(b, b2) => f' b b2)).
Proof. intros H Hf. destruct H as [[a a2] [b b2] [H1 H2]|]; simpl in *; [auto|constructor]. Qed.

Lemma r_map {A B C D} (RA : A -> B -> Prop) (RC : C -> D -> Prop) f g l l' :
  Forall2 RA l l' -> (forall a b, RA a b -> RC (f a) (g b)) -> Forall2 RC (map f l) (map g l').
Proof. intros H Hf. induction H; simpl; auto. Qed.

Lemma r_map_same {C C2 D} (RC : C -> D -> Prop) f g (l : list C2) :
  (forall a, In a l -> RC (f a) (g a)) -> Forall2 RC (map f l) (map g l).
Proof. intros Hf. induction l; simpl; constructor; auto. - apply Hf; left; auto. - apply IHl. intros; apply Hf; right; auto. Qed.

Lemma r_mapM {C D E} (RC : C -> D -> Prop) f g (l : list E) :
  (forall a, rel_res RC (f a) (g a)) -> rel_res (Forall2 RC) (mapM f l) (mapM g l).
Proof.
  intros Hf. induction l as [|a l IH]; simpl; [repeat constructor|].
  eapply r_bind; [apply Hf|]. intros. eapply r_bind; [apply IH|]. intros. constructor. auto.
Qed.

Lemma r_if {A B} (R : A -> B -> Prop) (b : bool) x y x' y' : R x x' -> R y y' -> R (if b then x else y) (if b then x' else y').
Proof. destruct b; auto. Qed.

Section RelProof.
Context {F G : Type} {FA : Frames F} {FL : FrameLaws F} {GA : Frames G} {GL : FrameLaws G}.
Variable R : F -> G -> Prop.
Hypothesis RF : rel_frames R.

Notation RL := (Forall2 R).
Notation RV := (rel_val R).
Notation RM := (rel_md R).

(* ------------------------------------------------------------------ *)
(** ** Frames *)

Lemma r_padding m x y : rel_fill R m -> R x y -> R (make_padding m x) (make_padding m y).
Proof. intros H Hxy. destruct m; simpl; auto. apply RF. Qed.

Lemma r_fsum l l' : rel_sum R -> RL l l' -> R (fsum l) (fsum l').
Proof. intros HS. induction 1; simpl; [apply RF|apply HS; auto]. Qed.

Lemma r_pad_time m p xs ys : rel_fill R m -> RL xs ys -> rel_res RL (pad_time m p xs) (pad_time m p ys).
Proof.
  intros Hm H. destruct m; simpl.
  - constructor. repeat apply r_app; auto; apply r_repeat, RF.
  - destruct H; constructor. repeat apply r_app; auto; apply r_repeat; auto.
    now apply (r_last R (_ :: _) (_ :: _)); auto.
  - constructor. repeat apply r_app; auto; apply r_repeat; auto.
Qed.

Lemma r_bias b b' y y' : rel_sum R -> rel_opt R b b' -> R y y' -> R (add_bias b y) (add_bias b' y').
Proof. intros HS H Hy. destruct H; simpl; auto. Qed.

Lemma r_xcorr W W' b b' k s xs ys : rel_sum R -> (forall i x y, R x y -> R (W i x) (W' i y)) -> rel_opt R b b' -> RL xs ys ->
  rel_res RL (xcorr W b k s xs) (xcorr W' b' k s ys).
Proof.
  intros HS HW Hb H. unfold xcorr. rewrite (r_len R xs ys H). destruct (_ <? _); constructor.
  apply r_map_same. intros j _. apply r_bias; auto. apply r_fsum; auto. apply r_map_same. intros i _. apply HW.
  apply r_nth; auto. apply RF.
Qed.

Lemma r_xpool agg agg' k s d xs ys : (forall l l', RL l l' -> R (agg l) (agg' l')) -> RL xs ys ->
  rel_res RL (xpool agg k s d xs) (xpool agg' k s d ys).
Proof.
  intros Ha H. unfold xpool. rewrite (r_len R xs ys H). destruct (_ <? _); constructor.
  apply r_map_same. intros j _. apply Ha. apply r_map_same. intros i _. apply r_nth; auto. apply RF.
Qed.

(* ------------------------------------------------------------------ *)
(** ** CoModule *)

Section Co.
Context {O O' S S' : Type} (RO : O -> O' -> Prop) (RS : S -> S' -> Prop).
Variable get : O -> option S. Variable get' : O' -> option S'.
Variable set : O -> S -> O. Variable set' : O' -> S' -> O'.
Variable fs : F -> option S -> res (option F * option S). Variable fs' : G -> option S' -> res (option G * option S').
Variable mk : F -> F. Variable mk' : G -> G.
Hypothesis Hget : forall o o', RO o o' -> rel_opt RS (get o) (get' o').
Hypothesis Hset : forall o o' s s', RO o o' -> RS s s' -> RO (set o s) (set' o' s').
Hypothesis Hfs : forall x y s s', R x y -> rel_opt RS s s' -> rel_res (rel_pair (rel_opt R) (rel_opt RS)) (fs x s) (fs' y s').
Hypothesis Hmk : forall x y, R x y -> R (mk x) (mk' y).

Lemma r_co_step o o' x y upd : RO o o' -> R x y ->
  rel_res (rel_pair (rel_opt R) RO) (co_forward_step get set fs o x upd) (co_forward_step get' set' fs' o' y upd).
Proof.
  intros Ho Hx. unfold co_forward_step. eapply r_bindp; [apply Hfs; auto|].
  intros a b s s' Ha Hs. constructor. split; [auto|]. simpl. destruct Hs; [|auto]. destruct upd; auto.
Qed.

Lemma r_co_loop xs ys s s' : RL xs ys -> rel_opt RS s s' ->
  rel_res (rel_pair RL (rel_opt RS)) (co_loop fs xs s) (co_loop fs' ys s').
Proof.
  intros H. revert s s'. induction H as [|x y xs ys Hx H IH]; intros s s' Hs; simpl; [constructor; split; auto; constructor|].
  eapply r_bindp; [apply Hfs; auto|]. intros a b s1 s1' Ha Hs1. eapply r_bindp; [apply IH; auto|].
  intros l l' s2 s2' Hl Hs2. constructor. split; [|auto]. simpl. destruct Ha; auto.
Qed.

Lemma r_end_frames p xs ys : RL xs ys -> rel_res RL (end_frames mk p xs) (end_frames mk' p ys).
Proof.
  intros H. unfold end_frames. destruct p; [repeat constructor|]. destruct H as [|x y l l' Hx Hl]; constructor.
  apply r_repeat, Hmk. now apply (r_last R (x :: l) (y :: l')); auto.
Qed.

Lemma r_co_steps p o o' xs ys pe upd : RO o o' -> RL xs ys ->
  rel_res (rel_pair (rel_opt RL) RO) (co_forward_steps get set fs mk p o xs pe upd) (co_forward_steps get' set' fs' mk' p o' ys pe upd).
Proof.
  intros Ho Hx. unfold co_forward_steps. eapply r_bindp; [apply r_co_loop; auto|].
  intros l l' s s' Hl Hs. cbv zeta.
  set (o1 := match s with Some s0 => if upd then set o s0 else o | None => o end).
  set (o1' := match s' with Some s0 => if upd then set' o' s0 else o' | None => o' end).
  assert (Ho1 : RO o1 o1') by (unfold o1, o1'; destruct Hs; [destruct upd|]; auto).
  apply (r_bind RL).
  - destruct pe; [|repeat constructor]. eapply r_bind; [apply r_end_frames; eauto|]. intros e e' He.
    eapply r_bindp; [apply r_co_loop; [exact He|]; destruct (Hget o1 o1' Ho1); [constructor; auto|exact Hs]|].
    intros k k' _ _ Hk _. constructor. exact Hk.
  - intros k k' Hk. constructor. split; [|auto]. apply r_stack. now apply r_app.
Qed.
End Co.

Lemma r_obj_get {A B} (RB : A -> B -> Prop) o o' : rel_obj RB o o' -> rel_opt (rel_obj RB) (obj_get o) (obj_get o').
Proof.
  intros Ho. pose proof Ho as (H & _). unfold obj_get.
  destruct o as [b i s], o' as [b' i' s']; simpl in *. destruct H; constructor. exact Ho.
Qed.
Lemma r_obj_init {A B} (RB : A -> B -> Prop) : rel_obj RB obj_init obj_init.
Proof. repeat split. constructor. Qed.

(* ------------------------------------------------------------------ *)
(** ** Leaves *)

Notation RO1 := (rel_pair (rel_opt R) (rel_opt (rel_obj R))).

Lemma r_delay_fstep d f sh x y s s' : rel_fill R f -> R x y -> rel_opt (rel_obj R) s s' ->
  rel_res RO1 (delay_fstep d f sh x s) (delay_fstep d f sh y s').
Proof.
  intros Hf Hx Hs. unfold delay_fstep. destruct (d =? 0); [constructor; split; auto; constructor; auto|].
  cbv zeta.
  set (st := match s with Some s0 => s0 | None => delay_init d f sh x end).
  set (st' := match s' with Some s0 => s0 | None => delay_init d f sh y end).
  assert (Hst : rel_obj R st st').
  { unfold st, st'. destruct Hs; [auto|]. repeat split. simpl. apply r_repeat. now apply r_padding. }
  destruct Hst as (H1 & H2 & H3). rewrite H2, H3.
  apply (r_bind (rel_opt R)).
  - destruct (Z.leb 0 (o_idx st')); [|repeat constructor]. eapply r_bind; [eapply r_getz; eauto|]. intros; repeat constructor; auto.
  - intros a b Hab. eapply r_bind; [eapply r_setz; eauto|]. intros l l' Hl. constructor. split; [auto|]. constructor. repeat split. auto.
Qed.

Lemma r_skip_fstep n x y s : R x y -> rel_res (rel_pair (rel_opt R) (rel_opt eq)) (skip_fstep n x s) (skip_fstep n y s).
Proof. intros H. unfold skip_fstep. destruct (Z.leb _ _); constructor; split; simpl; try constructor; auto. Qed.

Lemma r_conv_forward c c' xs ys : rel_conv R c c' -> RL xs ys -> rel_res RL (conv_forward c xs) (conv_forward c' ys).
Proof.
  intros [] H. unfold conv_forward. pose proof H as H'. destruct H; [constructor|]. rewrite <- rc_mode, <- rc_p, <- rc_k, <- rc_s.
  eapply r_bind; [eapply r_pad_time; eauto|]. intros. now apply r_xcorr.
Qed.

Lemma r_gather l l' i n : Forall2 RL l l' -> rel_res RL (conv_gather l i n) (conv_gather l' i n).
Proof.
  intros H. unfold conv_gather. apply r_mapM. intros a. eapply r_bind; [eapply r_getz; eauto|]. intros. eapply r_getz; eauto.
Qed.

Lemma r_conv_fstep c c' x y s s' : rel_conv R c c' -> R x y -> rel_opt (rel_obj RL) s s' ->
  rel_res (rel_pair (rel_opt R) (rel_opt (rel_obj RL))) (conv_fstep c x s) (conv_fstep c' y s').
Proof.
  intros Hc Hx Hs. unfold conv_fstep.
  assert (Es : conv_stateless c = conv_stateless c') by (destruct Hc; unfold conv_stateless; congruence).
  rewrite <- Es. destruct (conv_stateless c).
  - eapply r_bind; [apply r_conv_forward; eauto|]. intros l l' Hl. eapply r_bind; [eapply r_getz; eauto|].
    intros a b Hab. constructor. split; auto. constructor; auto.
  - pose proof Hc as Hc'. destruct Hc. rewrite <- rc_k, <- rc_s.
    eapply r_bind; [apply r_pad_time; [discriminate|constructor; auto]|]. intros xp xp' Hxp.
    eapply r_bind; [apply r_xcorr; eauto; constructor|]. intros ws ws' Hws.
    eapply r_bind; [eapply r_getz; eauto|]. intros xo xo' Hxo. cbv zeta.
    set (st := match s with Some s0 => s0 | None => conv_init c (skipn 1 ws) end).
    set (st' := match s' with Some s0 => s0 | None => conv_init c' (skipn 1 ws') end).
    assert (Hst : rel_obj RL st st').
    { unfold st, st'. destruct Hs; [auto|]. unfold conv_init. rewrite <- rc_k, <- rc_s, <- rc_p, <- rc_fill.
      repeat split.
      - simpl. apply r_repeat. eapply r_map; [eapply (r_skipn R 1); eauto|]. intros; now apply r_padding.
      - simpl. rewrite !repeat_length. reflexivity. }
    destruct Hst as (H1 & H2 & H3). rewrite H2, H3.
    destruct (Z.eqb (o_str st') (Z.of_nat (cs c) - 1)).
    + apply (r_bind R).
      * eapply r_bind; [eapply r_gather; eauto|]. intros g g' Hg. constructor. apply r_bias; auto. apply rc_sum; auto. now apply r_fsum.
      * intros a b Hab. apply (r_bindp (Forall2 RL) eq).
        -- destruct (1 <? ck c).
           ++ eapply r_bind; [apply r_setz; [eauto|]; eapply (r_skipn R 1); eauto|]. intros. constructor. split; auto.
           ++ constructor. split; auto.
        -- intros nb nb' ni ni' Hnb ->. constructor. split; [constructor; auto|]. constructor. repeat split. auto.
    + apply (r_bind R); [constructor; auto|].
      intros a b Hab. apply (r_bindp (Forall2 RL) eq).
      * destruct (1 <? ck c).
        -- eapply r_bind; [apply r_setz; [eauto|]; eapply (r_skipn R 1); eauto|]. intros. constructor. split; auto.
        -- constructor. split; auto.
      * intros nb nb' ni ni' Hnb ->. constructor. split; [constructor; auto|]. constructor. repeat split. auto.
Qed.

Lemma r_pool_forward c c' xs ys : rel_pool R c c' -> RL xs ys -> rel_res RL (pool_forward c xs) (pool_forward c' ys).
Proof.
  intros [] H. unfold pool_forward. rewrite <- rp_fd, <- rp_k, <- rp_p, <- rp_mode, <- rp_s.
  destruct (_ <? _); [constructor|]. pose proof H as H'. destruct H; [constructor|].
  eapply r_bind; [eapply r_pad_time; eauto|]. intros. apply r_xpool; auto. eapply r_map; eauto.
Qed.

Lemma r_pool_fstep c c' x y s s' : rel_pool R c c' -> R x y -> rel_opt (rel_obj R) s s' ->
  rel_res RO1 (pool_fstep c x s) (pool_fstep c' y s').
Proof.
  intros Hc Hx Hs. unfold pool_fstep. cbv zeta. destruct Hc. rewrite <- rp_k, <- rp_s, <- rp_d.
  set (st := match s with Some s0 => s0 | None => pool_init c (psp c x) end).
  set (st' := match s' with Some s0 => s0 | None => pool_init c' (psp c' y) end).
  assert (Hst : rel_obj R st st').
  { unfold st, st'. destruct Hs; [auto|]. unfold pool_init, pool_buflen. rewrite <- rp_k, <- rp_s, <- rp_p, <- rp_d, <- rp_fill.
    repeat split. simpl. apply r_repeat. apply r_padding; auto. }
  destruct Hst as (H1 & H2 & H3). rewrite H2, H3.
  eapply r_bind; [apply r_setz; eauto|]. intros l l' Hl.
  apply (r_bind (rel_opt R)).
  - destruct (Z.eqb _ _); [|repeat constructor]. apply (r_bind RL).
    + destruct (pd c =? 1); [constructor; auto|]. rewrite (r_len R l l' Hl). apply r_mapM. intros. eapply r_getz; eauto.
    + intros. repeat constructor. auto.
  - intros a b Hab. constructor. split; [auto|]. constructor. repeat split. auto.
Qed.

(* ------------------------------------------------------------------ *)
(** ** Recurrent modules *)

Lemma r_layer f g h h' xs ys : rel_cell R f g -> RL h h' -> RL xs ys ->
  rel_pair RL RL (rnn_layer f h xs) (rnn_layer g h' ys).
Proof.
  intros Hc Hh H. revert h h' Hh. induction H as [|x y xs ys Hx H IH]; intros h h' Hh; simpl; [split; simpl; auto|].
  pose proof (Hc h h' x y Hh Hx) as HC. destruct (f h x) as [h1 o1], (g h' y) as [h1' o1']. destruct HC as [C1 C2]. simpl in *.
  pose proof (IH h1 h1' C1) as HI. destruct (rnn_layer f h1 xs), (rnn_layer g h1' ys). destruct HI as [I1 I2]. simpl in *.
  split; simpl; auto.
Qed.

Lemma r_layers cs cs' hs hs' xs ys : Forall2 (rel_cell R) cs cs' -> Forall2 RL hs hs' -> RL xs ys ->
  rel_pair RL (Forall2 RL) (rnn_layers cs hs xs) (rnn_layers cs' hs' ys).
Proof.
  intros Hc. revert hs hs' xs ys. induction Hc as [|f g cs cs' Hf Hc IH]; intros hs hs' xs ys Hh Hx; simpl; [split; simpl; auto|].
  destruct Hh as [|h h' hs hs' H1 H2]; [split; simpl; auto|].
  pose proof (r_layer f g h h' xs ys Hf H1 Hx) as HL. destruct (rnn_layer f h xs) as [u k], (rnn_layer g h' ys) as [u' k']. destruct HL as [L1 L2]. simpl in *.
  pose proof (IH hs hs' u u' H2 L1) as HI. destruct (rnn_layers cs hs u), (rnn_layers cs' hs' u'). destruct HI as [I1 I2]. simpl in *.
  split; simpl; auto.
Qed.

Lemma r_torch c c' xs ys h h' : rel_rnn R c c' -> RL xs ys -> rel_opt (Forall2 RL) h h' ->
  rel_res (rel_pair RL (Forall2 RL)) (torch_rnn c xs h) (torch_rnn c' ys h').
Proof.
  intros [] Hx Hh. unfold torch_rnn, hid in *. cbv zeta.
  pose proof Hx as Hx'. pose proof (r_len _ _ _ rr_cells) as Lc. destruct Hx; [constructor|].
  destruct Hh as [k k' Hk|]; rewrite Lc.
  - rewrite (r_len _ _ _ Hk). destruct (_ =? _); constructor. now apply r_layers.
  - rewrite !repeat_length. destruct (_ =? _); constructor. apply r_layers; auto. now apply r_repeat.
Qed.

Lemma r_rnn_fstep c c' x y h h' : rel_rnn R c c' -> R x y -> rel_opt (Forall2 RL) h h' ->
  rel_res (rel_pair (rel_opt R) (rel_opt (Forall2 RL))) (rnn_fstep c x h) (rnn_fstep c' y h').
Proof.
  intros Hc Hx Hh. unfold rnn_fstep. eapply r_bindp; [apply r_torch; eauto|]. intros l l' k k' Hl Hk.
  eapply r_bind; [eapply r_getz; eauto|]. intros. constructor. split; constructor; auto.
Qed.

(* ------------------------------------------------------------------ *)
(** ** Values *)

Lemma rv_ind' (P : val F -> val G -> Prop) : P VNone VNone -> (forall x y, R x y -> P (VT x) (VT y)) ->
  (forall xs ys, RL xs ys -> P (VS xs) (VS ys)) -> (forall l l', Forall2 RV l l' -> Forall2 P l l' -> P (VL l) (VL l')) ->
  forall v w, RV v w -> P v w.
Proof.
  intros H1 H2 H3 H4. fix IH 3. intros v w H. destruct H as [|x y Hx|xs ys Hx|l l' Hl]; [apply H1|now apply H2|now apply H3|].
  apply H4; [exact Hl|]. revert l l' Hl. fix IHl 3. intros l l' Hl. destruct Hl; constructor; [now apply IH|now apply IHl].
Qed.

Lemma rv_opt o o' : rel_opt R o o' -> RV (of_opt o) (of_opt o').
Proof. intros []; constructor; auto. Qed.
Lemma rv_clip o o' : rel_opt RL o o' -> RV (of_clip o) (of_clip o').
Proof. intros []; constructor; auto. Qed.
Lemma rv_tensor v w : RV v w -> is_tensor v = is_tensor w.
Proof. intros []; auto. Qed.
Lemma rv_isnone v w : RV v w -> is_none v = is_none w.
Proof. intros []; auto. Qed.
Lemma rv_stops v w : RV v w -> stops v = stops w.
Proof. intros []; auto. destruct H; auto. Qed.
Lemma rv_tensors l l' : Forall2 RV l l' -> forallb is_tensor l = forallb is_tensor l'.
Proof. induction 1 as [|v w l l' H1 H2 IH]; simpl; auto. now rewrite (rv_tensor v w H1), IH. Qed.
Lemma rv_any l l' : Forall2 RV l l' -> any_none l = any_none l'.
Proof. induction 1 as [|v w l l' H1 H2 IH]; simpl; auto. destruct H1; auto. Qed.

Lemma r_zip op op' bc xs xs' ys ys' : (forall a a' b b', R a a' -> R b b' -> R (op a b) (op' a' b')) ->
  RL xs xs' -> RL ys ys' -> rel_res RL (zip_bcast op bc xs ys) (zip_bcast op' bc xs' ys').
Proof.
  intros Ho Hx Hy. unfold zip_bcast. rewrite (r_len R _ _ Hx), (r_len R _ _ Hy).
  destruct (_ =? _).
  - constructor. clear bc. revert ys ys' Hy. induction Hx as [|x x' xs xs' H1 H2 IH]; intros ys ys' Hy; simpl; [constructor|].
    destruct Hy; simpl; constructor; auto.
  - destruct bc; [|constructor].
    destruct Hx as [|x x' xs xs' H1 H2].
    + destruct Hy as [|y y' ys ys' H3 H4]; [constructor|]. destruct H4; repeat constructor.
    + destruct H2 as [|x2 x2' xs xs' H2 H5].
      * constructor. eapply r_map; eauto.
      * destruct Hy as [|y y' ys ys' H3 H4]; [constructor|]. destruct H4; [|constructor].
        constructor. apply (r_map R R (fun x => op x y) (fun x => op' x y') (x :: x2 :: xs) (x' :: x2' :: xs')); auto.
Qed.

Lemma r_op_val r r' a a' b b' : rel_red R r r' -> RV a a' -> RV b b' -> rel_res RV (op_val r a b) (op_val r' a' b').
Proof.
  intros [] Ha Hb. destruct Ha; destruct Hb; simpl; try constructor.
  - constructor. auto.
  - rewrite <- rd_bc. eapply r_bind; [eapply r_zip; eauto|]. intros. repeat constructor. auto.
Qed.

Lemma r_fold r r' : rel_red R r r' -> forall l l' a a', Forall2 RV l l' -> RV a a' -> rel_res RV (fold_op r a l) (fold_op r' a' l').
Proof.
  intros Hr l l' a a' H. revert a a'. induction H as [|v w l l' H1 H2 IH]; intros a a' Ha; simpl; [constructor; auto|].
  eapply r_bind; [eapply r_op_val; eauto|]. auto.
Qed.

Lemma r_reduce r r' l l' : rel_red R r r' -> Forall2 RV l l' -> rel_res RV (reduce_vals r l) (reduce_vals r' l').
Proof.
  intros Hr H. unfold reduce_vals. rewrite (rv_any l l' H). destruct (any_none l') as [[|]|]; simpl; try (repeat constructor; fail).
  pose proof Hr as Hr'. destruct Hr. rewrite rd_m2. pose proof (r_len _ _ _ H) as L. destruct H as [|v w l l' H1 H2].
  - destruct (r_min2 r'); constructor.
  - simpl in L. injection L as L. simpl length. rewrite L. destruct (_ && _); [constructor|]. now apply r_fold.
Qed.

Fixpoint dmap_ind' (P : dmap -> Prop) (Hi : forall i, P (DI i)) (Hl : forall l, Forall P l -> P (DL l)) (m : dmap) : P m :=
  match m with
  | DI i => Hi i
  | DL l => Hl l ((fix go l := match l return Forall P l with [] => Forall_nil P | a :: t => Forall_cons a (dmap_ind' P Hi Hl a) (go t) end) l)
  end.

Lemma r_dispatch m l l' : Forall2 RV l l' -> rel_res RV (dispatch m l) (dispatch m l').
Proof.
  intros H. induction m as [i|ms IH] using dmap_ind'; simpl.
  - unfold py_index. rewrite (r_len _ _ _ H). eapply r_getz; eauto.
  - apply (r_bind (Forall2 RV)); [|intros; repeat constructor; auto].
    induction IH as [|m t Hm HF IHt]; [repeat constructor|].
    eapply r_bind; [exact Hm|]. intros a b Hab. eapply r_bind; [exact IHt|]. intros. constructor. auto.
Qed.
Lemma r_dispatch_val m v w : RV v w -> rel_res RV (dispatch_val m v) (dispatch_val m w).
Proof. intros []; simpl; try constructor. now apply r_dispatch. Qed.
Lemma r_broadcast n v w : RV v w -> rel_res RV (broadcast_val n v) (broadcast_val n w).
Proof. intros H. destruct n; simpl; constructor. constructor. now apply r_repeat. Qed.
Lemma r_reduce_fwd r r' v w : rel_red R r r' -> RV v w -> rel_res RV (reduce_fwd r v) (reduce_fwd r' w).
Proof. intros Hr []; simpl; try constructor. now apply r_reduce. Qed.
Lemma r_reduce_step r r' v w : rel_red R r r' -> RV v w -> rel_res RV (reduce_step r v) (reduce_step r' w).
Proof.
  intros Hr []; simpl; try constructor. rewrite (rv_tensors _ _ H). destruct (forallb _ _); [now apply r_reduce|repeat constructor].
Qed.

(* ------------------------------------------------------------------ *)
(** ** Loops *)

Section LoopRel.
Variable call : md F -> val F -> res (val F * md F).
Variable call' : md G -> val G -> res (val G * md G).
Definition okc m := forall m' v v', RM m m' -> RV v v' -> rel_res (rel_pair RV RM) (call m v) (call' m' v').

Lemma r_seq_step ms : Forall okc ms -> forall ms' v v', Forall2 RM ms ms' -> RV v v' ->
  rel_res (rel_pair RV (Forall2 RM)) (seq_step call ms v) (seq_step call' ms' v').
Proof.
  induction 1 as [|m t Hm HF IH]; intros ms' v v' H Hv; inversion H; subst; simpl; [constructor; split; auto|].
  eapply r_bindp; [apply Hm; eauto|]. intros w w' m1 m1' Hw Hm1. rewrite (rv_isnone w w' Hw).
  destruct (is_none w'); [constructor; split; simpl; auto; constructor|].
  eapply r_bindp; [apply IH; eauto|]. intros. constructor. split; simpl; auto.
Qed.
Lemma r_seq_steps ms : Forall okc ms -> forall ms' v v', Forall2 RM ms ms' -> RV v v' ->
  rel_res (rel_pair RV (Forall2 RM)) (seq_steps call ms v) (seq_steps call' ms' v').
Proof.
  induction 1 as [|m t Hm HF IH]; intros ms' v v' H Hv; inversion H; subst; simpl; [constructor; split; auto|].
  rewrite (rv_stops v v' Hv). destruct (stops v'); [constructor; split; simpl; auto; constructor|].
  eapply r_bindp; [apply Hm; eauto|]. intros. eapply r_bindp; [apply IH; eauto|]. intros. constructor. split; simpl; auto.
Qed.
Lemma r_par_run ms : Forall okc ms -> forall ms' l l', Forall2 RM ms ms' -> Forall2 RV l l' ->
  rel_res (rel_pair (Forall2 RV) (Forall2 RM)) (par_run call ms l) (par_run call' ms' l').
Proof.
  induction 1 as [|m t Hm HF IH]; intros ms' l l' H Hv; inversion H; subst; simpl; [constructor; split; simpl; auto|].
  destruct Hv; [constructor|].
  eapply r_bindp; [apply Hm; eauto|]. intros. eapply r_bindp; [apply IH; eauto|]. intros. constructor. split; simpl; auto.
Qed.
Lemma r_br_run ms : Forall okc ms -> forall ms' v v', Forall2 RM ms ms' -> RV v v' ->
  rel_res (rel_pair (Forall2 RV) (Forall2 RM)) (br_run call ms v) (br_run call' ms' v').
Proof.
  induction 1 as [|m t Hm HF IH]; intros ms' v v' H Hv; inversion H; subst; simpl; [constructor; split; simpl; auto|].
  eapply r_bindp; [apply Hm; eauto|]. intros. eapply r_bindp; [apply IH; eauto|]. intros. constructor. split; simpl; auto.
Qed.
End LoopRel.

Section FLoopRel.
Variable call : md F -> val F -> res (val F).
Variable call' : md G -> val G -> res (val G).
Definition okf m := forall m' v v', RM m m' -> RV v v' -> rel_res RV (call m v) (call' m' v').

Lemma r_seq_fwd ms : Forall okf ms -> forall ms' v v', Forall2 RM ms ms' -> RV v v' ->
  rel_res RV (seq_fwd call ms v) (seq_fwd call' ms' v').
Proof.
  induction 1 as [|m t Hm HF IH]; intros ms' v v' H Hv; inversion H; subst; simpl; [constructor; auto|].
  eapply r_bind; [apply Hm; eauto|]. intros. now apply IH.
Qed.
Lemma r_par_fwd ms : Forall okf ms -> forall ms' l l', Forall2 RM ms ms' -> Forall2 RV l l' ->
  rel_res (Forall2 RV) (par_fwd call ms l) (par_fwd call' ms' l').
Proof.
  induction 1 as [|m t Hm HF IH]; intros ms' l l' H Hv; inversion H; subst; simpl; [constructor; auto|].
  destruct Hv; [constructor|].
  eapply r_bind; [apply Hm; eauto|]. intros. eapply r_bind; [apply IH; eauto|]. intros. constructor. auto.
Qed.
Lemma r_br_fwd ms : Forall okf ms -> forall ms' v v', Forall2 RM ms ms' -> RV v v' ->
  rel_res (Forall2 RV) (br_fwd call ms v) (br_fwd call' ms' v').
Proof.
  induction 1 as [|m t Hm HF IH]; intros ms' v v' H Hv; inversion H; subst; simpl; [constructor; auto|].
  eapply r_bind; [apply Hm; eauto|]. intros. eapply r_bind; [apply IH; eauto|]. intros. constructor. auto.
Qed.
End FLoopRel.

Notation RS := (rel_sst R).
Notation ROS := (rel_opt (rel_sst R)).

Section SLoopRel.
Variable call : md F -> val F -> option (sst F) -> res (val F * option (sst F)).
Variable call' : md G -> val G -> option (sst G) -> res (val G * option (sst G)).
Definition oks m := forall m' v v' s s', RM m m' -> RV v v' -> ROS s s' -> rel_res (rel_pair RV ROS) (call m v s) (call' m' v' s').

Lemma r_nth_state l l' : Forall2 ROS l l' -> rel_res (rel_pair ROS (Forall2 ROS)) (nth_state l) (nth_state l').
Proof. intros []; simpl; constructor. split; auto. Qed.

Lemma r_seq_fstep ms : Forall oks ms -> forall ms' v v' l l', Forall2 RM ms ms' -> RV v v' -> Forall2 ROS l l' ->
  rel_res (rel_pair RV (Forall2 ROS)) (seq_fstep call ms v l) (seq_fstep call' ms' v' l').
Proof.
  induction 1 as [|m t Hm HF IH]; intros ms' v v' l l' H Hv Hl; inversion H; subst; simpl; [constructor; split; auto|].
  eapply r_bindp; [apply r_nth_state; eauto|]. intros p p' pt pt' Hp Hpt.
  eapply r_bindp; [apply Hm; eauto|]. intros w w' m1 m1' Hw Hm1. rewrite (rv_isnone w w' Hw).
  destruct (is_none w'); [constructor; split; simpl; auto; constructor|].
  eapply r_bindp; [apply IH; eauto|]. intros. constructor. split; simpl; auto.
Qed.
Lemma r_par_fstep ms : Forall oks ms -> forall ms' k k' l l', Forall2 RM ms ms' -> Forall2 RV k k' -> Forall2 ROS l l' ->
  rel_res (rel_pair (Forall2 RV) (Forall2 ROS)) (par_fstep call ms k l) (par_fstep call' ms' k' l').
Proof.
  induction 1 as [|m t Hm HF IH]; intros ms' k k' l l' H Hv Hl; inversion H; subst; simpl; [constructor; split; simpl; auto|].
  destruct Hv; [constructor|]. eapply r_bindp; [apply r_nth_state; eauto|]. intros p p' pt pt' Hp Hpt.
  eapply r_bindp; [apply Hm; eauto|]. intros. eapply r_bindp; [apply IH; eauto|]. intros. constructor. split; simpl; auto.
Qed.
Lemma r_br_fstep ms : Forall oks ms -> forall ms' v v' l l', Forall2 RM ms ms' -> RV v v' -> Forall2 ROS l l' ->
  rel_res (rel_pair (Forall2 RV) (Forall2 ROS)) (br_fstep call ms v l) (br_fstep call' ms' v' l').
Proof.
  induction 1 as [|m t Hm HF IH]; intros ms' v v' l l' H Hv Hl; inversion H; subst; simpl; [constructor; split; simpl; auto|].
  eapply r_bindp; [apply r_nth_state; eauto|]. intros p p' pt pt' Hp Hpt.
  eapply r_bindp; [apply Hm; eauto|]. intros. eapply r_bindp; [apply IH; eauto|]. intros. constructor. split; simpl; auto.
Qed.
End SLoopRel.

(* ------------------------------------------------------------------ *)
(** ** Networks *)

Ltac leaf := match goal with
  | |- rel_res _ (bind _ _) (bind _ _) => eapply r_bindp
  | H : rel_val _ _ _ |- _ => destruct H; try constructor
  end.

Theorem r_step m : forall m' v v' upd, RM m m' -> RV v v' ->
  rel_res (rel_pair RV RM) (step m v upd) (step m' v' upd).
Proof.
  induction m using md_ind'; intros m' v v' upd HM Hv; inversion HM; subst; cbn [step].
  - destruct Hv; try constructor. apply (r_bindp (rel_opt R) (rel_obj R)).
    + unfold delay_forward_step. destruct (d =? 0); [constructor; split; [constructor; eauto|eauto]|].
      eapply (r_co_step (rel_obj R) (rel_obj R)); eauto; intros; [now apply r_obj_get|now apply r_delay_fstep].
    + intros a b o1 o1' Ha Ho1. constructor. split; [now apply rv_opt|constructor; auto].
  - destruct Hv; try constructor. apply (r_bindp (rel_opt R) eq).
    + unfold skip_forward_step. eapply (r_co_step eq eq); eauto; intros; subst; [apply rel_some; reflexivity|].
      match goal with H : rel_opt eq ?s ?s' |- _ => assert (s = s') as -> by (destruct H; congruence) end. now apply r_skip_fstep.
    + intros a b o1 o1' Ha <-. constructor. split; [now apply rv_opt|constructor].
  - destruct Hv; try constructor. apply (r_bindp (rel_opt R) (rel_obj RL)).
    + unfold conv_forward_step. eapply (r_co_step (rel_obj RL) (rel_obj RL)); eauto; intros; [now apply r_obj_get|now apply r_conv_fstep].
    + intros a b o1 o1' Ha Ho1. constructor. split; [now apply rv_opt|constructor; auto].
  - destruct Hv; try constructor. apply (r_bindp (rel_opt R) (rel_obj R)).
    + unfold pool_forward_step. eapply (r_co_step (rel_obj R) (rel_obj R)); eauto; intros; [now apply r_obj_get|now apply r_pool_fstep].
    + intros a b o1 o1' Ha Ho1. constructor. split; [now apply rv_opt|constructor; auto].
  - destruct Hv; try constructor. split; constructor; auto.
  - destruct Hv; try constructor. apply (r_bindp (rel_opt R) (rel_opt (Forall2 RL))).
    + unfold rnn_forward_step. eapply r_bindp; [apply r_rnn_fstep; eauto|]. intros a b k k' Ha Hk. constructor.
      split; [exact Ha|]. simpl. destruct upd; eauto.
    + intros a b k k' Ha Hk. constructor. split; [now apply rv_opt|constructor; auto].
  - eapply r_bindp; [apply r_seq_step; eauto; eapply Forall_impl; [|exact H]; intros a Ha; red; intros; now apply Ha|].
    intros. constructor. split; auto. constructor; auto.
  - eapply r_bind; [now apply r_broadcast|]. intros. constructor. split; auto. 
  - destruct Hv; try constructor.
    eapply r_bindp; [apply r_par_run; eauto; eapply Forall_impl; [|exact H]; intros a Ha; red; intros; now apply Ha|].
    intros. constructor. split; constructor; auto.
  - eapply r_bind; [now apply r_dispatch_val|]. intros. constructor. split; auto.
  - eapply r_bind; [eapply r_reduce_step; eauto|]. intros. constructor. split; auto.
  - eapply r_bindp; [apply r_br_run; eauto; eapply Forall_impl; [|exact H]; intros a Ha; red; intros; now apply Ha|].
    intros a b k k' Ha Hk. rewrite (rv_tensors a b Ha). apply (r_bind RV).
    + destruct (forallb _ _); [now apply r_reduce|repeat constructor].
    + intros. constructor. split; auto. constructor; auto.
  - match goal with X : forall v v', rel_val R v v' -> p v = _ |- _ => rename X into Hp end. rewrite (Hp v v' Hv).
    match goal with X : rel_opt _ b _ |- _ => rename X into Hb end. destruct (p' v').
    + eapply r_bindp; [apply IHm; eauto|]. intros. constructor. split; auto. constructor; auto.
    + inversion Hb; subst.
      * eapply r_bindp; [eapply H; eauto|]. intros. constructor. split; auto. repeat constructor; auto.
      * constructor. split; auto.
Qed.

Theorem r_steps m : forall m' v v' pe upd, RM m m' -> RV v v' ->
  rel_res (rel_pair RV RM) (steps m v pe upd) (steps m' v' pe upd).
Proof.
  induction m using md_ind'; intros m' v v' pe upd HM Hv; inversion HM; subst; cbn [steps].
  - destruct Hv; try constructor. apply (r_bindp (rel_opt RL) (rel_obj R)).
    + unfold delay_forward_steps. destruct (d =? 0); [constructor; split; [constructor; eauto|eauto]|].
      eapply (r_co_steps (rel_obj R) (rel_obj R)); eauto; intros; [now apply r_obj_get|now apply r_delay_fstep|now apply r_padding].
    + intros a b o1 o1' Ha Ho1. constructor. split; [now apply rv_clip|constructor; auto].
  - destruct Hv; try constructor. apply (r_bindp (rel_opt RL) eq).
    + unfold skip_forward_steps. eapply (r_co_steps eq eq); eauto; intros; subst; [apply rel_some; reflexivity| |apply RF].
      match goal with H : rel_opt eq ?s ?s' |- _ => assert (s = s') as -> by (destruct H; congruence) end. now apply r_skip_fstep.
    + intros a b o1 o1' Ha <-. constructor. split; [now apply rv_clip|constructor].
  - destruct Hv; try constructor. apply (r_bindp (rel_opt RL) (rel_obj RL)).
    + match goal with X : rel_conv _ _ _ |- _ => pose proof X as HC; destruct X end. unfold conv_forward_steps. rewrite <- rc_p, <- rc_fill.
      eapply (r_co_steps (rel_obj RL) (rel_obj RL)); eauto; intros; [now apply r_obj_get|now apply r_conv_fstep|now apply r_padding].
    + intros a b o1 o1' Ha Ho1. constructor. split; [now apply rv_clip|constructor; auto].
  - destruct Hv; try constructor. apply (r_bindp (rel_opt RL) (rel_obj R)).
    + match goal with X : rel_pool _ _ _ |- _ => pose proof X as HC; destruct X end. unfold pool_forward_steps. rewrite <- rp_p, <- rp_fill.
      eapply (r_co_steps (rel_obj R) (rel_obj R)); eauto; intros; [now apply r_obj_get|now apply r_pool_fstep|now apply r_padding].
    + intros a b o1 o1' Ha Ho1. constructor. split; [now apply rv_clip|constructor; auto].
  - destruct Hv; try constructor. split; constructor; auto. eapply r_map; eauto.
  - destruct Hv; try constructor. apply (r_bindp (rel_opt RL) (rel_opt (Forall2 RL))).
    + unfold rnn_forward_steps. eapply r_bindp; [apply r_torch; eauto|]. intros a b k k' Ha Hk. constructor.
      split; [constructor; exact Ha|]. simpl. destruct upd; eauto. constructor; auto.
    + intros a b k k' Ha Hk. constructor. split; [now apply rv_clip|constructor; auto].
  - eapply r_bindp; [apply r_seq_steps; eauto; eapply Forall_impl; [|exact H]; intros a Ha; red; intros; now apply Ha|].
    intros. constructor. split; auto. constructor; auto.
  - eapply r_bind; [now apply r_broadcast|]. intros. constructor. split; auto. 
  - destruct Hv; try constructor.
    eapply r_bindp; [apply r_par_run; eauto; eapply Forall_impl; [|exact H]; intros a Ha; red; intros; now apply Ha|].
    intros. constructor. split; constructor; auto.
  - eapply r_bind; [now apply r_dispatch_val|]. intros. constructor. split; auto.
  - eapply r_bind; [eapply r_reduce_fwd; eauto|]. intros. constructor. split; auto.
  - eapply r_bindp; [apply r_br_run; eauto; eapply Forall_impl; [|exact H]; intros a Ha; red; intros; now apply Ha|].
    intros a b k k' Ha Hk. eapply r_bind; [eapply r_reduce; eauto|].
    intros. constructor. split; auto. constructor; auto.
  - match goal with X : forall v v', rel_val R v v' -> p v = _ |- _ => rename X into Hp end. rewrite (Hp v v' Hv).
    match goal with X : rel_opt _ b _ |- _ => rename X into Hb end. destruct (p' v').
    + eapply r_bindp; [apply IHm; eauto|]. intros. constructor. split; auto. constructor; auto.
    + inversion Hb; subst.
      * eapply r_bindp; [eapply H; eauto|]. intros. constructor. split; auto. repeat constructor; auto.
      * constructor. split; auto.
Qed.

Theorem r_fwd m : forall m' v v', RM m m' -> RV v v' -> rel_res RV (fwd m v) (fwd m' v').
Proof.
  induction m using md_ind'; intros m' v v' HM Hv; inversion HM; subst; cbn [fwd].
  - destruct Hv; repeat constructor. unfold delay_forward. destruct sh, (d =? 0); auto; now apply r_slice.
  - destruct Hv; repeat constructor. now apply r_skipn.
  - destruct Hv; try constructor. eapply r_bind; [eapply r_conv_forward; eauto|]. intros. repeat constructor. auto.
  - destruct Hv; try constructor. eapply r_bind; [eapply r_pool_forward; eauto|]. intros. repeat constructor. auto.
  - destruct Hv; repeat constructor. eapply r_map; eauto.
  - destruct Hv; try constructor. apply (r_bind RL); [|intros; repeat constructor; auto].
    unfold rnn_forward. eapply r_bindp; [eapply r_torch; eauto; constructor|]. intros. constructor. auto.
  - apply r_seq_fwd; auto.
  - now apply r_broadcast.
  - destruct Hv; try constructor. eapply r_bind; [apply r_par_fwd; eauto|]. intros. repeat constructor. auto.
  - now apply r_dispatch_val.
  - now apply r_reduce_fwd.
  - eapply r_bind; [apply r_br_fwd; eauto|]. intros. now apply r_reduce.
  - match goal with X : forall v v', rel_val R v v' -> p v = _ |- _ => rename X into Hp end. rewrite (Hp v v' Hv).
    match goal with X : rel_opt _ b _ |- _ => rename X into Hb end. destruct (p' v'); [now apply IHm|].
    inversion Hb; subst; [eapply H; eauto|constructor; auto].
Qed.

Lemma r_prev_list s s' n : ROS s s' -> rel_res (Forall2 ROS) (prev_list s n) (prev_list s' n).
Proof.
  assert (Hn : Forall2 ROS (repeat None n) (repeat None n)) by (apply r_repeat; constructor).
  intros [a b H|]; simpl; [|constructor; auto]. destruct H; try constructor. destruct H; constructor; auto.
Qed.

Lemma r_omap {A B} (RB : A -> B -> Prop) f g s s' : rel_opt RB s s' -> (forall a b, RB a b -> RS (f a) (g b)) ->
  ROS (option_map f s) (option_map g s').
Proof. intros Hs H; destruct Hs; simpl; constructor; auto. Qed.

Theorem r_fstep m : forall m' v v' s s', RM m m' -> RV v v' -> ROS s s' ->
  rel_res (rel_pair RV ROS) (fstep m v s) (fstep m' v' s').
Proof.
  induction m using md_ind'; intros m' v v' s s' HM Hv Hs; inversion HM; subst; cbn [fstep].
  - destruct Hv; try constructor. destruct Hs as [? ? Hs|].
    + destruct Hs; try constructor. eapply r_bindp; [apply r_delay_fstep; eauto; constructor; eauto|].
      intros a b t t' Ha Ht. constructor. split; [now apply rv_opt|]. eapply r_omap; [exact Ht|]; intros; subst; constructor; auto.
    + eapply r_bindp; [apply r_delay_fstep; eauto; constructor; eauto|].
      intros a b t t' Ha Ht. constructor. split; [now apply rv_opt|]. eapply r_omap; [exact Ht|]; intros; subst; constructor; auto.
  - destruct Hv; try constructor. destruct Hs as [? ? Hs|].
    + destruct Hs; try constructor. eapply r_bindp; [apply r_skip_fstep; eauto|].
      intros a b t t' Ha Ht. constructor. split; [now apply rv_opt|]. eapply r_omap; [exact Ht|]; intros; subst; constructor; auto.
    + eapply r_bindp; [apply r_skip_fstep; eauto|].
      intros a b t t' Ha Ht. constructor. split; [now apply rv_opt|]. eapply r_omap; [exact Ht|]; intros; subst; constructor; auto.
  - destruct Hv; try constructor. destruct Hs as [? ? Hs|].
    + destruct Hs; try constructor. eapply r_bindp; [apply r_conv_fstep; eauto; constructor; eauto|].
      intros a b t t' Ha Ht. constructor. split; [now apply rv_opt|]. eapply r_omap; [exact Ht|]; intros; subst; constructor; auto.
    + eapply r_bindp; [apply r_conv_fstep; eauto; constructor; eauto|].
      intros a b t t' Ha Ht. constructor. split; [now apply rv_opt|]. eapply r_omap; [exact Ht|]; intros; subst; constructor; auto.
  - destruct Hv; try constructor. destruct Hs as [? ? Hs|].
    + destruct Hs; try constructor. eapply r_bindp; [apply r_pool_fstep; eauto; constructor; eauto|].
      intros a b t t' Ha Ht. constructor. split; [now apply rv_opt|]. eapply r_omap; [exact Ht|]; intros; subst; constructor; auto.
    + eapply r_bindp; [apply r_pool_fstep; eauto; constructor; eauto|].
      intros a b t t' Ha Ht. constructor. split; [now apply rv_opt|]. eapply r_omap; [exact Ht|]; intros; subst; constructor; auto.
  - destruct Hv; try constructor. split; auto. constructor. auto.
  - destruct Hv; try constructor. destruct Hs as [? ? Hs|].
    + destruct Hs; try constructor. eapply r_bindp; [apply r_rnn_fstep; eauto; constructor; eauto|].
      intros a b t t' Ha Ht. constructor. split; [now apply rv_opt|]. eapply r_omap; [exact Ht|]; intros; subst; constructor; auto.
    + eapply r_bindp; [apply r_rnn_fstep; eauto; constructor; eauto|].
      intros a b t t' Ha Ht. constructor. split; [now apply rv_opt|]. eapply r_omap; [exact Ht|]; intros; subst; constructor; auto.
  - match goal with X : Forall2 RM ms _ |- _ => rewrite (r_len _ _ _ X) end.
    eapply r_bind; [apply r_prev_list; eauto|]. intros l l' Hl. eapply r_bindp; [apply r_seq_fstep; eauto|].
    intros. constructor. split; auto. repeat constructor. auto.
  - eapply r_bind; [now apply r_broadcast|]. intros. constructor. split; auto.
  - destruct Hv; try constructor. match goal with X : Forall2 RM ms _ |- _ => rewrite (r_len _ _ _ X) end.
    eapply r_bind; [apply r_prev_list; eauto|]. intros k k' Hk. eapply r_bindp; [apply r_par_fstep; eauto|].
    intros. constructor. split; repeat constructor; auto.
  - eapply r_bind; [now apply r_dispatch_val|]. intros. constructor. split; auto.
  - eapply r_bind; [eapply r_reduce_step; eauto|]. intros. constructor. split; auto.
  - match goal with X : Forall2 RM ms _ |- _ => rewrite (r_len _ _ _ X) end.
    eapply r_bind; [apply r_prev_list; eauto|]. intros l l' Hl. eapply r_bindp; [apply r_br_fstep; eauto|].
    intros a b k k' Ha Hk. rewrite (rv_tensors a b Ha). apply (r_bind RV).
    + destruct (forallb _ _); [now apply r_reduce|repeat constructor].
    + intros. constructor. split; auto. repeat constructor; auto.
  - match goal with X : forall v v', rel_val R v v' -> p v = _ |- _ => rename X into Hp end. rewrite (Hp v v' Hv).
    match goal with X : rel_opt _ b _ |- _ => rename X into Hb end. cbv zeta.
    assert (Hpick : forall i, rel_res ROS
      match s with None => Ok None | Some (SN []) => Ok None
        | Some (SN l) => match nth_error l i with Some s => Ok s | None => Err IndexError end | Some _ => Err ValueError end
      match s' with None => Ok None | Some (SN []) => Ok None
        | Some (SN l) => match nth_error l i with Some s => Ok s | None => Err IndexError end | Some _ => Err ValueError end).
    { intros i. destruct Hs as [? ? Hs|]; [|repeat constructor]. destruct Hs as [| | | |l l' Hl]; try constructor.
      pose proof (r_nth_error _ i l l' Hl) as Hi. destruct Hl; [repeat constructor|]. destruct Hi; constructor; auto. }
    destruct (p' v'); [eapply r_bind; [apply Hpick|]; intros; now apply IHm|].
    inversion Hb; subst; [eapply r_bind; [apply Hpick|]; intros; eapply H; eauto|].
    constructor. split; [auto|]. simpl.
    assert (Hnn : ROS (Some (SN [None; None])) (Some (SN [None; None]))) by repeat constructor.
    destruct Hs as [t t' Hs|]; [|auto]. pose proof Hs as Hs'. destruct Hs as [| | | |l l' Hl]; try (constructor; exact Hs').
    destruct Hl; [auto|]. constructor. exact Hs'.
Qed.

Theorem r_clean m : forall m', RM m m' -> RM (clean m) (clean m').
Proof.
  induction m using md_ind'; intros m' HM; inversion HM; subst; cbn [clean];
    try (constructor; auto; try apply r_obj_init; try constructor; fail).
  - constructor. match goal with X : Forall2 RM ms _ |- _ => revert X end. clear HM. revert ms'.
    induction H as [|m t Hm HF IH]; intros ms' X; inversion X; subst; simpl; constructor; auto.
  - constructor. match goal with X : Forall2 RM ms _ |- _ => revert X end. clear HM. revert ms'.
    induction H as [|m t Hm HF IH]; intros ms' X; inversion X; subst; simpl; constructor; auto.
  - constructor; auto. match goal with X : Forall2 RM ms _ |- _ => revert X end. clear HM. revert ms'.
    induction H as [|m t Hm HF IH]; intros ms' X; inversion X; subst; simpl; constructor; auto.
Qed.

Theorem r_call m m' c c' : RM m m' -> rel_call R c c' -> rel_res (rel_pair RV RM) (do_call m c) (do_call m' c').
Proof.
  intros HM []; cbn [do_call].
  - now apply r_step.
  - now apply r_steps.
  - eapply r_bind; [eapply r_fwd; eauto|]. intros. constructor. split; auto.
  - constructor. split; [constructor|now apply r_clean].
Qed.

Theorem r_calls cs cs' : Forall2 (rel_call R) cs cs' -> forall m m', RM m m' ->
  rel_res (rel_pair (Forall2 RV) RM) (run_calls m cs) (run_calls m' cs').
Proof.
  induction 1 as [|c c' cs cs' Hc H IH]; intros m m' HM; cbn [run_calls]; [constructor; split; simpl; auto|].
  eapply r_bindp; [eapply r_call; eauto|]. intros. eapply r_bindp; [apply IH; eauto|]. intros. constructor. split; simpl; auto.
Qed.

Theorem r_fsteps vs vs' : Forall2 RV vs vs' -> forall m m' s s', RM m m' -> ROS s s' ->
  rel_res (rel_pair (Forall2 RV) ROS) (run_fsteps m s vs) (run_fsteps m' s' vs').
Proof.
  induction 1 as [|c c' cs cs' Hc H IH]; intros m m' s s' HM Hs; cbn [run_fsteps]; [constructor; split; simpl; auto|].
  eapply r_bindp; [eapply r_fstep; eauto|]. intros. eapply r_bindp; [eapply IH; eauto|]. intros. constructor. split; simpl; auto.
Qed.

End RelProof.
