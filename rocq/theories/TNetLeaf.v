(** The leaves of networks of tensor modules (C65). *)
From Coq Require Import List ZArith Bool Arith Lia ZifyBool ZifyNat.
From Verif Require Import Base Attn Frames CoMod Leaf Spec LeafSpec LeafProof LeafMore NetRel RelProof NetOk Ring Tensor TensorProof
  TConv TConvSpec TConvProof TPool TPoolSpec TPoolProof TAttn TAttnProof TRnn TRnnSpec TRnnProof TPoint TPointSpec TPointProof TNet TNetSpec TNetProof.
Import ListNotations.

Section Leaf.
Context {K : Type} {SC : Scal K} {SL : ScalLaws K}.

Lemma map_firstn {A A'} (f : A -> A') n l : firstn n (map f l) = map f (firstn n l).
Proof. revert l. induction n as [|n IH]; intros [|x l]; cbn; [reflexivity..|]. rewrite IH. reflexivity. Qed.
Lemma setz_full {A} (l : list A) i x l' : setz l i x = Ok l' -> l' <> [].
Proof.
  unfold setz. destruct (Z.ltb i 0); [discriminate|]. destruct (Nat.ltb_spec (Z.to_nat i) (length l)) as [H|H]; [|discriminate].
  intros E. apply ok_inj in E. subst l'. destruct l as [|a l]; [cbn in H; lia|]. destruct (Z.to_nat i); discriminate.
Qed.
Lemma shapes_of B C sp (xs : list (tens K)) : Forall (fr B C sp) xs -> Forall (fun x => sh x = B :: C :: sp) xs.
Proof. intros H. eapply Forall_impl; [|exact H]. intros x [E _]. exact E. Qed.
Lemma sched_wrap {A A'} (f : A -> A') d s ys n :
  map (option_map f) (map (scheduled d s ys) (seq 0 n)) = map (scheduled d s (map f ys)) (seq 0 n).
Proof. rewrite map_map. apply map_ext. intros i. symmetry. apply sched_map. Qed.
Lemma clip_dat B C sp (xs : list (tens K)) : dat (clip B C sp xs) = stack2 B C sp (map dat xs).
Proof. reflexivity. Qed.

(** Frames cut from data. *)
Definition cut B C sp L (Y : list K) : list (tens K) := map (T (B :: C :: sp)) (map (slice2 B C L sp Y) (seq 0 L)).
Lemma cut_fr B C sp L Y : Forall (fr B C sp) (cut B C sp L Y).
Proof. unfold cut. apply Forall_map, Forall_map, Forall_forall. intros i _. split; [reflexivity|apply slice_len]. Qed.
Lemma cut_len B C sp L Y : length (cut B C sp L Y) = L.
Proof. unfold cut. rewrite !map_length, seq_length. reflexivity. Qed.
Lemma cut_clip B C sp L (Y : list K) : length Y = size (B :: C :: L :: sp) -> clip B C sp (cut B C sp L Y) = T (B :: C :: L :: sp) Y.
Proof.
  intros H. unfold clip. rewrite cut_len. f_equal. unfold cut. rewrite map_map. cbn [dat]. rewrite map_id. apply stack_slices. exact H.
Qed.

(** *** Convolution *)

Lemma t_full B sp (c : tconv K) : tconv_ok B sp c -> forall x s y s', t_fstep B sp c x s = Ok (y, s') -> full s -> full s' /\ (s' = None -> s = None).
Proof.
  intros OK x s y s' E Hs. unfold t_fstep in E. destruct (t_stateless c) eqn:Es.
  - destruct (t_forward B sp c 1 x); [|discriminate]. cbn [bind] in E. injection E as _ <-. auto.
  - destruct (t_one B sp c x) as [v|]; [|discriminate]. cbn [bind] in E. cbv zeta in E.
    match type of E with bind ?a _ = _ => destruct a as [out|]; [|discriminate] end. cbn [bind] in E.
    assert (Hk : Nat.ltb 1 (t_k c) = true).
    { destruct OK. apply Nat.ltb_lt. destruct (Nat.eq_dec (t_k c) 1) as [E1|E1]; [|lia]. exfalso.
      assert (t_p c = 0) as E0 by lia. unfold t_stateless in Es. rewrite E1, (tk_1 E1), E0 in Es. discriminate. }
    rewrite Hk in E. destruct (setz _ _ _) as [b'|] eqn:Eb in E; [|discriminate]. cbn [bind] in E. injection E as _ <-.
    split; [|discriminate]. cbn [full o_buf]. exact (setz_full _ _ _ _ Eb).
Qed.

Lemma conv_good B (c : tconv K) C sp t : kok B (KConv c obj_init) C sp -> kfits (KConv c obj_init) t -> 1 <= t ->
  good B (KConv c obj_init) C sp (t_cout c) (t_osp sp c) t.
Proof.
  intros (_ & -> & OK) Hf Ht. cbn [kfits] in Hf. pose proof OK as OK'. destruct OK'.
  assert (Hol : out_dim t (t_k c) (t_s c) (t_p c) 1 = klen (KConv c obj_init) t) by (cbn [klen]; unfold out_dim; repeat f_equal; lia).
  assert (Hdel : t_delay c = kdel (KConv c obj_init)) by (cbn [kdel]; unfold t_delay; lia).
  constructor.
  - exact tk_s.
  - cbn [klen]. apply Nat.le_add_l.
  - cbn [klen kdel kstr]. pose proof (Nat.mul_succ_div_gt (t + 2 * t_p c - t_k c) (t_s c) ltac:(lia)). nia.
  - intros xs Hl HF. set (X := stack2 B (t_cin c) sp (map dat xs)).
    assert (Hm : length (map dat xs) = t) by (rewrite map_length; exact Hl).
    destruct (forward_shape B sp c OK t X Ht Hf) as (Y & HY & LY).
    cbn [out_dims] in LY. rewrite Hol in LY. fold (t_osp sp c) in LY. set (L := klen (KConv c obj_init) t) in *.
    assert (Hck : Nat.eqb (t_cin c) (t_cin c) && dims_ok sp (t_ks c) = true)
      by (unfold dims_ok; rewrite tk_lks, !Nat.eqb_refl; reflexivity).
    assert (Hin : forall n, n <= t -> map (slice2 B (t_cin c) t sp X) (seq 0 n) = map dat (firstn n xs)).
    { intros n Hn. rewrite <- map_firstn. unfold X. rewrite <- Hm at 1. apply slices_stack; [apply fr_dats; exact HF|lia]. }
    exists (cut B (t_cout c) (t_osp sp c) L Y). split; [apply cut_fr|]. split; [apply cut_len|]. split; [|split].
    + cbn [kfwd clip sh dat]. rewrite Hck, Hl. fold X. rewrite HY. cbn [bind out_dims]. rewrite Hol, cut_clip by exact LY. reflexivity.
    + intros n Hn. destruct (tensor_step_thm B sp c OK t X Y n HY Hn) as (o & Ho). rewrite Hin in Ho by exact Hn. rewrite Hol, Hdel in Ho.
      exists (KConv c o). split.
      * rewrite (feed_lift (KConv c) (fun o x => t_forward_step B sp c o x true) (B :: t_cin c :: sp) (B :: t_cout c :: t_osp sp c)) with (ys := map (scheduled (kdel (KConv c obj_init)) (t_s c) (map (slice2 B (t_cout c) L (t_osp sp c) Y) (seq 0 L))) (seq 0 n)) (o' := o).
        -- rewrite sched_wrap. reflexivity.
        -- intros o1 x Hx. cbn [kstep]. rewrite Hx, Hck. destruct (t_forward_step B sp c o1 (dat x) true) as [[y1 o2]|]; reflexivity.
        -- apply shapes_of, firstn_fr, HF.
        -- exact Ho.
      * intros Hn1. cbn [ksteps]. unfold clip at 1. cbn [sh]. rewrite Hck, frames_clip by (apply firstn_fr, HF).
        unfold t_forward_steps. rewrite (steps_of_feed _ (t_full B sp c OK) _ _ _ _ _ _ Ho). cbn [bind].
        rewrite stack_outs_clip. unfold sched. cbn [kstr]. rewrite <- somes_map, sched_wrap. reflexivity.
    + destruct (tensor_pad_end_frames B sp c OK t X Y 0 HY ltac:(lia)) as (os & o1 & o2 & rest & H1 & H2 & H3).
      cbn [seq map feed] in H1. apply ok_inj in H1. injection H1 as <- <-. rewrite Nat.sub_0_r, Hin, firstn_all2 in H2 by lia.
      cbn [somes app] in H3. exists (KConv c o2). cbn [ksteps]. unfold clip at 1. cbn [sh]. rewrite Hck, frames_clip by exact HF.
      rewrite H2. cbn [bind]. rewrite stack_outs_clip, H3. unfold out_frames, t_olen. rewrite Hol. fold L.
      rewrite <- (clip_of_clip B (t_cout c) (t_osp sp c)); [reflexivity|apply cut_fr|].
      intros E. apply (f_equal (@length _)) in E. rewrite cut_len in E. subst L. cbn [klen] in E. rewrite Nat.add_1_r in E. discriminate E.
Qed.

(** *** Pooling *)

Lemma p_full (P : Pool K) B C sp c : forall x s y s', p_fstep B C sp c x s = Ok (y, s') -> full s -> full s' /\ (s' = None -> s = None).
Proof.
  intros x s y s' E Hs. unfold p_fstep, nd_fstep in E. destruct (p_space B C sp c x) as [v|]; [|discriminate]. cbn [bind] in E. cbv zeta in E.
  destruct (setz _ _ _) as [b'|] eqn:Eb in E; [|discriminate]. cbn [bind] in E. injection E as _ <-.
  split; [|discriminate]. cbn [full o_buf]. exact (setz_full _ _ _ _ Eb).
Qed.

Lemma pool_good (P : Pool K) B (c : tpool) C sp t : kok B (KPool P c obj_init) C sp -> kfits (KPool P c obj_init) t -> 1 <= t ->
  good B (KPool P c obj_init) C sp C (p_osp sp c) t.
Proof.
  intros (_ & PL & Hc & OK) Hf Ht. cbn [kfits] in Hf. pose proof OK as OK'. destruct OK'.
  assert (Hol : out_dim t (p_k c) (p_s c) (p_p c) 1 = klen (KPool P c obj_init) t) by (cbn [klen]; unfold out_dim; repeat f_equal; lia).
  assert (Hdel : p_delay c = kdel (KPool P c obj_init)) by (cbn [kdel]; unfold p_delay; lia).
  constructor.
  - exact to_s.
  - cbn [klen]. apply Nat.le_add_l.
  - cbn [klen kdel kstr]. pose proof (Nat.mul_succ_div_gt (t + 2 * p_p c - p_k c) (p_s c) ltac:(lia)). nia.
  - intros xs Hl HF. set (X := stack2 B C sp (map dat xs)).
    assert (Hm : length (map dat xs) = t) by (rewrite map_length; exact Hl).
    destruct (pool_forward_shape B C sp c OK t X Ht Hf) as (Y & HY & LY).
    assert (Hcl : p_clen c t = klen (KPool P c obj_init) t) by (unfold p_clen, pool_out_dim; rewrite Hc; exact Hol).
    cbn [pool_out_dims] in LY. change (pool_out_dim _ t _ _ _ _) with (p_clen c t) in LY. rewrite Hcl in LY. fold (p_osp sp c) in LY.
    set (L := klen (KPool P c obj_init) t) in *.
    assert (Hck : dims_ok sp (p_ks c) = true) by (unfold dims_ok; rewrite to_lks, !Nat.eqb_refl; reflexivity).
    assert (LX : length X = size (B :: C :: t :: sp)) by (unfold X; rewrite stack_len, Hm; reflexivity).
    assert (Hin : forall n, n <= t -> pin_frames B C sp t X (seq 0 n) = map dat (firstn n xs)).
    { intros n Hn. rewrite <- map_firstn. unfold pin_frames. transitivity (map (@slice2 K SC B C t sp X) (seq 0 n)).
      - apply map_ext_seq. intros i Hi. apply slice_indep; [exact LX|lia].
      - unfold X. rewrite <- Hm at 1. apply slices_stack; [apply fr_dats; exact HF|lia]. }
    assert (Hout : pout_frames B C sp c t Y = map (@slice2 K SC B C L (p_osp sp c) Y) (seq 0 L)).
    { unfold pout_frames, p_olen. rewrite Hcl, Hol. apply map_ext_seq. intros i Hi. apply slice_indep; [exact LY|lia]. }
    exists (cut B C (p_osp sp c) L Y). split; [apply cut_fr|]. split; [apply cut_len|]. split; [|split].
    + cbn [kfwd clip sh dat]. rewrite Hck, Hl. fold X. rewrite HY. cbn [bind pool_out_dims].
      change (pool_out_dim _ t _ _ _ _) with (p_clen c t). rewrite Hcl, cut_clip by exact LY. reflexivity.
    + intros n Hn. destruct (pool_tensor_step B C sp c OK t X Y n HY Hn) as (o & Ho). rewrite Hin in Ho by exact Hn. rewrite Hout, Hdel in Ho.
      exists (KPool P c o). split.
      * rewrite (feed_lift (KPool P c) (fun o x => p_forward_step B C sp c o x true) (B :: C :: sp) (B :: C :: p_osp sp c)) with (ys := map (scheduled (kdel (KPool P c obj_init)) (p_s c) (map (slice2 B C L (p_osp sp c) Y) (seq 0 L))) (seq 0 n)) (o' := o).
        -- rewrite sched_wrap. reflexivity.
        -- intros o1 x Hx. cbn [kstep]. rewrite Hx, Hck. destruct (p_forward_step B C sp c o1 (dat x) true) as [[y1 o2]|]; reflexivity.
        -- apply shapes_of, firstn_fr, HF.
        -- exact Ho.
      * intros Hn1. cbn [ksteps]. unfold clip at 1. cbn [sh]. rewrite Hck, frames_clip by (apply firstn_fr, HF).
        unfold p_forward_steps. rewrite (steps_of_feed _ (p_full P B C sp c) _ _ _ _ _ _ Ho). cbn [bind].
        rewrite stack_outs_clip. unfold sched. cbn [kstr]. rewrite <- somes_map, sched_wrap. reflexivity.
    + destruct (pool_tensor_pad_end B C sp c OK t X Y 0 HY ltac:(lia)) as (os & o1 & o2 & rest & H1 & H2 & H3 & _).
      cbn [seq pin_frames map feed] in H1. apply ok_inj in H1. injection H1 as <- <-. rewrite Nat.sub_0_r, Hin, firstn_all2 in H2 by lia.
      cbn [somes app] in H3. exists (KPool P c o2). cbn [ksteps]. unfold clip at 1. cbn [sh]. rewrite Hck, frames_clip by exact HF.
      rewrite H2. cbn [bind]. rewrite stack_outs_clip, H3, Hout.
      rewrite <- (clip_of_clip B C (p_osp sp c)); [reflexivity|apply cut_fr|].
      intros E. apply (f_equal (@length _)) in E. rewrite cut_len in E. subst L. cbn [klen] in E. rewrite Nat.add_1_r in E. discriminate E.
Qed.

(** *** Modules without state *)

Lemma sched01 {A} (ys : list A) n : n <= length ys -> map (scheduled 0 1 ys) (seq 0 n) = map Some (firstn n ys).
Proof.
  intros Hn. apply nth_error_ext. intros j. rewrite nth_error_map_seq, nth_error_map. cbn [Nat.add].
  destruct (Nat.ltb_spec j n) as [H|H].
  - unfold scheduled, emits. cbn [Nat.leb andb]. rewrite Nat.sub_0_r, Nat.mod_1_r, Nat.div_1_r. cbn [Nat.eqb].
    destruct (nth_error ys j) as [a|] eqn:E; [|apply nth_error_None in E; lia].
    assert (nth_error (firstn n ys) j = Some a) as ->; [|reflexivity]. rewrite <- E. clear -H. revert j ys H. induction n as [|n IH]; intros j ys H; [lia|].
    destruct ys as [|y ys]; [destruct j; reflexivity|]. destruct j; [reflexivity|]. cbn. apply IH. lia.
  - assert (nth_error (firstn n ys) j = None) as -> by (apply nth_error_None; rewrite firstn_length; lia). reflexivity.
Qed.

Lemma map_good B m C sp C' sp' t (g : tens K -> tens K) : 1 <= t -> kdel m = 0 -> kstr m = 1 -> klen m t = t ->
  (forall x, fr B C sp x -> fr B C' sp' (g x) /\ kstep m x = Ok (Some (g x), m)) ->
  (forall xs, xs <> [] -> Forall (fr B C sp) xs -> kfwd m (clip B C sp xs) = Ok (clip B C' sp' (map g xs)) /\
     forall pe, ksteps pe m (clip B C sp xs) = Ok (Some (clip B C' sp' (map g xs)), m)) ->
  good B m C sp C' sp' t.
Proof.
  intros Ht Ed Es El Hg Hc. constructor; rewrite ?Es, ?Ed, ?El; try lia.
  intros xs Hl HF. assert (Hne : xs <> []) by (destruct xs; [cbn in Hl; lia|discriminate]).
  assert (HG : Forall (fr B C' sp') (map g xs)) by (apply Forall_map; eapply Forall_impl; [|exact HF]; intros x Hx; apply Hg, Hx).
  exists (map g xs). split; [exact HG|]. split; [rewrite map_length; exact Hl|]. split; [apply Hc; assumption|]. split.
  - intros n Hn. exists m. unfold sched. rewrite Ed, Es, sched01 by (rewrite map_length; lia). rewrite map_firstn. split.
    + assert (HFn : Forall (fr B C sp) (firstn n xs)) by (apply firstn_fr; exact HF).
      clear -Hg HFn. induction HFn as [|x l Hx _ IH]; [reflexivity|]. cbn [feed map]. rewrite (proj2 (Hg x Hx)). cbn [bind]. rewrite IH. reflexivity.
    + intros Hn1. assert (Hne' : firstn n xs <> []) by (intros E; apply (f_equal (@length _)) in E; rewrite firstn_length in E; cbn in E; lia).
      rewrite (proj2 (Hc _ Hne' (firstn_fr _ _ _ _ _ HF))). rewrite somes_some, (clip_of_clip B C' sp'); [reflexivity| |].
      * rewrite <- map_firstn. apply firstn_fr. exact HG.
      * destruct (firstn n xs); [congruence|discriminate].
  - exists m. apply Hc; assumption.
Qed.

Lemma nth_map_in {A A'} (f : A -> A') l i d d' : i < length l -> nth i (map f l) d' = f (nth i l d).
Proof. intros H. rewrite (nth_indep _ d' (f d)) by (rewrite map_length; exact H). apply map_nth. Qed.
Lemma at_clip B C sp xs b c i q d : i < length xs -> inr (b :: c :: q) (B :: C :: sp) ->
  at_ (B :: C :: length xs :: sp) (stack2 B C sp (map dat xs)) (map Z.of_nat (b :: c :: i :: q)) =
  at_ (B :: C :: sp) (dat (nth i xs d)) (map Z.of_nat (b :: c :: q)).
Proof.
  intros Hi H. destruct (inr2 _ _ _ _ H) as (b' & c' & q' & E & Hb & Hc & Hq). injection E as <- <- <-.
  unfold stack2. rewrite map_length, at_tab_in.
  - rewrite (nth_map_in dat xs i d) by exact Hi. reflexivity.
  - repeat (constructor; [assumption|]). exact Hq.
Qed.

(** A clip whose entries are those of frames. *)
Lemma clip_tab B C sp (zs : list (tens K)) f : Forall (fr B C sp) zs ->
  (forall b c i q d, b < B -> c < C -> i < length zs -> inr q sp -> f (b :: c :: i :: q) = at_ (B :: C :: sp) (dat (nth i zs d)) (map Z.of_nat (b :: c :: q))) ->
  T (B :: C :: length zs :: sp) (tab (B :: C :: length zs :: sp) f) = clip B C sp zs.
Proof.
  intros HF H. unfold clip. f_equal. unfold stack2. rewrite map_length. apply tab_ext. intros ix Hix.
  destruct (inr2 _ _ _ _ Hix) as (b & c & q & -> & Hb & Hc & Hq). inversion Hq as [|i x q' y Hi Hq']; subst.
  rewrite (nth_map_in dat zs i (T [] [])) by exact Hi. rewrite (H b c i q' (T [] [])) by assumption. reflexivity.
Qed.

Definition chanv (f : nat -> K -> K) (x : tens K) : tens K :=
  T (sh x) (tab (sh x) (fun ix => f (nth 1 ix 0) (at_ (sh x) (dat x) (map Z.of_nat ix)))).
Lemma chan_ok f B C r x : sh x = B :: C :: r -> chan f x = Ok (chanv f x).
Proof. intros E. unfold chan, chanv. rewrite E. reflexivity. Qed.
Lemma chan_good B f C sp t : 1 <= t -> good B (KChan f) C sp C sp t.
Proof.
  intros Ht. apply (map_good _ _ _ _ _ _ _ (chanv f)); auto.
  - intros x [E L]. split; [split; cbn [chanv sh dat]; [exact E|rewrite tab_len, E; reflexivity]|].
    cbn [kstep]. rewrite (chan_ok f _ _ _ _ E). reflexivity.
  - intros xs Hne HF. assert (E : chan f (clip B C sp xs) = Ok (clip B C sp (map (chanv f) xs))).
    { rewrite (chan_ok f B C (length xs :: sp)) by reflexivity. f_equal. unfold chanv at 1. cbn [sh dat clip].
      rewrite <- (map_length (chanv f) xs) at 1 2. apply clip_tab.
      - apply Forall_map. eapply Forall_impl; [|exact HF]. intros x [E L]. split; cbn [chanv sh dat]; [exact E|rewrite tab_len, E; reflexivity].
      - intros b c i q d Hb Hc Hi Hq. rewrite map_length in Hi. cbn [nth].
        assert (Hin : inr (b :: c :: q) (B :: C :: sp)) by (repeat (constructor; [assumption|]); exact Hq).
        rewrite (at_clip B C sp xs b c i q (T [] [])) by assumption. rewrite (nth_map_in (chanv f) xs i (T [] [])) by exact Hi.
        assert (Hn : fr B C sp (nth i xs (T [] []))) by (rewrite Forall_forall in HF; apply HF, nth_In, Hi). destruct Hn as [E _].
        unfold chanv. cbn [dat]. rewrite E, at_tab_in by exact Hin. reflexivity. }
    cbn [kfwd ksteps]. rewrite E. auto.
Qed.

Definition klinv (cin cout : nat) (w : list K) (b : option (list K)) (x : tens K) : tens K :=
  match klin cin cout w b x with Ok y => y | Err _ => x end.
Lemma klin_eq cin cout w b B C r x : sh x = B :: C :: r ->
  klin cin cout w b x = if Nat.eqb C cin then Ok (T (B :: cout :: r) (tab (B :: cout :: r) (lin_at 1 cin cout w b x))) else Err RuntimeError.
Proof.
  intros E. unfold klin. assert (A : axis (length (sh x)) 1 = Ok 1).
  { rewrite E. unfold axis. cbn [length Nat.max]. cbv zeta. destruct (_ && _) eqn:E2; [reflexivity|lia]. }
  rewrite (linear_axis 1 1) by (exact A || rewrite E; discriminate). rewrite E. reflexivity.
Qed.
Lemma klin_ok cin cout w b B r x : sh x = B :: cin :: r -> klin cin cout w b x = Ok (klinv cin cout w b x).
Proof. intros E. unfold klinv. rewrite (klin_eq _ _ _ _ _ _ _ _ E), Nat.eqb_refl. reflexivity. Qed.
Lemma klin_fr cin cout w b B sp x : fr B cin sp x -> fr B cout sp (klinv cin cout w b x).
Proof. intros [E L]. unfold klinv. rewrite (klin_eq _ _ _ _ _ _ _ _ E), Nat.eqb_refl. split; [reflexivity|]. cbn [dat]. rewrite tab_len. reflexivity. Qed.
Lemma lin_good B cin cout w b sp t : 1 <= t -> good B (KLin cin cout w b) cin sp cout sp t.
Proof.
  intros Ht. apply (map_good _ _ _ _ _ _ _ (klinv cin cout w b)); auto.
  - intros x Hx. split; [apply klin_fr; exact Hx|]. cbn [kstep]. destruct Hx as [E L]. rewrite (klin_ok _ _ _ _ _ _ _ E). reflexivity.
  - intros xs Hne HF. assert (E : klin cin cout w b (clip B cin sp xs) = Ok (clip B cout sp (map (klinv cin cout w b) xs))).
    { rewrite (klin_eq _ _ _ _ B cin (length xs :: sp)) by reflexivity. rewrite Nat.eqb_refl. f_equal.
      rewrite <- (map_length (klinv cin cout w b) xs) at 1 2. apply clip_tab.
      - apply Forall_map. eapply Forall_impl; [|exact HF]. intros x Hx. apply klin_fr; exact Hx.
      - intros n o i q d Hb Hc Hi Hq. rewrite map_length in Hi. rewrite (nth_map_in (klinv cin cout w b) xs i (T [] [])) by exact Hi.
        assert (Hn : fr B cin sp (nth i xs (T [] []))) by (rewrite Forall_forall in HF; apply HF, nth_In, Hi). destruct Hn as [E _].
        unfold klinv. rewrite (klin_eq _ _ _ _ _ _ _ _ E), Nat.eqb_refl. cbn [dat].
        rewrite at_tab_in by (repeat (constructor; [assumption|]); exact Hq). unfold lin_at. cbn [nth]. f_equal. f_equal. apply map_ext_seq. intros j Hj. f_equal. rewrite E.
        apply (at_clip B cin sp xs n j i q (T [] [])); [exact Hi|]. repeat (constructor; [assumption || lia|]). exact Hq. }
    cbn [kfwd ksteps]. rewrite E. auto.
Qed.

(** *** Delay *)

Definition RD (a : pf K) (y : list K) : Prop := match a with FT x => x = y | _ => True end.
Lemma rd_refls (l : list (list K)) : Forall2 RD (map FT l) l.
Proof. induction l; constructor; auto. reflexivity. Qed.
Lemma rd_eqs (l l' : list (list K)) : Forall2 RD (map FT l) l' -> l = l'.
Proof. revert l'. induction l as [|x l IH]; intros l' H; inversion H as [|a b m m' Hab Hm]; subst; [reflexivity|]. cbn in Hab. subst. f_equal. apply IH. exact Hm. Qed.
Lemma rd_eqso (l l' : list (option (list K))) : Forall2 (rel_opt RD) (map (option_map FT) l) l' -> map (option_map (fun x => x)) l = l'.
Proof.
  revert l'. induction l as [|x l IH]; intros l' H; inversion H as [|a b m m' Hab Hm]; subst; [reflexivity|]. cbn [map]. f_equal; [|apply IH; exact Hm].
  destruct x; inversion Hab as [u v Huv|]; subst; [cbn in Huv; subst|]; reflexivity.
Qed.
Lemma kd_rel d fl x x' st st' : RD x x' -> rel_opt (rel_obj RD) st st' ->
  rel_res (rel_pair (rel_opt RD) (rel_opt (rel_obj RD))) (delay_fstep d fl ShNo x st) (kd_fstep d fl x' st').
Proof.
  intros Hx Hst. unfold delay_fstep, kd_fstep. destruct (Nat.eqb d 0); [constructor; split; [constructor; exact Hx|exact Hst]|]. cbv zeta.
  set (o := match st with None => delay_init d fl ShNo x | Some s => s end).
  set (o' := match st' with None => kd_init d fl x' | Some s => s end).
  assert (Ho : rel_obj RD o o').
  { unfold o, o'. destruct Hst; [assumption|]. repeat split; cbn [o_buf]. apply r_repeat. unfold make_padding, kfill. destruct fl; [exact I|exact Hx|exact I]. }
  destruct Ho as (Hb & Hi & Hs). rewrite Hi, Hs.
  apply (r_bind (rel_opt RD)).
  - destruct (Z.leb 0 (o_idx o')); [|repeat constructor]. apply (r_bind RD); [apply r_getz; exact Hb|]. intros a b Hab. repeat constructor. exact Hab.
  - intros a b Hab. apply (r_bind (Forall2 RD)); [apply r_setz; assumption|]. intros l l' Hl. constructor. split; [exact Hab|]. constructor. repeat split. exact Hl.
Qed.
Lemma kd_full d fl : d <> 0 -> forall x s y s', kd_fstep (K:=K) d fl x s = Ok (y, s') -> full s -> full s' /\ (s' = None -> s = None).
Proof.
  intros Hd x s y s' E Hs. unfold kd_fstep in E. destruct (Nat.eqb_spec d 0); [congruence|]. cbv zeta in E.
  match type of E with bind ?a _ = _ => destruct a as [out|]; [|discriminate] end. cbn [bind] in E.
  destruct (setz _ _ _) as [b'|] eqn:Eb in E; [|discriminate]. cbn [bind] in E. injection E as _ <-.
  split; [|discriminate]. cbn [full o_buf]. exact (setz_full _ _ _ _ Eb).
Qed.

Lemma delay_sched {A} d (xs : list A) n : n <= length xs ->
  map (fun i => if Nat.ltb i d then None else nth_error (firstn n xs) (i - d)) (seq 0 n) = map (scheduled d 1 xs) (seq 0 n).
Proof.
  intros Hn. apply map_ext_seq. intros i Hi. unfold scheduled, emits. rewrite Nat.mod_1_r, Nat.div_1_r, andb_true_r.
  destruct (Nat.ltb_spec i d), (Nat.leb_spec d i); try lia; [reflexivity|].
  assert (G : forall j n (l : list A), j < n -> nth_error (firstn n l) j = nth_error l j).
  { clear. induction j as [|j IH]; intros [|n] [|x l] H; try lia; try reflexivity. cbn. apply IH. lia. }
  apply G. lia.
Qed.

Lemma delay_good B d fl C sp t : 1 <= t -> good B (KDelay d fl obj_init) C sp C sp t.
Proof.
  intros Ht. destruct (Nat.eq_dec d 0) as [E|Hd].
  - subst d. apply (map_good _ _ _ _ _ _ _ (fun x => x)); auto.
    + intros x Hx. split; [exact Hx|]. cbn [kstep]. unfold kd_forward_step. cbn [Nat.eqb bind option_map]. destruct x; reflexivity.
    + intros xs Hne HF. rewrite map_id. cbn [kfwd ksteps]. unfold clip at 3. cbn [sh Nat.eqb]. auto.
  - constructor; cbn [kstr klen kdel]; try lia.
    assert (Eb : Nat.eqb d 0 = false) by (apply Nat.eqb_neq; exact Hd).
    intros xs Hl HF. exists xs. split; [exact HF|]. split; [exact Hl|]. split; [reflexivity|]. split.
    + intros n Hn. 
      destruct (delay_fifo_thm (F := pf K) d fl ShNo (map FT (map dat (firstn n xs))) ltac:(discriminate)) as (o & Ho).
      unfold delay_forward_step in Ho. rewrite Eb in Ho.
      pose proof (s_feed RD RD (rel_obj RD) (rel_obj RD) obj_get obj_get obj_set obj_set (delay_fstep d fl ShNo) (kd_fstep d fl)
        (r_obj_get _) (fun _ _ _ _ _ H => H) (kd_rel d fl) _ _ obj_init obj_init (rd_refls (map dat (firstn n xs))) (r_obj_init _)) as HR.
      assert (Ll : length (map FT (map dat (firstn n xs))) = n) by (rewrite !map_length, firstn_length; lia).
      rewrite Ho, Ll in HR. inversion HR as [a b Hab Ea Ec|]; subst. destruct b as [os' o']. destruct Hab as [Hos Ho']. cbn [fst snd] in *.
      assert (Eo : os' = map (scheduled d 1 (map dat xs)) (seq 0 n)).
      { rewrite <- (delay_sched d (map dat xs) n) by (rewrite map_length; lia). symmetry. rewrite map_firstn.
        erewrite <- (map_id (map _ (seq 0 n))). etransitivity; [|apply rd_eqso].
        - apply map_ext. intros [u|]; reflexivity.
        - rewrite map_map. erewrite map_ext; [exact Hos|]. intros i. cbn beta. destruct (Nat.ltb i d); [reflexivity|]. symmetry. apply nth_error_map. }
      symmetry in Ec. rewrite Eo in Ec. exists (KDelay d fl o'). split.
      * rewrite (feed_lift (KDelay d fl) (fun o x => co_forward_step obj_get obj_set (kd_fstep d fl) o x true) (B :: C :: sp) (B :: C :: sp)) with (ys := map (scheduled d 1 (map dat xs)) (seq 0 n)) (o' := o').
        -- rewrite sched_wrap, fr_map by exact HF. reflexivity.
        -- intros o1 x Hx. cbn [kstep]. unfold kd_forward_step. rewrite Eb, Hx. destruct (co_forward_step _ _ _ o1 (dat x) true) as [[y1 o2]|]; reflexivity.
        -- apply shapes_of, firstn_fr, HF.
        -- exact Ec.
      * intros Hn1. cbn [ksteps]. unfold clip at 1. cbn [sh]. rewrite Eb, frames_clip by (apply firstn_fr, HF).
        unfold kd_forward_steps. rewrite Eb, (steps_of_feed _ (kd_full d fl Hd) _ _ _ _ _ _ Ec). cbn [bind].
        rewrite stack_outs_clip. unfold sched. cbn [kstr kdel]. rewrite <- somes_map, sched_wrap, fr_map by exact HF. reflexivity.
    + assert (Hne : map FT (map dat xs) <> []) by (destruct xs; [cbn in Hl; lia|discriminate]).
      destruct (delay_pad_end_thm (F := pf K) d fl ShNo (map FT (map dat xs)) ltac:(discriminate) Hne) as (o & Ho).
      unfold delay_forward_steps in Ho. rewrite Eb in Ho.
      pose proof (s_co_steps RD RD (rel_obj RD) (rel_obj RD) obj_get obj_get obj_set obj_set (delay_fstep d fl ShNo) (kd_fstep d fl)
        (make_padding fl) (kfill fl) (r_obj_get _) (fun _ _ _ _ _ H => H) (kd_rel d fl)) as HR.
      specialize (HR ltac:(intros x y H; unfold make_padding, kfill; destruct fl; [exact I|exact H|exact I]) d obj_init obj_init _ _ true true (r_obj_init _) (rd_refls (map dat xs))).
      rewrite Ho in HR. inversion HR as [a b Hab Ea Ec|]; subst. destruct b as [os' o']. destruct Hab as [Hos Ho']. cbn [fst snd] in *.
      inversion Hos as [u v Huv|]; subst. apply rd_eqs in Huv. subst v. symmetry in Ec.
      exists (KDelay d fl o'). cbn [ksteps]. unfold clip at 1. cbn [sh]. rewrite Eb, frames_clip by exact HF.
      unfold kd_forward_steps. rewrite Eb, Ec. cbn [bind]. rewrite fr_map, (clip_of_clip B C sp) by (exact HF || (intros E; apply Hne; rewrite E; reflexivity)). reflexivity.
Qed.

End Leaf.
