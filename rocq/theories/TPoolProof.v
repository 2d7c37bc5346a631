(** Pooling of whole tensors is the abstract pooling of Leaf.v (C56). *)
From Coq Require Import List ZArith Bool Arith Lia Permutation.
From Verif Require Import Base Frames CoMod Leaf Spec LeafSpec LeafProof NetRel RelProof Tensor TensorProof TConvProof TPool TPoolSpec.
Import ListNotations.

(** Frames of the abstract side: padding, or a tensor. *)
Inductive pf (K : Type) := FZ | FI | FT (x : list K).
Arguments FZ {K}. Arguments FI {K}. Arguments FT {K} _.

Definition pf_add {K} (a b : pf K) : pf K := match a, b with FZ, _ => b | _, FZ => a | _, _ => FI end.
Lemma pf_comm {K} (a b : pf K) : pf_add a b = pf_add b a.
Proof. destruct a, b; reflexivity. Qed.
Lemma pf_assoc {K} (a b c : pf K) : pf_add a (pf_add b c) = pf_add (pf_add a b) c.
Proof. destruct a, b, c; reflexivity. Qed.
#[global] Instance pf_frames (K : Type) : Frames (pf K) := {|
  f0 := FZ; finf := FI; fadd := pf_add
|}.
#[global] Instance pf_laws (K : Type) : FrameLaws (pf K) := {|
  fadd_comm := pf_comm; fadd_assoc := pf_assoc; fadd_0_l := fun _ => eq_refl
|}.

Lemma map_const {A A'} (v : A') (l : list A) : map (fun _ => v) l = repeat v (length l).
Proof. induction l as [|a l IH]; [reflexivity|]. cbn. rewrite IH. reflexivity. Qed.

Section TPool.
Context {K : Type} {P : Pool K} {PL : PoolLaws K}.
Variables (B C : nat) (sp : list nat) (c : tpool).
Notation k := (p_k c). Notation ks := (p_ks c). Notation s := (p_s c). Notation ss := (p_ss c).
Notation p := (p_p c). Notation ps := (p_ps c). Notation ds := (p_ds c).
Notation osp := (p_osp sp c).
Notation ish := (B :: C :: sp). Notation osh := (B :: C :: osp).
Notation Ni := (size ish). Notation No := (size osh).

Definition interp (n : nat) (a : pf K) : list K :=
  match a with FZ => repeat pz n | FI => repeat pninf n | FT x => x end.
Definition spool (x : list K) : list K := match p_space B C sp c x with Ok y => y | Err _ => x end.
Definition asp (a : pf K) : pf K := match a with FT x => FT (spool x) | a => a end.
Definition a_cfg : pool_cfg (pf K) :=
  {| pk := k; Leaf.ps := s; pp := p; pd := 1; psp := asp;
     pagg := fun l => FT (p_time B C sp c (map (interp No) l)); pfill := p_fill c; pmode := pmode_; pfdil := 1 |}.

Hypothesis OK : tpool_ok sp c.

Lemma ksum_perm (l l' : list K) : Permutation l l' -> ksum l = ksum l'.
Proof.
  induction 1 as [|x l l' _ IH|x y l|l l' l'' _ IH1 _ IH2]; [reflexivity| | |congruence].
  - cbn. f_equal. exact IH.
  - unfold ksum. cbn [fold_right]. rewrite !sadd_assoc. f_equal. apply sadd_comm.
Qed.
Lemma ksum_scale {A} n (f : A -> K) l : ksum (map (fun a => pscale n (f a)) l) = pscale n (ksum (map f l)).
Proof.
  induction l as [|a l IH]; [symmetry; apply pscale_e|]. unfold ksum in *. cbn [map fold_right]. rewrite IH. symmetry. apply pscale_op.
Qed.

Definition padv : pf K := match pmode_ with Zeros => FZ | _ => FI end.
Lemma pad_is x : make_padding pmode_ x = padv.
Proof. unfold padv. pose proof pmode_e as H. destruct pmode_; [reflexivity|contradiction|reflexivity]. Qed.
Lemma padv_interp n : interp n padv = repeat pe n.
Proof. unfold padv. pose proof pmode_e as H. destruct pmode_; cbn; [rewrite H; reflexivity|contradiction|rewrite H; reflexivity]. Qed.
Lemma padv_sp : asp padv = padv.
Proof. unfold padv. destruct pmode_; reflexivity. Qed.
Lemma pad_time_is xs n : pad_time pmode_ n xs = Ok (repeat padv n ++ xs ++ repeat padv n).
Proof. unfold padv. pose proof pmode_e as H. destruct pmode_; [reflexivity|contradiction|reflexivity]. Qed.

Lemma a_cfg_ok : pool_ok a_cfg.
Proof.
  pose proof OK as []. constructor; cbn [pk pp pd pfdil Leaf.ps psp pagg pfill pmode a_cfg]; auto; try lia.
  - intros l l' H. f_equal. unfold p_time, nd_time. apply tab_ext. intros ix _. rewrite !map_length, (Permutation_length H).
    f_equal. apply ksum_perm. apply Permutation_map, Permutation_map, H.
  - destruct to_fill as [E|E]; [left; exact E|right; symmetry; exact E].
  - intros x. rewrite !pad_is. apply padv_sp.
Qed.

(** Spatial pooling. *)
Lemma space_ok x : p_space B C sp c x = Ok (spool x).
Proof.
  unfold spool, p_space. pose proof OK as []. destruct ks as [|k0 ks']; [reflexivity|].
  unfold poolnd. rewrite to_fits, to_halves, to_sp. reflexivity.
Qed.
Lemma spool_len x : length x = Ni -> length (spool x) = No.
Proof.
  intros H. unfold spool, p_space. pose proof OK as []. unfold p_osp. destruct ks as [|k0 ks'].
  - destruct sp; [exact H|discriminate].
  - unfold poolnd. rewrite to_fits, to_halves, to_sp. cbn [andb]. apply tab_len.
Qed.
Lemma spool_at x b ch q : b < B -> ch < C -> inr q osp ->
  at_ osh (spool x) (Z.of_nat b :: Z.of_nat ch :: map Z.of_nat q) =
  pscale (win_size (p_cip c) sp ks ss ps q) (pool_elem B C sp ks ss ps ds x b ch q).
Proof.
  intros Hb Hc Hq. unfold spool, p_space. pose proof OK as []. unfold p_osp in *. destruct ks as [|k0 ks'] eqn:Ek.
  - destruct sp; [|discriminate]. destruct ss; [|discriminate]. destruct ps; [|discriminate]. destruct ds; [|discriminate].
    cbn in Hq. inversion Hq; subst. unfold pool_elem. cbn [tab win_size wpos map pool_out_dims].
    unfold ksum. cbn [fold_right]. rewrite sadd_0_r, pscale_1. reflexivity.
  - unfold poolnd. rewrite to_fits, to_halves, to_sp. cbn [andb].
    change (Z.of_nat b :: Z.of_nat ch :: map Z.of_nat q) with (map Z.of_nat (b :: ch :: q)).
    rewrite at_tab_in by (repeat constructor; auto). rewrite to_sdiv. reflexivity.
Qed.
Lemma spool_pe : spool (repeat pe Ni) = repeat pe No.
Proof.
  apply (at_ext osh); [apply spool_len, repeat_length|apply repeat_length|]. intros ix Hx.
  destruct (inr2 _ _ _ _ Hx) as (b & ch & q & -> & Hb & Hc & Hq). cbn [map]. rewrite spool_at by assumption.
  change (repeat pe No) with (repeat s0 No). rewrite at_zeros. unfold pool_elem.
  rewrite (tab_zero ks); [|intros kp Hk; change (repeat pe Ni) with (repeat s0 Ni); apply at_zeros].
  clear -PL. assert (H : ksum (repeat s0 (size ks)) = s0).
  { induction (size ks) as [|n IH]; [reflexivity|]. unfold ksum in *. cbn [repeat fold_right]. rewrite IH. apply sadd_0_l. }
  rewrite H. apply pscale_e.
Qed.

(** The entries of one temporal window, frame by frame. *)
Definition clip_elem (T : nat) (X : list K) (t : Z) (b ch : nat) (q : list nat) : K :=
  ksum (tab ks (fun kp => at_ (B :: C :: T :: sp) X (Z.of_nat b :: Z.of_nat ch :: t :: wpos q ss ps kp ds))).
Lemma elem_frames T X b ch j q :
  pool_elem B C (T :: sp) (k :: ks) (s :: ss) (p :: ps) (1 :: ds) X b ch (j :: q) =
  ksum (map (fun i => clip_elem T X (Z.of_nat (j * s) - Z.of_nat p + Z.of_nat i) b ch q) (seq 0 k)).
Proof.
  unfold pool_elem. rewrite ksum_tab. f_equal. apply map_ext. intros i. unfold clip_elem. apply ksum_tab_ext.
  intros kp _. cbn [wpos]. rewrite Nat.mul_1_r. reflexivity.
Qed.
Lemma clip_in T X t b ch q : t < T -> clip_elem T X (Z.of_nat t) b ch q = pool_elem B C sp ks ss ps ds (slice2 B C T sp X t) b ch q.
Proof. intros H. unfold clip_elem, pool_elem. apply ksum_tab_ext. intros kp _. symmetry. apply at_slice. lia. Qed.
Lemma clip_out T X t b ch q : (t < 0 \/ Z.of_nat T <= t)%Z -> clip_elem T X t b ch q = pe.
Proof.
  intros H. unfold clip_elem. rewrite (tab_zero ks).
  - induction (size ks) as [|n IH]; [reflexivity|]. unfold ksum in *. cbn [repeat fold_right]. rewrite IH. apply sadd_0_l.
  - intros kp _. apply at_out. cbn [inside].
    assert (Z.leb 0 t && Z.ltb t (Z.of_nat T) = false) as -> by (destruct (Z.leb_spec 0 t), (Z.ltb_spec t (Z.of_nat T)); cbn; lia || reflexivity).
    cbn. rewrite !andb_false_r. reflexivity.
Qed.

Lemma forward_inv T X Y : p_forward B C sp c T X = Ok Y -> 1 <= T /\ k <= T + 2 * p.
Proof.
  intros HY. unfold p_forward, poolnd in HY. destruct (fits _ _ _ _) eqn:Ef; [|discriminate].
  destruct (halves _ _); [|discriminate]. destruct (forallb _ _) eqn:E; [|discriminate]. clear HY.
  cbn [forallb fits] in *. apply andb_true_iff in E as [E _]. apply andb_true_iff in Ef as [Ef _].
  apply Nat.leb_le in E, Ef. pose proof OK as []. lia.
Qed.

Lemma win_full T j : p_cip c = true \/ p = 0 -> j * s + k <= T + 2 * p -> win_len (p_cip c) T k s p j = k.
Proof. intros H Hw. unfold win_len. destruct H as [->|H]; [lia|]. rewrite H in *. destruct (p_cip c); lia. Qed.

Lemma olen_clen T : k <= T + 2 * p -> p_olen c T <= p_clen c T.
Proof.
  intros Hk. pose proof OK as []. unfold p_olen, p_clen, pool_out_dim, out_dim. destruct (p_ceil c); [|lia].
  replace (T + 2 * p - (1 * (k - 1) + 1)) with (T + 2 * p - k) by lia. set (n := T + 2 * p - k).
  pose proof (Nat.div_mod n s ltac:(lia)) as Hd. pose proof (Nat.mod_upper_bound n s ltac:(lia)) as Hm.
  set (a := n / s) in *. set (r := n mod s) in *.
  assert (E : (n + s - 1) / s = if Nat.eqb r 0 then a else a + 1).
  { destruct (Nat.eqb_spec r 0); symmetry; [apply (Nat.div_unique _ _ _ (s - 1)); lia|apply (Nat.div_unique _ _ _ (r - 1)); lia]. }
  rewrite E. destruct (Nat.eqb_spec r 0).
  - replace (a + 1 - 1) with a by lia. destruct (Nat.leb_spec (T + p) (a * s)); [|lia].
    assert (n = a * s) by lia. unfold n in *. lia.
  - destruct (Nat.leb_spec (T + p) ((a + 1 + 1 - 1) * s)); lia.
Qed.

Lemma forward_slices_p T X Y : p_forward B C sp c T X = Ok Y ->
  length Y = size (B :: C :: p_clen c T :: osp) /\
  pool_forward a_cfg (map FT (pin_frames B C sp T X (seq 0 T))) = Ok (map FT (pout_frames B C sp c T Y)).
Proof.
  intros HY. destruct (forward_inv T X Y HY) as [HT Hk]. pose proof (olen_clen T Hk) as Hlen. pose proof OK as OK'. destruct OK'.
  unfold p_forward, poolnd in HY. destruct (fits _ _ _ _ && _ && _); [|discriminate]. apply ok_inj in HY.
  cbn [pool_out_dims] in HY. fold (p_clen c T) in HY. fold osp in HY. rewrite to_div in HY.
  split; [rewrite <- HY; apply tab_len|].
  unfold pool_forward. cbn [a_cfg pfdil pk pp]. destruct (Nat.ltb_spec (1 * (k - 1) + 1) (2 * p)); [lia|].
  set (fr := pin_frames B C sp T X (seq 0 T)). assert (Lfr : length fr = T) by (unfold fr, pin_frames; rewrite map_length, seq_length; reflexivity).
  destruct (map FT fr) as [|x0 xr] eqn:Efr; [apply (f_equal (@length _)) in Efr; rewrite map_length in Efr; cbn in Efr; lia|].
  rewrite <- Efr. clear Efr x0 xr. cbn [pmode]. rewrite pad_time_is. cbn [bind]. unfold xpool. cbn [psp pagg a_cfg pk].
  assert (Lp : length (map asp (repeat padv p ++ map FT fr ++ repeat padv p)) = p + (T + p)).
  { rewrite map_length, !app_length, !repeat_length, map_length, Lfr. reflexivity. }
  rewrite Lp.
  destruct (Nat.ltb_spec (p + (T + p)) (1 * (k - 1) + 1)); [lia|]. f_equal.
  unfold pout_frames. rewrite map_map.
  assert (HL : (p + (T + p) - (1 * (k - 1) + 1)) / s + 1 = p_olen c T) by (unfold p_olen, out_dim; do 2 f_equal; lia).
  cbn [Leaf.ps a_cfg]. rewrite HL. apply map_ext_seq. intros j Hj. f_equal.
  assert (Hw : j * s + k <= T + 2 * p).
  { apply window_fits; [lia|]. unfold p_olen, out_dim in Hj. replace (T + 2 * p - k) with (T + 2 * p - (1 * (k - 1) + 1)) by lia. lia. }
  unfold p_time, nd_time. rewrite <- HY. unfold slice2. apply tab_ext. intros ix Hix.
  destruct (inr2 _ _ _ _ Hix) as (b & ch & q & -> & Hb & Hc & Hq).
  symmetry. rewrite at_tab_in by (repeat constructor; auto; lia). cbn [win_size].
  rewrite elem_frames, win_full by assumption. rewrite !map_length, seq_length.
  rewrite <- pscale_mul. f_equal. rewrite <- ksum_scale. rewrite !map_map. f_equal. apply map_ext_seq. intros i Hi.
  assert (Hrep : map asp (repeat padv p) = repeat padv p).
  { clear -P. induction p as [|n IH]; [reflexivity|]. cbn. rewrite padv_sp, IH. reflexivity. }
  rewrite !map_app, Hrep. rewrite nth_padded by (rewrite !map_length, Lfr; lia). rewrite !map_length, Lfr. rewrite Nat.mul_1_r.
  destruct (Nat.ltb_spec (j * s + i) p); [|destruct (Nat.ltb_spec (j * s + i) (p + T))].
  - rewrite padv_interp, clip_out by lia. rewrite pscale_e. symmetry. exact (at_zeros _ _ _).
  - rewrite nth_indep with (d' := asp (FT [])) by (rewrite !map_length; lia).
    rewrite !map_nth. cbn [asp interp]. unfold fr, pin_frames. rewrite nth_slices by lia. cbn [map]. rewrite spool_at by assumption.
    f_equal. rewrite <- clip_in by lia. f_equal. lia.
  - rewrite padv_interp, clip_out by lia. rewrite pscale_e. symmetry. exact (at_zeros _ _ _).
Qed.

Lemma forward_total_p T X : 1 <= T -> k <= T + 2 * p -> exists Y, p_forward B C sp c T X = Ok Y.
Proof.
  intros HT Hk. pose proof OK as OK'. destruct OK'. unfold p_forward, poolnd. cbn [fits halves forallb]. rewrite to_fits, to_halves, to_sp.
  assert (Nat.leb (1 * (k - 1) + 1) (T + 2 * p) = true) as -> by (apply Nat.leb_le; lia).
  assert (Nat.leb (2 * p) k = true) as -> by (apply Nat.leb_le; lia).
  assert (Nat.leb 1 T = true) as -> by (apply Nat.leb_le; lia). cbn [andb]. eauto.
Qed.

(* ------------------------------------------------------------------ *)
(** ** Simulation *)

Definition RU (a : pf K) (y : list K) : Prop := y = interp No a.
Definition RI (a : pf K) (y : list K) : Prop :=
  length y = Ni /\ (a = FT y \/ (a = padv /\ y = repeat pe Ni)).

Lemma asp_rel a y : RI a y -> RU (asp a) (spool y) /\ length (spool y) = No.
Proof.
  intros (L & H). split; [|apply spool_len; exact L]. destruct H as [->|(-> & ->)]; unfold RU.
  - reflexivity.
  - rewrite padv_sp, padv_interp. apply spool_pe.
Qed.
Lemma pad_rel_p a y : RU a y -> length y = No -> RU (make_padding (p_fill c) a) (p_pad c y).
Proof.
  intros H L. unfold RU, make_padding, p_pad, nd_pad in *. destruct (p_fill c); cbn [f0 finf pf_frames interp]; [| exact H |].
  - rewrite map_const, L. reflexivity.
  - rewrite map_const, L. reflexivity.
Qed.

Lemma map_interp (l : list (pf K)) l' : Forall2 RU l l' -> map (interp No) l = l'.
Proof. induction 1 as [|a b l l' H _ IH]; [reflexivity|]. cbn [map]. rewrite H, IH. reflexivity. Qed.

Lemma fstep_rel_p x x' st st' : RI x x' -> rel_opt (rel_obj RU) st st' ->
  rel_res (rel_pair (rel_opt RU) (rel_opt (rel_obj RU))) (pool_fstep a_cfg x st) (p_fstep B C sp c x' st').
Proof.
  intros Hx Hst. unfold pool_fstep, p_fstep, nd_fstep. rewrite space_ok. cbn [bind psp a_cfg].
  destruct (asp_rel _ _ Hx) as [Hp Lp]. cbv zeta.
  set (o := match st with Some s => s | None => pool_init a_cfg (asp x) end).
  set (o' := match st' with Some s => s | None => nd_init k s p (p_fill c) (spool x') end).
  assert (Ho : rel_obj RU o o').
  { unfold o, o'. destruct Hst; [assumption|]. unfold pool_init, nd_init, pool_buflen. cbn [pd pk Leaf.ps pp a_cfg pfill]. repeat split; cbn [o_buf o_idx o_str].
    apply r_repeat. apply pad_rel_p; assumption. }
  destruct Ho as (Hb & Hi & Hs). rewrite Hi, Hs.
  apply (r_bind (Forall2 RU)); [apply r_setz; assumption|]. intros l l' Hl.
  cbn [pk pd Leaf.ps a_cfg Nat.eqb bind].
  destruct (Z.eqb (o_str o') (Z.of_nat s - 1)); cbn [bind].
  - constructor. split; cbn [fst snd].
    + constructor. cbn [pagg a_cfg]. rewrite (map_interp _ _ Hl). reflexivity.
    + constructor. repeat split. exact Hl.
  - constructor. split; cbn [fst snd]; constructor. repeat split. exact Hl.
Qed.
End TPool.

Section Thm.
Context {K : Type} {P : Pool K} {PL : PoolLaws K}.
Variables (B C : nat) (sp : list nat) (c : tpool).
Hypothesis OK : tpool_ok sp c.
Notation Ni := (size (B :: C :: sp)).
Notation RU := (RU B C sp c). Notation RI := (RI B C sp). Notation RO := (rel_obj RU).

Lemma ri_refls (l : list (list K)) : Forall (fun x => length x = Ni) l -> Forall2 RI (map FT l) l.
Proof. induction 1; constructor; auto. split; auto. Qed.
Lemma feed_rel_p xs ys o o' : Forall2 RI xs ys -> RO o o' ->
  rel_res (rel_pair (Forall2 (rel_opt RU)) RO) (feed (fun o x => pool_forward_step (a_cfg B C sp c) o x true) o xs)
    (feed (fun o x => p_forward_step B C sp c o x true) o' ys).
Proof.
  intros. apply (s_feed RI RU RO RO); auto.
  - apply r_obj_get.
  - intros. apply fstep_rel_p; assumption.
Qed.
Lemma steps_rel_p o o' xs ys pend upd : Forall2 RI xs ys -> RO o o' ->
  rel_res (rel_pair (rel_opt (Forall2 RU)) RO) (pool_forward_steps (a_cfg B C sp c) o xs pend upd) (p_forward_steps B C sp c o' ys pend upd).
Proof.
  intros Hx Ho. unfold pool_forward_steps, p_forward_steps. cbn [pp a_cfg pfill].
  pose proof OK as []. destruct to_fill as [E|E].
  - rewrite E. change (rel_res (rel_pair (rel_opt (Forall2 RU)) RO)
      (co_forward_steps obj_get obj_set (pool_fstep (a_cfg B C sp c)) (fun x => x) 0 o xs pend upd)
      (co_forward_steps obj_get obj_set (p_fstep B C sp c) (fun x => x) 0 o' ys pend upd)).
    apply (s_co_steps RI RU RO RO); auto.
    + apply r_obj_get.
    + intros. apply fstep_rel_p; assumption.
  - apply (s_co_steps RI RU RO RO); auto.
    + apply r_obj_get.
    + intros. apply fstep_rel_p; assumption.
    + intros x y (L & _). unfold neutral_fill in E. rewrite E, pad_is.
      assert (Hp : p_pad c y = repeat pe Ni).
      { unfold p_pad, nd_pad. rewrite E. pose proof pmode_e as He. destruct pmode_; [rewrite map_const, L, He; reflexivity|contradiction|rewrite map_const, L, He; reflexivity]. }
      rewrite Hp. split; [apply repeat_length|right; auto].
Qed.
Lemma ru_eqso (l : list (option (list K))) l' : Forall2 (rel_opt RU) (map (option_map FT) l) l' -> l = l'.
Proof.
  revert l'. induction l as [|a l IH]; intros l' H; inversion H as [|x y m m' Hxy Hm]; subst; [reflexivity|].
  f_equal; [|apply IH; exact Hm]. destruct a; inversion Hxy as [a' b' Hab|]; subst; [|reflexivity]. rewrite Hab. reflexivity.
Qed.
Lemma ru_eqs (l : list (list K)) l' : Forall2 RU (map FT l) l' -> l = l'.
Proof.
  revert l'. induction l as [|a l IH]; intros l' H; inversion H as [|x y m m' Hxy Hm]; subst; [reflexivity|].
  f_equal; [|apply IH; exact Hm]. rewrite Hxy. reflexivity.
Qed.
Lemma sched_map {A A'} (f : A -> A') d st ys n : scheduled d st (map f ys) n = option_map f (scheduled d st ys n).
Proof. unfold scheduled. destruct (emits d st n); [|reflexivity]. apply nth_error_map. Qed.
Lemma somes_fts (os : list (option (pf K))) (ys : list (list K)) rest :
  somes os ++ rest = map FT ys ->
  exists os' rest', os = map (option_map FT) os' /\ rest = map FT rest' /\ somes os' ++ rest' = ys.
Proof.
  revert ys. induction os as [|[a|] os IH]; intros ys H; cbn in H.
  - exists [], ys. auto.
  - destruct ys as [|y ys]; [discriminate|]. injection H as -> H. destruct (IH ys H) as (os' & rest' & -> & -> & <-).
    exists (Some y :: os'), rest'. auto.
  - destruct (IH ys H) as (os' & rest' & -> & -> & <-). exists (None :: os'), rest'. auto.
Qed.

Lemma pool_tensor_step T X Y n : p_forward B C sp c T X = Ok Y -> n <= T ->
  exists o,
    feed (fun o x => p_forward_step B C sp c o x true) obj_init (pin_frames B C sp T X (seq 0 n))
    = Ok (map (scheduled (p_delay c) (p_s c) (pout_frames B C sp c T Y)) (seq 0 n), o).
Proof.
  intros HY Hn. destruct (forward_slices_p B C sp c OK T X Y HY) as [LY HF].
  unfold pin_frames in HF. rewrite <- (slices_split B C T sp X n Hn), map_app in HF.
  destruct (pool_step_thm _ _ _ _ (a_cfg_ok B C sp c OK) HF) as (o & Ho).
  pose proof (feed_rel_p _ _ obj_init obj_init (ri_refls _ (slices_len B C T sp X (seq 0 n))) (r_obj_init _)) as HR.
  rewrite Ho in HR. inversion HR as [a b Hab Ea Eb|]; subst. destruct b as [os' o']. destruct Hab as [Hos Ho']. cbn [fst snd] in *.
  exists o'. unfold pin_frames. rewrite <- Eb. f_equal. f_equal. symmetry.
  rewrite !map_length, seq_length in Hos. apply ru_eqso. rewrite map_map.
  erewrite map_ext; [exact Hos|]. intros i. cbn beta. symmetry. apply (sched_map FT).
Qed.

Lemma pool_tensor_pad_end T X Y n : p_forward B C sp c T X = Ok Y -> n < T ->
  exists os o1 o2 rest,
    feed (fun o x => p_forward_step B C sp c o x true) obj_init (pin_frames B C sp T X (seq 0 n)) = Ok (os, o1) /\
    p_forward_steps B C sp c o1 (pin_frames B C sp T X (seq n (T - n))) true true = Ok (stack_outs rest, o2) /\
    somes os ++ rest = pout_frames B C sp c T Y /\
    (p_clen c T = p_olen c T -> stack2 B C (p_osp sp c) (somes os ++ rest) = Y).
Proof.
  intros HY Hn. destruct (forward_slices_p B C sp c OK T X Y HY) as [LY HF].
  unfold pin_frames in *. rewrite <- (slices_split B C T sp X n), map_app in HF by lia.
  assert (Hne : map FT (map (slice2 B C T sp X) (seq n (T - n))) <> []) by (destruct (T - n) eqn:E; [lia|discriminate]).
  destruct (pool_pad_end_thm _ _ _ _ (a_cfg_ok B C sp c OK) Hne HF) as (os & o1 & o2 & rest & H1 & H2 & H3).
  destruct (somes_fts _ _ _ H3) as (os0 & rest0 & -> & -> & H4).
  pose proof (feed_rel_p _ _ obj_init obj_init (ri_refls _ (slices_len B C T sp X (seq 0 n))) (r_obj_init _)) as HR.
  rewrite H1 in HR. inversion HR as [a b Hab Ea Eb|]; subst. destruct b as [os' o1']. destruct Hab as [Hos Ho']. cbn [fst snd] in *.
  apply ru_eqso in Hos. subst os'.
  pose proof (steps_rel_p o1 o1' _ _ true true (ri_refls _ (slices_len B C T sp X (seq n (T - n)))) Ho') as HS.
  rewrite H2 in HS. inversion HS as [a b Hab Ea Ec|]; subst. destruct b as [r' o2']. destruct Hab as [Hr Ho2]. cbn [fst snd] in *.
  exists os0, o1', o2', rest0. split; [reflexivity|]. split.
  - rewrite <- Ec. f_equal. f_equal. destruct rest0 as [|x rest0]; cbn [stack_outs map] in *.
    + inversion Hr. reflexivity.
    + inversion Hr as [a b Hab|]; subst. f_equal. symmetry. apply ru_eqs. exact Hab.
  - split; [exact H4|]. intros E. rewrite H4. unfold pout_frames. rewrite E. apply stack_slices. rewrite <- E. exact LY.
Qed.

Lemma pool_forward_shape T X : 1 <= T -> p_k c <= T + 2 * p_p c ->
  exists Y, p_forward B C sp c T X = Ok Y /\
    length Y = size (B :: C :: pool_out_dims (p_ceil c) (T :: sp) (p_k c :: p_ks c) (p_s c :: p_ss c) (p_p c :: p_ps c) (1 :: p_ds c)).
Proof.
  intros HT Hk. destruct (forward_total_p B C sp c OK T X HT Hk) as [Y HY]. exists Y. split; [exact HY|].
  unfold p_forward, poolnd in HY. destruct (fits _ _ _ _ && _ && _); [|discriminate]. apply ok_inj in HY. rewrite <- HY. apply tab_len.
Qed.
Lemma ceil_harmless T : p_k c <= T + 2 * p_p c ->
  p_ceil c = false \/ (T + 2 * p_p c - p_k c) mod p_s c = 0 -> p_clen c T = p_olen c T.
Proof.
  intros Hk H. pose proof OK as []. unfold p_clen, p_olen, pool_out_dim. destruct (p_ceil c); [|reflexivity].
  destruct H as [H|H]; [discriminate|]. unfold out_dim.
  replace (T + 2 * p_p c - (1 * (p_k c - 1) + 1)) with (T + 2 * p_p c - p_k c) by lia. set (n := T + 2 * p_p c - p_k c) in *.
  pose proof (Nat.div_mod n (p_s c) ltac:(lia)) as Hd. rewrite H in Hd.
  assert (E : (n + p_s c - 1) / p_s c = n / p_s c) by (symmetry; apply (Nat.div_unique _ _ _ (p_s c - 1)); lia).
  rewrite E. destruct (Nat.leb_spec (T + p_p c) ((n / p_s c + 1 - 1) * p_s c)); [|reflexivity].
  replace (n / p_s c + 1 - 1) with (n / p_s c) in * by lia. unfold n in *. lia.
Qed.
End Thm.
