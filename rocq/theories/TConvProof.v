(** The tensor-level convolution is the abstract convolution of Leaf.v with
    concrete taps (C55). *)
From Coq Require Import List ZArith Bool Arith Lia.
From Verif Require Import Base Frames CoMod Leaf Spec LeafSpec LeafProof NetRel RelProof Tensor TConv TConvSpec TensorProof.
Import ListNotations.

Lemma ok_inj {A} (a b : A) : Ok a = Ok b -> a = b.
Proof. intros [=]; assumption. Qed.

Section Indices.

Lemma inr_len ix sh : inr ix sh -> length ix = length sh.
Proof. induction 1; cbn; auto. Qed.
Lemma inr2 ix n m r : inr ix (n :: m :: r) -> exists b o q, ix = b :: o :: q /\ b < n /\ o < m /\ inr q r.
Proof. intros H. inversion H as [|b x ix1 y Hb H1]; subst. inversion H1 as [|o x' q y' Ho H2]; subst. eauto 8. Qed.
Lemma zs_len l : length (zs l) = length l.
Proof. apply map_length. Qed.
Lemma grow_zs dims : forall ks ps ss ds, length ps = length dims ->
  out_dims (grow dims ps) ks ss (zs ps) ds = out_dims dims ks ss ps ds.
Proof.
  induction dims as [|d dims IH]; intros [|k ks] [|p ps] [|s ss] [|dl ds] H; try discriminate; try reflexivity.
  cbn. f_equal; [|apply IH; injection H as H; exact H]. unfold out_dim. f_equal. f_equal. lia.
Qed.
Lemma grow_fits dims : forall ks ps ds, length ps = length dims ->
  fits (grow dims ps) ks (zs ps) ds = fits dims ks ps ds.
Proof.
  induction dims as [|d dims IH]; intros [|k ks] [|p ps] [|dl ds] H; try discriminate; try reflexivity.
  cbn. rewrite IH by (injection H as H; exact H). f_equal. rewrite Nat.add_0_r. reflexivity.
Qed.
Lemma grow_pos dims : forall ps, forallb (Nat.leb 1) dims = true -> forallb (Nat.leb 1) (grow dims ps) = true.
Proof.
  induction dims as [|d dims IH]; intros [|p ps] H; try reflexivity. cbn [forallb grow] in *.
  apply andb_true_iff in H as [H1 H2]. rewrite IH by exact H2. apply Nat.leb_le in H1.
  rewrite andb_true_r. apply Nat.leb_le. lia.
Qed.

(** In replicate mode the convolution reads the padded tensor inside its bounds. *)
Lemma rep_wpos dims : forall ks ss ps ds q kp,
  length ks = length dims -> length ss = length dims -> length ps = length dims -> length ds = length dims ->
  fits dims ks ps ds = true -> inr q (out_dims dims ks ss ps ds) -> inr kp ks ->
  inside (grow dims ps) (wpos q ss (zs ps) kp ds) = true /\
  clamps dims (subs (map Z.to_nat (wpos q ss (zs ps) kp ds)) ps) = clamps dims (wpos q ss ps kp ds).
Proof.
  induction dims as [|d dims IH]; intros [|k ks] [|s ss] [|p ps] [|dl ds] q kp H1 H2 H3 H4 Hf Hq Hk; try discriminate.
  - inversion Hq; subst. split; reflexivity.
  - cbn in Hq. inversion Hq as [|i n q' sh Hi Hq']; subst. inversion Hk as [|j m kp' ks' Hj Hk']; subst.
    cbn in Hf. apply andb_true_iff in Hf as [Hf1 Hf2]. apply Nat.leb_le in Hf1.
    destruct (IH ks ss ps ds q' kp') as [IA IB]; auto.
    assert (Hb : i * s + j * dl <= d + 2 * p - 1).
    { unfold out_dim in Hi. assert (i * s <= d + 2 * p - (dl * (k - 1) + 1)).
      { destruct s as [|s]; [lia|]. assert (Hi' : i <= (d + 2 * p - (dl * (k - 1) + 1)) / S s) by lia.
        apply (Nat.mul_le_mono_l _ _ (S s)) in Hi'. pose proof (Nat.mul_div_le (d + 2 * p - (dl * (k - 1) + 1)) (S s)). lia. }
      assert (j * dl <= dl * (k - 1)) by nia. lia. }
    change (zs (p :: ps)) with (0 :: zs ps). cbn [grow map wpos inside subs clamps]. split.
    + rewrite IA, andb_true_r. apply andb_true_iff. split; [apply Z.leb_le|apply Z.ltb_lt]; lia.
    + f_equal; [f_equal; lia|exact IB].
Qed.
End Indices.

Section Conv.
Context {K : Type} {SC : Scal K} {SL : ScalLaws K}.
Variables (B : nat) (sp : list nat) (c : tconv K).
Notation cin := (t_cin c). Notation cout := (t_cout c). Notation g := (t_g c).
Notation k := (t_k c). Notation ks := (t_ks c). Notation s := (t_s c). Notation ss := (t_ss c).
Notation p := (t_p c). Notation ps := (t_ps c). Notation ds := (t_ds c). Notation w := (t_w c).
Notation osp := (t_osp sp c).
Notation look := (look sp c). Notation tap_elem := (tap_elem B sp c). Notation tap_real := (tap_real B sp c). Notation tap := (tap B sp c). Notation t_cfg := (t_cfg B sp c).
Notation ish := (B :: cin :: sp). Notation osh := (B :: cout :: osp).

Hypothesis OK : tconv_ok B sp c.

Lemma t_cfg_ok : conv_ok t_cfg.
Proof. destruct OK. constructor; cbn; auto. Qed.

Lemma pos_size l : forallb (Nat.leb 1) l = true -> 1 <= size l.
Proof.
  induction l as [|n l IH]; cbn [forallb]; [cbn; lia|]. intros H. apply andb_true_iff in H as [H1 H2].
  apply Nat.leb_le in H1. specialize (IH H2). cbn. fold (size l). nia.
Qed.
Lemma ish_pos : 1 <= size ish.
Proof. destruct OK. cbn. fold (size sp). pose proof (pos_size sp tk_sp). nia. Qed.
Lemma real_nonempty (x : list K) : length x = size ish -> x <> [].
Proof. intros H ->. pose proof ish_pos. cbn [length] in H. lia. Qed.
Lemma tap_is x i : length x = size ish -> tap i x = tap_real i x.
Proof. intros H. pose proof (real_nonempty x H). destruct x; [congruence|reflexivity]. Qed.

(** Frames inside clips. *)
Lemma at_slice C T dims (x : list K) b ch t r : 0 <= t < T ->
  at_ (B :: C :: dims) (slice2 B C T dims x t) (b :: ch :: r) = at_ (B :: C :: T :: dims) x (b :: ch :: Z.of_nat t :: r).
Proof.
  intros Ht. unfold slice2. rewrite at_tab. destruct (inside (B :: C :: dims) (b :: ch :: r)) eqn:E.
  - pose proof (of_to _ _ E) as Hr. cbn [map] in *. injection Hr as H1 H2 H3. rewrite H1, H2, H3. reflexivity.
  - symmetry. apply at_out. cbn in *. 
    assert (Z.leb 0 (Z.of_nat t) && Z.ltb (Z.of_nat t) (Z.of_nat T) = true) as ->.
    { apply andb_true_iff. split; [apply Z.leb_le|apply Z.ltb_lt]; lia. }
    exact E.
Qed.
Lemma at_one C dims (x : list K) b ch t r :
  at_ (B :: C :: 1 :: dims) x (b :: ch :: t :: r) = if Z.eqb t 0 then at_ (B :: C :: dims) x (b :: ch :: r) else s0.
Proof.
  unfold at_. cbn [offset]. destruct (Z.eqb_spec t 0) as [->|N].
  - cbn. rewrite Nat.add_0_r. destruct (offset dims r); cbn; reflexivity.
  - assert (Z.leb 0 t && Z.ltb t (Z.of_nat 1) = false) as ->.
    { destruct (Z.leb_spec 0 t), (Z.ltb_spec t (Z.of_nat 1)); cbn in *; lia || reflexivity. }
    cbn. destruct (Z.leb 0 ch && Z.ltb ch (Z.of_nat C)); cbn; destruct (Z.leb 0 b && Z.ltb b (Z.of_nat B)); reflexivity.
Qed.
Lemma slice_len C T dims (x : list K) t : length (slice2 B C T dims x t) = size (B :: C :: dims).
Proof. apply tab_len. Qed.

Lemma ksum_single (f : nat -> K) n i0 : i0 < n -> (forall i, i < n -> i <> i0 -> f i = s0) -> ksum (map f (seq 0 n)) = f i0.
Proof.
  intros H Hz. replace n with (i0 + S (n - i0 - 1)) by lia. rewrite seq_app, map_app, ksum_app. cbn [Nat.add seq map].
  rewrite (ksum_zero f (seq 0 i0)) by (intros i Hi; apply in_seq in Hi; apply Hz; lia).
  cbn. fold (ksum (map f (seq (S i0) (n - i0 - 1)))).
  rewrite (ksum_zero f (seq (S i0) _)) by (intros i Hi; apply in_seq in Hi; apply Hz; lia).
  rewrite sadd_0_l, sadd_0_r. reflexivity.
Qed.


(** Element of the convolution of a clip, tap by tap. *)
Definition clip_tap (dims : list nat) (x : list K) (i : nat) (t : Z) (b o : nat) (pos : list nat -> list Z) : K :=
  ksum (tab (cin / g :: ks)
     (fun ik => match ik with
                | ch :: kp =>
                    smul (at_ (cout :: cin / g :: k :: ks) w (map Z.of_nat (o :: ch :: i :: kp)))
                         (at_ (B :: cin :: dims) x (Z.of_nat b :: Z.of_nat (o / (cout / g) * (cin / g) + ch) :: t :: pos kp))
                | _ => s0
                end)).
Lemma conv_elem_taps T dims st pt pp x b o j q :
  conv_elem B cin cout g (T :: dims) (k :: ks) (st :: ss) (pt :: pp) (1 :: ds) w x b o (j :: q) =
  ksum (map (fun i => clip_tap (T :: dims) x i (Z.of_nat (j * st) - Z.of_nat pt + Z.of_nat i) b o
                        (fun kp => wpos q ss pp kp ds)) (seq 0 k)).
Proof.
  unfold conv_elem. rewrite ksum_tab2. f_equal. apply map_ext. intros i. unfold clip_tap. apply ksum_tab_ext.
  intros ix Hx. inversion Hx as [|ch n kp r H1 H2]; subst. cbn [wpos map]. rewrite Nat.mul_1_r. reflexivity.
Qed.

Lemma clip_tap_ext dims x i t b o pos i' x' t' dims' pos' :
  i = i' -> (forall kp ch, inr kp ks -> at_ (B :: cin :: dims) x (Z.of_nat b :: ch :: t :: pos kp) =
     at_ (B :: cin :: dims') x' (Z.of_nat b :: ch :: t' :: pos' kp)) ->
  clip_tap dims x i t b o pos = clip_tap dims' x' i' t' b o pos'.
Proof.
  intros <- H. unfold clip_tap. apply ksum_tab_ext. intros ix Hx. inversion Hx as [|ch n kp r H1 H2]; subst. rewrite H by assumption. reflexivity.
Qed.
Lemma clip_tap_zero dims x i t b o pos :
  (forall kp ch, inr kp ks -> at_ (B :: cin :: dims) x (Z.of_nat b :: ch :: t :: pos kp) = s0) ->
  clip_tap dims x i t b o pos = s0.
Proof.
  intros H. unfold clip_tap. cbn [tab]. rewrite ksum_flat. apply ksum_zero. intros ch _.
  rewrite (tab_zero ks); [|intros kp Hk; rewrite H by assumption; apply smul_0_r].
  clear -SL. induction (size ks) as [|n IH]; [reflexivity|]. cbn. fold (ksum (repeat s0 n)). rewrite IH. apply sadd_0_l.
Qed.
Lemma tap_elem_clip dims x y i t b o q pos :
  (forall kp ch, inr kp ks -> at_ (B :: cin :: dims) x (Z.of_nat b :: ch :: t :: pos kp) =
     at_ ish y (Z.of_nat b :: ch :: look (wpos q ss ps kp ds))) ->
  clip_tap dims x i t b o pos = tap_elem i y b o q.
Proof.
  intros H. unfold clip_tap, tap_elem. apply ksum_tab_ext. intros ix Hx. inversion Hx as [|ch n kp r H1 H2]; subst. rewrite H by assumption. reflexivity.
Qed.

(** Reading the padded clip. *)
Lemma at_reppad T pt (x : list K) b ch t q kp : 1 <= T -> inr q osp -> inr kp ks -> (0 <= t < Z.of_nat (T + 2 * pt))%Z -> b < B ->
  at_ (B :: cin :: grow (T :: sp) (pt :: ps)) (reppad B cin (T :: sp) (pt :: ps) x)
    (Z.of_nat b :: ch :: t :: wpos q ss (zs ps) kp ds) =
  at_ (B :: cin :: T :: sp) x (Z.of_nat b :: ch :: clamp T (t - Z.of_nat pt) :: clamps sp (wpos q ss ps kp ds)).
Proof.
  intros HT Hq Hk Ht Hb. destruct OK.
  destruct (rep_wpos sp ks ss ps ds q kp) as [HA HB]; auto.
  unfold reppad. rewrite at_tab. cbn [grow inside]. rewrite HA.
  assert (Z.leb 0 t && Z.ltb t (Z.of_nat (T + 2 * pt)) = true) as ->.
  { apply andb_true_iff. split; [apply Z.leb_le|apply Z.ltb_lt]; lia. }
  assert (Z.leb 0 (Z.of_nat b) && Z.ltb (Z.of_nat b) (Z.of_nat B) = true) as ->.
  { apply andb_true_iff. split; [apply Z.leb_le|apply Z.ltb_lt]; lia. }
  destruct (Z.leb 0 ch && Z.ltb ch (Z.of_nat cin)) eqn:E; cbn [andb].
  - cbn [map subs clamps]. rewrite HB. apply andb_true_iff in E as [E1 _]. apply Z.leb_le in E1. rewrite !Z2Nat.id by lia. reflexivity.
  - symmetry. apply at_out. cbn. rewrite E. apply andb_false_r.
Qed.

(** The call made by forward_step: time position j of the result is tap k-1-j. *)
Lemma one_slices x : length x = size ish ->
  exists y, t_one B sp c x = Ok y /\ forall j, j < k -> slice2 B cout k osp y j = tap_real (k - 1 - j) x.
Proof.
  intros Hx. pose proof OK as OK'. destruct OK'. unfold t_one.
  assert (Ho : out_dim 1 k 1 (k - 1) 1 = k). { unfold out_dim. rewrite Nat.div_1_r. lia. }
  destruct (t_mode c) eqn:Em; [|clear tk_same|congruence].
  - unfold convnd. cbn [fits forallb]. rewrite tk_fits, tk_sp.
    assert (Nat.leb (1 * (k - 1) + 1) (1 + 2 * (k - 1)) = true) as -> by (apply Nat.leb_le; lia).
    cbn [andb Nat.leb]. eexists. split; [reflexivity|]. intros j Hj. cbn [out_dims]. rewrite Ho.
    unfold slice2, tap_real. apply tab_ext. intros ix Hix.
    destruct (inr2 _ _ _ _ Hix) as (b & o & q & -> & Hb & Hoo & Hq).
    rewrite at_tab_in by (repeat constructor; auto). cbn [bias_at]. rewrite sadd_0_l, conv_elem_taps.
    rewrite (ksum_single _ _ (k - 1 - j)).
    + apply tap_elem_clip. intros kp ch Hk. rewrite at_one.
      destruct (Z.eqb_spec (Z.of_nat (j * 1) - Z.of_nat (k - 1) + Z.of_nat (k - 1 - j)) 0); [|lia].
      unfold look. rewrite Em. reflexivity.
    + lia.
    + intros i Hi Ni. apply clip_tap_zero. intros. rewrite at_one.
      destruct (Z.eqb_spec (Z.of_nat (j * 1) - Z.of_nat (k - 1) + Z.of_nat i) 0); [lia|reflexivity].
  - rewrite tk_sp. unfold convnd. cbn [fits forallb grow]. rewrite grow_fits, grow_pos by auto. rewrite tk_fits.
    assert (Nat.leb (1 * (k - 1) + 1) (1 + 2 * 0 + 2 * (k - 1)) = true) as -> by (apply Nat.leb_le; lia).
    cbn [andb Nat.leb]. eexists. split; [reflexivity|]. intros j Hj. cbn [out_dims]. rewrite grow_zs by auto.
    change (1 + 2 * 0) with 1. rewrite Ho.
    unfold slice2, tap_real. apply tab_ext. intros ix Hix.
    destruct (inr2 _ _ _ _ Hix) as (b & o & q & -> & Hb & Hoo & Hq).
    rewrite at_tab_in by (repeat constructor; auto). cbn [bias_at]. rewrite sadd_0_l, conv_elem_taps.
    rewrite (ksum_single _ _ (k - 1 - j)).
    + apply tap_elem_clip. intros kp ch Hk.
      replace (Z.of_nat (j * 1) - Z.of_nat (k - 1) + Z.of_nat (k - 1 - j))%Z with 0%Z by lia.
      change (1 :: grow sp ps) with (grow (1 :: sp) (0 :: ps)). rewrite at_reppad; auto; [|cbn; lia].
      rewrite at_one. cbn. unfold look. rewrite Em. reflexivity.
    + lia.
    + intros i Hi Ni. apply clip_tap_zero. intros kp ch Hk. apply at_out. cbn [inside].
      assert (Z.leb 0 (Z.of_nat (j * 1) - Z.of_nat (k - 1) + Z.of_nat i) && Z.ltb (Z.of_nat (j * 1) - Z.of_nat (k - 1) + Z.of_nat i) (Z.of_nat 1) = false) as ->.
      { destruct (Z.leb_spec 0 (Z.of_nat (j * 1) - Z.of_nat (k - 1) + Z.of_nat i)), (Z.ltb_spec (Z.of_nat (j * 1) - Z.of_nat (k - 1) + Z.of_nat i) (Z.of_nat 1)); cbn; lia || reflexivity. }
      cbn. rewrite !andb_false_r. reflexivity.
Qed.

(** Sums of frames. *)
Lemma fsum_tab sh (e : nat -> list K) (f : nat -> list nat -> K) l :
  (forall i, In i l -> e i = tab sh (f i) \/ (e i = [] /\ forall ix, inr ix sh -> f i ix = s0)) ->
  (fsum (map e l) = tab sh (fun ix => ksum (map (fun i => f i ix) l))) \/
  (fsum (map e l) = [] /\ (forall i, In i l -> e i = []) /\ forall ix, inr ix sh -> ksum (map (fun i => f i ix) l) = s0).
Proof.
  induction l as [|i l IH]; intros H.
  - right. split; [reflexivity|]. split; [intros i []|reflexivity].
  - cbn [map fsum fold_right]. fold (fsum (map e l)). destruct IH as [E|(E & Hn & E0)]; [intros; apply H; right; assumption| |].
    + left. rewrite E. destruct (H i (or_introl eq_refl)) as [Ei|(Ei & E0)]; rewrite Ei; cbn [fadd tensor_frames].
      * rewrite zadd_tab. apply tab_ext. reflexivity.
      * cbn [zadd]. apply tab_ext. intros ix Hx. cbn. fold (ksum (map (fun i => f i ix) l)). rewrite E0 by exact Hx. rewrite sadd_0_l. reflexivity.
    + rewrite E. cbn [fadd tensor_frames]. rewrite zadd_nil_r. destruct (H i (or_introl eq_refl)) as [Ei|(Ei & E1)].
      * left. rewrite Ei. apply tab_ext. intros ix Hx. cbn. fold (ksum (map (fun i => f i ix) l)). rewrite E0 by exact Hx. rewrite sadd_0_r. reflexivity.
      * right. split; [exact Ei|]. split; [intros j [<-|Hj]; auto|]. intros ix Hx. cbn. fold (ksum (map (fun i => f i ix) l)). rewrite E0, E1 by exact Hx. apply sadd_0_l.
Qed.

Lemma nth_padded {A} (l : list A) a z n d m : m < n + length l + n ->
  nth m (repeat a n ++ l ++ repeat z n) d = if Nat.ltb m n then a else if Nat.ltb m (n + length l) then nth (m - n) l d else z.
Proof.
  intros H. destruct (Nat.ltb_spec m n).
  - rewrite app_nth1 by (rewrite repeat_length; lia). rewrite nth_indep with (d' := a) by (rewrite repeat_length; lia). apply nth_repeat.
  - rewrite app_nth2 by (rewrite repeat_length; lia). rewrite repeat_length. destruct (Nat.ltb_spec m (n + length l)).
    + rewrite app_nth1 by lia. reflexivity.
    + rewrite app_nth2 by lia. rewrite nth_indep with (d' := z) by (rewrite repeat_length; lia). apply nth_repeat.
Qed.
Lemma window_fits M st j kk : kk <= M -> j < (M - kk) / st + 1 -> j * st + kk <= M.
Proof.
  intros H Hj. destruct st as [|st]; [lia|]. assert (H1 : j <= (M - kk) / S st) by lia.
  apply (Nat.mul_le_mono_l _ _ (S st)) in H1. pose proof (Nat.mul_div_le (M - kk) (S st)). lia.
Qed.
Lemma nth_slices (C T : nat) (dims : list nat) (X : list K) i d : i < T ->
  nth i (map (slice2 B C T dims X) (seq 0 T)) d = slice2 B C T dims X i.
Proof.
  intros H. rewrite nth_indep with (d' := slice2 B C T dims X 0) by (rewrite map_length, seq_length; exact H).
  rewrite map_nth, seq_nth by exact H. reflexivity.
Qed.
Lemma tab_empty sh (f : list nat -> K) l : size sh = 0 -> l = [] -> tab sh f = l.
Proof. intros H ->. apply length_zero_iff_nil. rewrite tab_len. exact H. Qed.

(** Sum of the taps plus bias. *)
Lemma bias_tab (f : list nat -> K) :
  add_bias (option_map (t_bias B sp c) (t_b c)) (tab osh f) =
  tab osh (fun ix => match ix with _ :: o :: _ => sadd (bias_at (t_b c) o) (f ix) | _ => s0 end).
Proof.
  destruct (t_b c) as [v|]; cbn [option_map add_bias].
  - cbn [fadd tensor_frames]. unfold t_bias. rewrite zadd_tab. apply tab_ext. intros ix Hx.
    destruct (inr2 _ _ _ _ Hx) as (b & o & q & -> & Hb & Hoo & Hq). cbn [bias_at]. apply sadd_comm.
  - apply tab_ext. intros ix Hx.
    destruct (inr2 _ _ _ _ Hx) as (b & o & q & -> & Hb & Hoo & Hq). cbn [bias_at]. rewrite sadd_0_l. reflexivity.
Qed.

Lemma window_sum (e : nat -> list K) (f : nat -> list nat -> K) :
  (forall i, i < k -> e i = tab osh (f i) \/ (e i = [] /\ forall ix, inr ix osh -> f i ix = s0)) ->
  (exists i, i < k /\ e i = tab osh (f i)) ->
  add_bias (option_map (t_bias B sp c) (t_b c)) (fsum (map e (seq 0 k))) =
  tab osh (fun ix => match ix with _ :: o :: _ => sadd (bias_at (t_b c) o) (ksum (map (fun i => f i ix) (seq 0 k))) | _ => s0 end).
Proof.
  intros H (i & Hi & Ei). destruct (fsum_tab osh e f (seq 0 k)) as [E|(E & En & _)].
  - intros j Hj. apply in_seq in Hj. apply H. lia.
  - rewrite E. apply bias_tab.
  - rewrite E. rewrite En in Ei by (apply in_seq; lia).
    assert (Hs : size osh = 0) by (rewrite <- (tab_len osh (f i)), <- Ei; reflexivity).
    symmetry. apply tab_empty; [exact Hs|]. destruct (t_b c) as [v|]; [|reflexivity].
    cbn [option_map add_bias fadd tensor_frames zadd]. apply tab_empty; [exact Hs|reflexivity].
Qed.

(** torch's convolution of a whole clip is the abstract one. *)
Lemma forward_slices T X Y : t_forward B sp c T X = Ok Y ->
  let L := out_dim T k s p 1 in
  length Y = size (B :: cout :: L :: osp) /\
  conv_forward t_cfg (map (slice2 B cin T sp X) (seq 0 T)) = Ok (map (slice2 B cout L osp Y) (seq 0 L)).
Proof.
  intros HY L. pose proof OK as OK'. destruct OK'. unfold t_forward in HY.
  assert (HT : 1 <= T /\ k <= T + 2 * p).
  { destruct (t_mode c); [|destruct (forallb _ (T :: sp)) eqn:E; [|discriminate]|congruence].
    - unfold convnd in HY. destruct (fits _ _ _ _) eqn:Ef; [|discriminate]. destruct (forallb _ _) eqn:E; [|discriminate].
      cbn [forallb fits] in *. apply andb_true_iff in E as [E _]. apply andb_true_iff in Ef as [Ef _].
      apply Nat.leb_le in E, Ef. lia.
    - unfold convnd in HY. destruct (fits _ _ _ _) eqn:Ef; [|discriminate]. clear HY.
      cbn [forallb fits grow zs map] in *. apply andb_true_iff in E as [E _]. apply andb_true_iff in Ef as [Ef _].
      apply Nat.leb_le in E, Ef. lia. }
  destruct HT as [HT Hk].
  assert (HL : L = (T + 2 * p - k) / s + 1) by (unfold L, out_dim; do 2 f_equal; lia).
  assert (Hfr : exists x0 r, map (slice2 B cin T sp X) (seq 0 T) = x0 :: r).
  { destruct T; [lia|]. cbn. eauto. }
  destruct Hfr as (x0 & r & Hfr).
  set (fr := map (slice2 B cin T sp X) (seq 0 T)) in *.
  assert (Lfr : length fr = T) by (unfold fr; rewrite map_length, seq_length; reflexivity).
  assert (Hreal : forall t, length (slice2 B cin T sp X t) = size ish) by (intros; apply slice_len).
  unfold conv_forward. rewrite Hfr. rewrite <- Hfr. cbn [cmode t_cfg cp cW cb ck cs].
  destruct (t_mode c) eqn:Em; [|clear tk_same|congruence].
  - unfold convnd in HY. destruct (fits _ _ _ _) eqn:Ef; [|discriminate]. destruct (forallb _ _) eqn:Eb; [|discriminate].
    apply ok_inj in HY. cbn [out_dims] in HY. fold L in HY. fold osp in HY.
    split; [rewrite <- HY; apply tab_len|]. cbn [pad_time bind]. unfold xcorr.
    rewrite !app_length, !repeat_length, Lfr.
    destruct (Nat.ltb_spec (p + (T + p)) k); [lia|]. f_equal.
    replace (p + (T + p)) with (T + 2 * p) by lia. rewrite <- HL. apply map_ext_seq. intros j Hj.
    assert (Hw : j * s + k <= T + 2 * p) by (apply window_fits; lia).
    cbn [f0 tensor_frames].
    rewrite (window_sum _ (fun i ix => match ix with b :: o :: q =>
       clip_tap (T :: sp) X i (Z.of_nat (j * s) - Z.of_nat p + Z.of_nat i) b o (fun kp => wpos q ss ps kp ds) | _ => s0 end)).
    + rewrite <- HY. unfold slice2. apply tab_ext. intros ix Hix.
      destruct (inr2 _ _ _ _ Hix) as (b & o & q & -> & Hb & Hoo & Hq).
      symmetry. rewrite at_tab_in by (repeat constructor; auto; lia). rewrite conv_elem_taps. reflexivity.
    + intros i Hi. rewrite nth_padded by lia. rewrite Lfr. destruct (Nat.ltb_spec (j * s + i) p); [|destruct (Nat.ltb_spec (j * s + i) (p + T))].
      * right. split; [reflexivity|]. intros ix Hix. 
        destruct (inr2 _ _ _ _ Hix) as (b & o & q & -> & Hb & Hoo & Hq).
        apply clip_tap_zero. intros kp ch _. apply at_out. cbn [inside].
        destruct (Z.leb_spec 0 (Z.of_nat (j * s) - Z.of_nat p + Z.of_nat i)); [lia|]. cbn. rewrite !andb_false_r. reflexivity.
      * left. unfold fr. rewrite nth_slices by lia. rewrite tap_is by apply Hreal. unfold tap_real. apply tab_ext.
        intros ix Hix. destruct (inr2 _ _ _ _ Hix) as (b & o & q & -> & Hb & Hoo & Hq).
        symmetry. apply tap_elem_clip. intros kp ch _. rewrite at_slice by lia. unfold look. rewrite Em. do 3 f_equal. f_equal. lia.
      * right. split; [reflexivity|]. intros ix Hix. 
        destruct (inr2 _ _ _ _ Hix) as (b & o & q & -> & Hb & Hoo & Hq).
        apply clip_tap_zero. intros kp ch _. apply at_out. cbn [inside].
        destruct (Z.ltb_spec (Z.of_nat (j * s) - Z.of_nat p + Z.of_nat i) (Z.of_nat T)); [lia|]. cbn. rewrite !andb_false_r. reflexivity.
    + exists (if Nat.ltb (j * s) p then p - j * s else 0). split; [destruct (Nat.ltb_spec (j * s) p); lia|].
      set (i := if Nat.ltb (j * s) p then p - j * s else 0). assert (Hi : p <= j * s + i < p + T).
      { unfold i. destruct (Nat.ltb_spec (j * s) p); lia. }
      rewrite nth_padded by lia. rewrite Lfr. destruct (Nat.ltb_spec (j * s + i) p); [lia|]. destruct (Nat.ltb_spec (j * s + i) (p + T)); [|lia].
      unfold fr. rewrite nth_slices by lia. rewrite tap_is by apply Hreal. unfold tap_real. apply tab_ext.
      intros ix Hix. destruct (inr2 _ _ _ _ Hix) as (b & o & q & -> & Hb & Hoo & Hq).
      symmetry. apply tap_elem_clip. intros kp ch _. rewrite at_slice by lia. unfold look. rewrite Em. do 3 f_equal. f_equal. lia.
  - destruct (forallb _ (T :: sp)) eqn:Eb; [|discriminate].
    unfold convnd in HY. destruct (fits _ _ _ _) eqn:Ef; [|discriminate]. destruct (forallb _ (grow _ _)) eqn:Eb2; [|discriminate].
    apply ok_inj in HY. rewrite grow_zs in HY by (cbn; congruence). cbn [out_dims] in HY. fold L in HY. fold osp in HY.
    split; [rewrite <- HY; apply tab_len|]. unfold pad_time. rewrite Hfr. rewrite <- Hfr at 1. cbn [bind]. unfold xcorr.
    rewrite !app_length, !repeat_length, Lfr.
    destruct (Nat.ltb_spec (p + (T + p)) k); [lia|]. f_equal.
    replace (p + (T + p)) with (T + 2 * p) by lia. rewrite <- HL. apply map_ext_seq. intros j Hj.
    assert (Hw : j * s + k <= T + 2 * p) by (apply window_fits; lia).
    assert (Hx0 : x0 = slice2 B cin T sp X 0). { change x0 with (nth 0 (x0 :: r) []). rewrite <- Hfr. unfold fr. apply nth_slices. lia. }
    assert (Hxl : last (x0 :: r) x0 = slice2 B cin T sp X (T - 1)).
    { rewrite <- Hfr. unfold fr. replace T with (S (T - 1)) at 2 by lia. rewrite seq_S, map_app. cbn [map]. rewrite last_last. reflexivity. }
    rewrite Hxl. clear Hxl. rewrite Hx0.
    assert (Hn : forall i, i < k -> nth (j * s + i) (repeat (slice2 B cin T sp X 0) p ++ fr ++ repeat (slice2 B cin T sp X (T - 1)) p) f0
       = slice2 B cin T sp X (Z.to_nat (clamp T (Z.of_nat (j * s + i) - Z.of_nat p)))).
    { intros i Hi. rewrite nth_padded by lia. rewrite Lfr. unfold clamp.
      destruct (Nat.ltb_spec (j * s + i) p); [f_equal; lia|destruct (Nat.ltb_spec (j * s + i) (p + T)); [|f_equal; lia]].
      unfold fr. rewrite nth_slices by lia. f_equal. lia. }
    assert (He : forall i, i < k -> tap i (nth (j * s + i) (repeat (slice2 B cin T sp X 0) p ++ fr ++ repeat (slice2 B cin T sp X (T - 1)) p) f0)
       = tab osh (fun ix => match ix with b :: o :: q =>
       clip_tap (grow (T :: sp) (p :: ps)) (reppad B cin (T :: sp) (p :: ps) X) i (Z.of_nat (j * s) - Z.of_nat 0 + Z.of_nat i) b o (fun kp => wpos q ss (zs ps) kp ds) | _ => s0 end)).
    { intros i Hi. rewrite Hn by exact Hi. rewrite tap_is by apply Hreal. unfold tap_real. apply tab_ext.
      intros ix Hix. destruct (inr2 _ _ _ _ Hix) as (b & o & q & -> & Hb & Hoo & Hq).
      symmetry. apply tap_elem_clip. intros kp ch Hkp. rewrite at_reppad; auto; [|lia].
      rewrite at_slice by (unfold clamp; lia). unfold look. rewrite Em. do 3 f_equal. f_equal. unfold clamp. lia. }
    rewrite (window_sum _ (fun i ix => match ix with b :: o :: q =>
       clip_tap (grow (T :: sp) (p :: ps)) (reppad B cin (T :: sp) (p :: ps) X) i (Z.of_nat (j * s) - Z.of_nat 0 + Z.of_nat i) b o (fun kp => wpos q ss (zs ps) kp ds) | _ => s0 end)).
    + rewrite <- HY. unfold slice2. apply tab_ext. intros ix Hix.
      destruct (inr2 _ _ _ _ Hix) as (b & o & q & -> & Hb & Hoo & Hq).
      symmetry. rewrite at_tab_in by (repeat constructor; auto; lia). cbn [grow]. change (zs (p :: ps)) with (0 :: zs ps). rewrite conv_elem_taps. reflexivity.
    + intros i Hi. left. apply He. exact Hi.
    + exists 0. split; [lia|]. apply He. lia.
Qed.


Lemma forward_total T X : 1 <= T -> k <= T + 2 * p -> exists Y, t_forward B sp c T X = Ok Y.
Proof.
  intros HT Hk. pose proof OK as OK'. destruct OK'. unfold t_forward. destruct (t_mode c); [|clear tk_same|congruence].
  - unfold convnd. cbn [fits forallb]. rewrite tk_fits, tk_sp.
    assert (Nat.leb (1 * (k - 1) + 1) (T + 2 * p) = true) as -> by (apply Nat.leb_le; lia).
    assert (Nat.leb 1 T = true) as -> by (apply Nat.leb_le; lia). cbn [andb]. eauto.
  - cbn [forallb]. rewrite tk_sp. assert (Nat.leb 1 T = true) as -> by (apply Nat.leb_le; lia). cbn [andb].
    unfold convnd. rewrite grow_fits by (cbn; congruence). rewrite grow_pos.
    + cbn [fits]. rewrite tk_fits. assert (Nat.leb (1 * (k - 1) + 1) (T + 2 * p) = true) as -> by (apply Nat.leb_le; lia). cbn [andb]. eauto.
    + cbn [forallb]. rewrite tk_sp, andb_true_r. apply Nat.leb_le. lia.
Qed.

(* ------------------------------------------------------------------ *)
(** ** Simulation: the empty list of the abstract side is a zero tensor *)

Definition Rz (n : nat) (a b : list K) : Prop := length b = n /\ (a = b \/ (a = [] /\ b = repeat s0 n)).
Notation Ni := (size ish). Notation No := (size osh).

Lemma rz_refl n a : length a = n -> Rz n a a.
Proof. intros H. split; auto. Qed.
Lemma rz_nil n : Rz n [] (repeat s0 n).
Proof. split; [apply repeat_length|auto]. Qed.
Lemma rz_eq n a b : Rz n a b -> length a = n -> a = b.
Proof. intros (H & [->|(-> & ->)]) L; [reflexivity|]. cbn in L. subst. reflexivity. Qed.
Lemma rz_add n a a' b b' : Rz n a a' -> Rz n b b' -> Rz n (zadd a b) (zadd a' b').
Proof.
  intros (La & [->|(-> & ->)]) (Lb & [->|(-> & ->)]).
  - apply rz_refl. rewrite zadd_len; congruence.
  - rewrite zadd_nil_r, zadd_zeros by exact La. apply rz_refl. exact La.
  - rewrite (zadd_comm (repeat _ _)), zadd_zeros by exact Lb. apply rz_refl. exact Lb.
  - rewrite zadd_zeros by apply repeat_length. apply rz_nil.
Qed.
Lemma rz_sum n l l' z : Forall2 (Rz n) l l' -> length z = n -> Rz n (fsum l) (fold_right zadd (zlike z) l').
Proof.
  intros H Hz. induction H as [|a b l l' Hab _ IH]; cbn.
  - rewrite zlike_repeat, Hz. apply rz_nil.
  - apply rz_add; assumption.
Qed.
Lemma tap_real_len i x : length (tap_real i x) = No.
Proof. apply tab_len. Qed.
Lemma tap_rel i x x' : Rz Ni x x' -> Rz No (tap i x) (tap_real i x').
Proof.
  intros (L & [->|(-> & ->)]).
  - rewrite tap_is by exact L. apply rz_refl, tap_real_len.
  - cbn [tap]. unfold tap_real. rewrite tab_zero; [apply rz_nil|]. intros ix Hix.
    destruct (inr2 _ _ _ _ Hix) as (b & o & q & -> & Hb & Hoo & Hq).
    unfold tap_elem. cbn [tab]. rewrite ksum_flat. apply ksum_zero. intros ch _.
    rewrite (tab_zero ks); [|intros kp Hk; rewrite at_zeros; apply smul_0_r].
    clear -SL. induction (size ks) as [|n IH]; [reflexivity|]. cbn. fold (ksum (repeat (@s0 K SC) n)). rewrite IH. apply sadd_0_l.
Qed.
Lemma bias_rel y y' : Rz No y y' ->
  Rz No (add_bias (cb t_cfg) y) (match t_b c with Some v => zadd y' (t_bias B sp c v) | None => y' end).
Proof.
  intros H. cbn [cb t_cfg]. destruct (t_b c); cbn [option_map add_bias]; [|exact H].
  apply rz_add; [exact H|]. apply rz_refl. apply tab_len.
Qed.

Lemma slice_one x : length x = Ni -> slice2 B cin 1 sp x 0 = x.
Proof.
  intros H. unfold slice2. transitivity (tab ish (fun ix => at_ ish x (map Z.of_nat ix))); [|apply tab_at; exact H].
  apply tab_ext. intros ix Hix. destruct (inr2 _ _ _ _ Hix) as (b & o & q & -> & Hb & Hoo & Hq).
  cbn [map]. rewrite at_one. reflexivity.
Qed.

Lemma stateless_abs x : t_stateless c = true -> conv_forward t_cfg [x] = Ok [add_bias (cb t_cfg) (tap 0 x)].
Proof.
  unfold t_stateless. intros H. apply andb_true_iff in H as [H H3]. apply andb_true_iff in H as [H1 H2].
  apply Nat.eqb_eq in H1, H2, H3. unfold conv_forward, pad_time. cbn [cmode cp ck cs cW cb t_cfg]. rewrite H1, H2, H3.
  destruct OK. destruct (t_mode c); [| |congruence]; cbn [repeat app bind]; unfold xcorr; cbn -[tap add_bias]; rewrite zadd_nil_r; reflexivity.
Qed.

Lemma fstep_rel x x' st st' : Rz Ni x x' -> rel_opt (rel_obj (Forall2 (Rz No))) st st' ->
  rel_res (rel_pair (rel_opt (Rz No)) (rel_opt (rel_obj (Forall2 (Rz No))))) (conv_fstep t_cfg x st) (t_fstep B sp c x' st').
Proof.
  intros Hx Hst. unfold conv_fstep, t_fstep.
  change (conv_stateless t_cfg) with (t_stateless c). destruct (t_stateless c) eqn:Es.
  - rewrite stateless_abs by exact Es. 
    pose proof Es as Es'. unfold t_stateless in Es'. apply andb_true_iff in Es' as [H H3]. apply andb_true_iff in H as [H1 H2].
    apply Nat.eqb_eq in H1, H2, H3.
    destruct (forward_total 1 x') as [Y HY]; [lia|lia|]. rewrite HY. cbn [bind].
    destruct (forward_slices 1 x' Y HY) as [LY HF]. assert (EL : out_dim 1 k s p 1 = 1) by (rewrite H1, H2, H3; reflexivity).
    rewrite EL in LY, HF. cbn [seq map] in HF.
    rewrite slice_one in HF by apply Hx. rewrite stateless_abs in HF by exact Es. apply ok_inj in HF. apply (f_equal (hd [])) in HF. cbn [hd] in HF.
    cbn [bind getz Z.ltb Z.compare Z.to_nat nth_error]. constructor. split; [|exact Hst]. cbn [fst]. constructor. rewrite <- HF.
    destruct Hx as (Lx & Hx). rewrite (tap_is x') by exact Lx.
    cbn [cb t_cfg]. destruct (t_b c) as [v|]; cbn [option_map add_bias].
    + apply rz_add; [apply tap_rel; split; assumption|apply rz_refl, tab_len].
    + apply tap_rel. split; assumption.
  - destruct (one_slices x') as (y & Hy & Hsl); [apply Hx|]. rewrite Hy. cbn [bind pad_time].
    change (ck t_cfg) with k. 
    pose proof (xcorr_frame t_cfg x t_cfg_ok) as HX. change (ck t_cfg) with k in HX. rewrite HX. clear HX.
    cbn [bind getz Z.ltb Z.compare Z.to_nat nth_error]. cbn [skipn].
    pose proof OK as OK'. destruct OK'.
    rewrite Hsl by lia. rewrite Nat.sub_0_r.
    assert (Hrest : Forall2 (Rz No) (row_of t_cfg x) (map (slice2 B cout k osp y) (seq 1 (k - 1)))).
    { unfold row_of. rewrite <- seq_shift, map_map. change (ck t_cfg) with k.
      assert (G : forall n a, a + n <= k - 1 -> Forall2 (Rz No) (map (fun j => cW t_cfg (k - 2 - j) x) (seq a n)) (map (fun j => slice2 B cout k osp y (S j)) (seq a n))).
      { induction n as [|n IH]; intros a Ha; cbn [seq map]; constructor; [|apply IH; lia].
        rewrite Hsl by lia. replace (k - 1 - S a) with (k - 2 - a) by lia. apply tap_rel. exact Hx. }
      apply G. lia. }
    set (rest := row_of t_cfg x) in *. set (rest' := map (slice2 B cout k osp y) (seq 1 (k - 1))) in *.
    cbv zeta.
    set (o := match st with Some s => s | None => conv_init t_cfg rest end).
    set (o' := match st' with Some s => s | None => t_init c rest' end).
    assert (Ho : rel_obj (Forall2 (Rz No)) o o').
    { unfold o, o'. destruct Hst; [assumption|]. unfold conv_init, t_init. change (ck t_cfg) with k. repeat split; cbn [o_buf o_idx o_str].
      - apply r_repeat. apply (r_map (Rz No)) with (1 := Hrest). intros a b Hab. unfold make_padding, t_pad. cbn [cfill t_cfg].
        destruct (t_fill c); [|exact Hab|congruence]. rewrite zlike_repeat. destruct Hab as (-> & _). apply rz_nil.
      - rewrite !repeat_length. reflexivity. }
    destruct Ho as (Hb & Hi & Hs). rewrite Hi, Hs. change (cs t_cfg) with s.
    assert (Hxo : Rz No (cW t_cfg (k - 1) x) (tap_real (k - 1) x')) by (apply tap_rel; exact Hx).
    apply (r_bind (Rz No)).
    + destruct (Z.eqb (o_str o') (Z.of_nat s - 1)); [|constructor; exact Hxo].
      eapply (r_bind (Forall2 (Rz No))).
      * unfold conv_gather, t_gather. apply r_mapM. intros m.
        eapply r_bind; [eapply r_getz; exact Hb|]. intros a b Hab. eapply r_getz. exact Hab.
      * intros gl gl' Hg. constructor. apply bias_rel. apply rz_add; [exact Hxo|]. apply rz_sum; [exact Hg|]. apply tap_real_len.
    + intros out out' Hout. apply (r_bindp (Forall2 (Forall2 (Rz No))) eq).
      * destruct (Nat.ltb 1 k).
        -- eapply r_bind; [apply r_setz; [exact Hb|exact Hrest]|]. intros. constructor. split; auto.
        -- constructor. split; auto.
      * intros nb nb' ni ni' Hnb ->. constructor. split; [cbn; destruct (Z.eqb (o_str o') (Z.of_nat s - 1)); constructor; auto|].
        cbn. constructor. repeat split. exact Hnb.
Qed.

End Conv.

(* ------------------------------------------------------------------ *)
(** ** The generic loop, with different relations for inputs and outputs *)

Section Co2.
Context {F G O O' S S' : Type} (RI RU : F -> G -> Prop) (RO : O -> O' -> Prop) (RS : S -> S' -> Prop).
Variable get : O -> option S. Variable get' : O' -> option S'.
Variable set : O -> S -> O. Variable set' : O' -> S' -> O'.
Variable fs : F -> option S -> res (option F * option S). Variable fs' : G -> option S' -> res (option G * option S').
Variable mk : F -> F. Variable mk' : G -> G.
Hypothesis Hget : forall o o', RO o o' -> rel_opt RS (get o) (get' o').
Hypothesis Hset : forall o o' s s', RO o o' -> RS s s' -> RO (set o s) (set' o' s').
Hypothesis Hfs : forall x y s s', RI x y -> rel_opt RS s s' -> rel_res (rel_pair (rel_opt RU) (rel_opt RS)) (fs x s) (fs' y s').
Hypothesis Hmk : forall x y, RI x y -> RI (mk x) (mk' y).

Lemma s_co_step o o' x y upd : RO o o' -> RI x y ->
  rel_res (rel_pair (rel_opt RU) RO) (co_forward_step get set fs o x upd) (co_forward_step get' set' fs' o' y upd).
Proof.
  intros Ho Hx. unfold co_forward_step. eapply r_bindp; [apply Hfs; auto|].
  intros a b s s' Ha Hs. constructor. split; [auto|]. simpl. destruct Hs; [|auto]. destruct upd; auto.
Qed.
Lemma s_feed xs ys o o' : Forall2 RI xs ys -> RO o o' ->
  rel_res (rel_pair (Forall2 (rel_opt RU)) RO) (feed (fun o x => co_forward_step get set fs o x true) o xs)
    (feed (fun o x => co_forward_step get' set' fs' o x true) o' ys).
Proof.
  intros H. revert o o'. induction H as [|x y xs ys Hx H IH]; intros o o' Ho; simpl; [constructor; split; [constructor|auto]|].
  eapply r_bindp; [apply s_co_step; auto|]. intros a b s1 s1' Ha Hs1. eapply r_bindp; [apply IH; auto|].
  intros l l' s2 s2' Hl Hs2. constructor. split; [|auto]. simpl. auto.
Qed.
Lemma s_co_loop xs ys s s' : Forall2 RI xs ys -> rel_opt RS s s' ->
  rel_res (rel_pair (Forall2 RU) (rel_opt RS)) (co_loop fs xs s) (co_loop fs' ys s').
Proof.
  intros H. revert s s'. induction H as [|x y xs ys Hx H IH]; intros s s' Hs; simpl; [constructor; split; [constructor|auto]|].
  eapply r_bindp; [apply Hfs; auto|]. intros a b s1 s1' Ha Hs1. eapply r_bindp; [apply IH; auto|].
  intros l l' s2 s2' Hl Hs2. constructor. split; [|auto]. simpl. destruct Ha; auto.
Qed.
Lemma s_end_frames p xs ys : Forall2 RI xs ys -> rel_res (Forall2 RI) (end_frames mk p xs) (end_frames mk' p ys).
Proof.
  intros H. unfold end_frames. destruct p; [repeat constructor|]. destruct H as [|x y l l' Hx Hl]; constructor.
  apply r_repeat, Hmk. now apply (r_last RI (x :: l) (y :: l')); auto.
Qed.
Lemma s_co_steps p o o' xs ys pe upd : RO o o' -> Forall2 RI xs ys ->
  rel_res (rel_pair (rel_opt (Forall2 RU)) RO) (co_forward_steps get set fs mk p o xs pe upd) (co_forward_steps get' set' fs' mk' p o' ys pe upd).
Proof.
  intros Ho Hx. unfold co_forward_steps. eapply r_bindp; [apply s_co_loop; auto|].
  intros l l' s s' Hl Hs. cbv zeta.
  set (o1 := match s with Some s0 => if upd then set o s0 else o | None => o end).
  set (o1' := match s' with Some s0 => if upd then set' o' s0 else o' | None => o' end).
  assert (Ho1 : RO o1 o1') by (unfold o1, o1'; destruct Hs; [destruct upd|]; auto).
  apply (r_bind (Forall2 RU)).
  - destruct pe; [|repeat constructor]. eapply r_bind; [apply s_end_frames; eauto|]. intros e e' He.
    eapply r_bindp; [apply s_co_loop; [exact He|]; destruct (Hget o1 o1' Ho1); [constructor; auto|exact Hs]|].
    intros k k' _ _ Hk _. constructor. exact Hk.
  - intros k k' Hk. constructor. split; [|auto]. apply r_stack. now apply r_app.
Qed.
End Co2.

(* ------------------------------------------------------------------ *)
(** ** The theorems *)

Section Thm.
Context {K : Type} {SC : Scal K} {SL : ScalLaws K}.

Lemma stack_slices B C L dims (Y : list K) : length Y = size (B :: C :: L :: dims) ->
  stack2 B C dims (map (slice2 B C L dims Y) (seq 0 L)) = Y.
Proof.
  intros H. unfold stack2. rewrite map_length, seq_length.
  transitivity (tab (B :: C :: L :: dims) (fun ix => at_ (B :: C :: L :: dims) Y (map Z.of_nat ix))); [|apply tab_at; exact H]. apply tab_ext. intros ix Hix.
  destruct (inr2 _ _ _ _ Hix) as (b & o & q & -> & Hb & Ho & Hq). inversion Hq as [|t x q' y Ht Hq']; subst.
  rewrite nth_slices by exact Ht. cbn [map]. rewrite at_slice by lia. reflexivity.
Qed.
Lemma slices_split B C T dims (X : list K) n : n <= T ->
  map (slice2 B C T dims X) (seq 0 n) ++ map (slice2 B C T dims X) (seq n (T - n)) = map (slice2 B C T dims X) (seq 0 T).
Proof. intros H. rewrite <- map_app, <- seq_app. do 2 f_equal. lia. Qed.

Lemma rz_refls n (l : list (list K)) : Forall (fun x => length x = n) l -> Forall2 (Rz n) l l.
Proof. induction 1; constructor; auto using rz_refl. Qed.
Lemma slices_len B C T dims (X : list K) l : Forall (fun x => length x = size (B :: C :: dims)) (map (slice2 B C T dims X) l).
Proof. induction l; constructor; auto. apply slice_len. Qed.
Lemma rz_eqs n (l l' : list (list K)) : Forall2 (Rz n) l l' -> Forall (fun x => length x = n) l -> l = l'.
Proof. induction 1 as [|a b l l' H _ IH]; intros HF; [reflexivity|]. inversion HF; subst. f_equal; [eapply rz_eq; eauto|auto]. Qed.
Lemma rz_eqso n (l l' : list (option (list K))) : Forall2 (rel_opt (Rz n)) l l' -> Forall (fun x => length x = n) (somes l) -> l = l'.
Proof.
  induction 1 as [|a b l l' H _ IH]; intros HF; [reflexivity|]. destruct H as [a b H|]; cbn in HF.
  - inversion HF; subst. f_equal; [f_equal; eapply rz_eq; eauto|auto].
  - f_equal. auto.
Qed.

Variables (B : nat) (sp : list nat) (c : tconv K).
Hypothesis OK : tconv_ok B sp c.
Notation osp := (t_osp sp c).
Notation Ni := (size (B :: t_cin c :: sp)). Notation No := (size (B :: t_cout c :: osp)).
Notation RO := (rel_obj (Forall2 (Rz No))).

Lemma get_rel (o o' : obj (list (list K))) : RO o o' -> rel_opt RO (obj_get o) (obj_get o').
Proof. apply r_obj_get. Qed.
Lemma pad_rel x y : Rz Ni x y -> Rz Ni (make_padding (t_fill c) x) (t_pad c y).
Proof.
  intros H. unfold make_padding, t_pad. pose proof (tk_fill B sp c OK). destruct (t_fill c); [|exact H|congruence].
  rewrite zlike_repeat. destruct H as (-> & _). apply rz_nil.
Qed.
Lemma feed_rel xs ys o o' : Forall2 (Rz Ni) xs ys -> RO o o' ->
  rel_res (rel_pair (Forall2 (rel_opt (Rz No))) RO) (feed (fun o x => conv_forward_step (t_cfg B sp c) o x true) o xs)
    (feed (fun o x => t_forward_step B sp c o x true) o' ys).
Proof.
  intros. apply (s_feed (Rz Ni) (Rz No) RO RO); auto.
  - apply get_rel.
  - intros. apply fstep_rel; assumption.
Qed.
Lemma steps_rel o o' xs ys pe upd : Forall2 (Rz Ni) xs ys -> RO o o' ->
  rel_res (rel_pair (rel_opt (Forall2 (Rz No))) RO) (conv_forward_steps (t_cfg B sp c) o xs pe upd) (t_forward_steps B sp c o' ys pe upd).
Proof.
  intros. apply (s_co_steps (Rz Ni) (Rz No) RO RO); auto.
  - apply get_rel.
  - intros. apply fstep_rel; assumption.
  - apply pad_rel.
Qed.

Lemma tensor_step_thm T X Y n : t_forward B sp c T X = Ok Y -> n <= T ->
  let ys := map (slice2 B (t_cout c) (out_dim T (t_k c) (t_s c) (t_p c) 1) osp Y) (seq 0 (out_dim T (t_k c) (t_s c) (t_p c) 1)) in
  exists o,
    feed (fun o x => t_forward_step B sp c o x true) obj_init (map (slice2 B (t_cin c) T sp X) (seq 0 n))
    = Ok (map (scheduled (t_delay c) (t_s c) ys) (seq 0 n), o).
Proof.
  intros HY Hn ys. destruct (forward_slices B sp c OK T X Y HY) as [LY HF].
  rewrite <- (slices_split B (t_cin c) T sp X n Hn) in HF.
  destruct (conv_step_thm _ _ _ _ (t_cfg_ok B sp c OK) HF) as (o & Ho).
  pose proof (feed_rel _ _ obj_init obj_init (rz_refls Ni _ (slices_len B (t_cin c) T sp X (seq 0 n))) (r_obj_init _)) as HR.
  rewrite Ho in HR. inversion HR as [a b Hab Ea Eb|]; subst. destruct b as [os' o']. destruct Hab as [Hos Ho']. cbn [fst snd] in *.
  exists o'. f_equal. f_equal. symmetry.
  rewrite map_length, seq_length in Hos. apply (rz_eqso No); [exact Hos|].
  fold ys. clear. assert (HL : Forall (fun x => length x = No) ys) by apply slices_len.
  change (conv_delay (t_cfg B sp c)) with (t_delay c). change (cs (t_cfg B sp c)) with (t_s c). fold ys.
  generalize (seq 0 n). intros l. induction l as [|i l IH]; [constructor|]. cbn [map somes].
  unfold scheduled at 1. destruct (emits _ _ _); [|exact IH]. destruct (nth_error ys _) eqn:E; [|exact IH].
  constructor; [|exact IH]. rewrite Forall_forall in HL. apply HL. eapply nth_error_In; eauto.
Qed.

Lemma tensor_pad_end_frames T X Y n : t_forward B sp c T X = Ok Y -> n < T ->
  exists os o1 o2 rest,
    feed (fun o x => t_forward_step B sp c o x true) obj_init (map (slice2 B (t_cin c) T sp X) (seq 0 n)) = Ok (os, o1) /\
    t_forward_steps B sp c o1 (map (slice2 B (t_cin c) T sp X) (seq n (T - n))) true true = Ok (stack_outs rest, o2) /\
    somes os ++ rest = out_frames B sp c T Y.
Proof.
  intros HY Hn. destruct (forward_slices B sp c OK T X Y HY) as [LY HF].
  rewrite <- (slices_split B (t_cin c) T sp X n) in HF by lia.
  assert (Hne : map (slice2 B (t_cin c) T sp X) (seq n (T - n)) <> []) by (destruct (T - n) eqn:E; [lia|discriminate]).
  destruct (conv_pad_end_thm _ _ _ _ (t_cfg_ok B sp c OK) Hne HF) as (os & o1 & o2 & rest & H1 & H2 & H3).
  assert (HL : Forall (fun x => length x = No) (somes os ++ rest)) by (rewrite H3; apply slices_len).
  apply Forall_app in HL as [HL1 HL2].
  pose proof (feed_rel _ _ obj_init obj_init (rz_refls Ni _ (slices_len B (t_cin c) T sp X (seq 0 n))) (r_obj_init _)) as HR.
  rewrite H1 in HR. inversion HR as [a b Hab Ea Eb|]; subst. destruct b as [os' o1']. destruct Hab as [Hos Ho']. cbn [fst snd] in *.
  apply rz_eqso in Hos; [|exact HL1]. subst os'.
  pose proof (steps_rel o1 o1' _ _ true true (rz_refls Ni _ (slices_len B (t_cin c) T sp X (seq n (T - n)))) Ho') as HS.
  rewrite H2 in HS. inversion HS as [a b Hab Ea Ec|]; subst. destruct b as [r' o2']. destruct Hab as [Hr Ho2]. cbn [fst snd] in *.
  exists os, o1', o2', rest. split; [reflexivity|]. split.
  - rewrite <- Ec. f_equal. f_equal. destruct rest as [|x rest]; cbn [stack_outs] in *.
    + inversion Hr. reflexivity.
    + inversion Hr as [a b Hab|]; subst. f_equal. symmetry. eapply rz_eqs; eauto.
  - exact H3.
Qed.

Lemma tensor_pad_end_thm T X Y n : t_forward B sp c T X = Ok Y -> n < T ->
  exists os o1 o2 rest,
    feed (fun o x => t_forward_step B sp c o x true) obj_init (map (slice2 B (t_cin c) T sp X) (seq 0 n)) = Ok (os, o1) /\
    t_forward_steps B sp c o1 (map (slice2 B (t_cin c) T sp X) (seq n (T - n))) true true = Ok (stack_outs rest, o2) /\
    stack2 B (t_cout c) osp (somes os ++ rest) = Y.
Proof.
  intros HY Hn. destruct (tensor_pad_end_frames T X Y n HY Hn) as (os & o1 & o2 & rest & H1 & H2 & H3).
  exists os, o1, o2, rest. split; [exact H1|]. split; [exact H2|]. rewrite H3. apply stack_slices.
  apply (forward_slices B sp c OK T X Y HY).
Qed.

Lemma forward_shape T X : 1 <= T -> t_k c <= T + 2 * t_p c ->
  exists Y, t_forward B sp c T X = Ok Y /\
    length Y = size (B :: t_cout c :: out_dims (T :: sp) (t_k c :: t_ks c) (t_s c :: t_ss c) (t_p c :: t_ps c) (1 :: t_ds c)).
Proof.
  intros HT Hk. destruct (forward_total B sp c OK T X HT Hk) as [Y HY]. exists Y. split; [exact HY|].
  apply (forward_slices B sp c OK T X Y HY).
Qed.
Lemma is_leaf : conv_ok (t_cfg B sp c) /\
  forall T X Y, t_forward B sp c T X = Ok Y ->
    conv_forward (t_cfg B sp c) (in_frames B sp c T X (seq 0 T)) = Ok (out_frames B sp c T Y).
Proof. split; [exact (t_cfg_ok B sp c OK)|]. intros T X Y HY. apply (forward_slices B sp c OK T X Y HY). Qed.
End Thm.
