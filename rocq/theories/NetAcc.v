(** Networks: which clips [forward] accepts, and which frames an output depends
    on. *)
From Coq Require Import List ZArith Bool Arith Lia ZifyBool ZifyNat.
From Verif Require Import Base Frames CoMod Leaf Rnn Net Spec LeafSpec Ring LeafProof LeafMore NetSpec NetOk Calls NetDef NetCore NetFwd NetPad.
Import ListNotations.
Ltac Zify.zify_post_hook ::= Z.div_mod_to_equations.

Section NetAcc.
Context {F : Type} {FA : Frames F} {FL : FrameLaws F}.
Implicit Types m : md F.
Implicit Types ms : list (md F).
Implicit Types xs zs : list F.

(* ------------------------------------------------------------------ *)
(** ** Acceptance and output length depend on the input length only *)

Lemma len_nil (A B : Type) (l : list A) (k : list B) : length l = length k -> l <> [] -> k <> [].
Proof. destruct l, k; simpl; congruence. Qed.

Lemma torch_rnn_len c xs ys h : xs <> [] -> torch_rnn c xs None = Ok (ys, h) -> length ys = length xs.
Proof.
  intros Hx E. destruct (steps_good (MRnn c None) I xs Hx) as (os & m' & E1 & E2 & _).
  cbn [steps] in E2. unfold rnn_forward_steps in E2. rewrite E in E2. cbn [bind of_clip] in E2.
  destruct (feed_len (MRnn c None) xs os m' I E1) as (L1 & L2 & _). cbn [ph per] in L2.
  assert (Ey : ys = somes os) by (destruct (somes os); simpl in E2; congruence).
  rewrite Ey, L2. unfold cnt. destruct xs; [congruence|]. cbn [length]. 
  replace (S (length xs) <=? 0) with false by lia. rewrite Nat.div_1_r. lia.
Qed.

Lemma delay_forward_len d s xs xs' : length xs = length xs' -> length (delay_forward d s xs) = length (delay_forward (F:=F) d s xs').
Proof.
  intros H. unfold delay_forward, slice_ab. 
  destruct s, (d =? 0); rewrite ?skipn_length, ?firstn_length, ?H; auto; lia.
Qed.

Theorem core_shape sh m : core sh m -> forall xs xs' ys, length xs = length xs' -> nfwd m xs = Ok ys ->
  exists ys', nfwd m xs' = Ok ys' /\ length ys = length ys'.
Proof.
  induction 1 as [c H|c H Hp|d f s Hs|n|g|c|ms Hms IH|m t r Hms IH Ht Hsy Hsl]; intros xs xs' ys L E.
  - unfold nfwd in *. cbn [fwd] in *. destruct (conv_forward c xs) as [y|] eqn:Ef; [|discriminate]. injection E as ->.
    destruct (conv_forward_inv _ _ _ H Ef) as (Hx & Hk & Ey).
    destruct (conv_forward_total c xs') as [y' E']; [eapply len_nil; eauto|lia|].
    rewrite E'. exists y'. split; [reflexivity|]. destruct (conv_forward_inv _ _ _ H E') as (_ & _ & Ey').
    rewrite Ey, Ey', !map_length, !seq_length, L. reflexivity.
  - unfold nfwd in *. cbn [fwd] in *. destruct (pool_forward c xs) as [y|] eqn:Ef; [|discriminate]. injection E as ->.
    destruct (pool_forward_inv _ _ _ H Ef) as (Hx & Hk & Ey).
    destruct (pool_forward_total c xs') as [y' E']; [auto|eapply len_nil; eauto|lia|lia|].
    rewrite E'. exists y'. split; [reflexivity|]. destruct (pool_forward_inv _ _ _ H E') as (_ & _ & Ey').
    rewrite Ey, Ey', !map_length, !seq_length, L. reflexivity.
  - unfold nfwd in *. cbn [fwd bind] in *. injection E as <-. eexists. split; [reflexivity|]. now apply delay_forward_len.
  - unfold nfwd in *. cbn [fwd bind] in *. injection E as <-. eexists. split; [reflexivity|].
    unfold skip_forward. rewrite !skipn_length. lia.
  - unfold nfwd in *. cbn [fwd bind] in *. injection E as <-. eexists. split; [reflexivity|]. rewrite !map_length. auto.
  - assert (Hx : xs <> []) by (intros ->; discriminate). assert (Hx' : xs' <> []) by (eapply len_nil; eauto).
    unfold nfwd in *. cbn [fwd] in *. unfold rnn_forward in *. destruct xs as [|x xt]; [congruence|]. destruct xs' as [|x' xt']; [congruence|].
    destruct (torch_rnn c (x :: xt) None) as [[w h]|] eqn:E1; [|discriminate]. cbn [bind] in E. injection E as <-.
    destruct (steps_good (MRnn c None) I (x' :: xt')) as (os & m' & _ & E2 & _); [discriminate|].
    cbn [steps] in E2. unfold rnn_forward_steps in E2.
    destruct (torch_rnn c (x' :: xt') None) as [[w' h']|] eqn:E3; [|discriminate]. cbn [bind].
    exists w'. split; [reflexivity|]. rewrite (torch_rnn_len _ _ _ _ Hx E1), (torch_rnn_len _ _ _ _ Hx' E3). auto.
  - assert (Hc : Forall isclip ms) by (apply Forall_forall; intros; eapply core_isclip; eauto).
    clear Hms. revert xs xs' ys L E. induction ms as [|m t IHt]; intros xs xs' ys L E.
    + unfold nfwd in *. cbn [fwd seq_fwd bind] in *. injection E as <-. eauto.
    + inversion Hc; subst. apply seq_fwd_cons in E as (y & E1 & E2); auto.
      destruct (IH m (or_introl eq_refl) xs xs' y L E1) as (y' & E1' & L1).
      destruct (IHt (fun x Hx => IH x (or_intror Hx)) H2 y y' ys L1 E2) as (ys' & E2' & L2).
      exists ys'. split; auto. unfold nfwd in *. cbn [fwd seq_fwd].
      destruct (fwd m (VS xs')) as [v|] eqn:Ev; [|discriminate]. destruct (H1 xs' v Ev) as [w ->]. cbn [bind] in *.
      injection E1' as ->. exact E2'.
  - assert (Hc : Forall isclip (m :: t)) by (apply Forall_forall; intros; eapply core_isclip; eauto).
    apply br_fwd_inv in E as (zss & n & HF & -> & Hn); auto.
    assert (G : exists zss', Forall2 (fun m z => nfwd m xs' = Ok z) (m :: t) zss' /\ Forall (fun z => length z = n) zss').
    { clear -HF Hn IH L. revert IH. generalize dependent (m :: t). intros l HF. revert Hn.
      induction HF as [|a z l zl E HF IHF]; intros Hn IH; [exists []; split; constructor|].
      inversion Hn; subst. destruct (IHF H2) as (zl' & I1 & I2); [intros; eapply IH; eauto; right; auto|].
      destruct (IH a (or_introl eq_refl) xs xs' z L E) as (z' & E' & L'). exists (z' :: zl'). split; constructor; auto. }
    destruct G as (zss' & HF' & Hn'). exists (redz r zss'). pose proof (F2_length _ _ _ HF) as L1. pose proof (F2_length _ _ _ HF') as L2.
    assert (Hz : zss <> []) by (destruct zss; [discriminate|discriminate]).
    assert (Hz' : zss' <> []) by (destruct zss'; [discriminate|discriminate]).
    split.
    + unfold nfwd. cbn [fwd].
      assert (Eb : br_fwd fwd (m :: t) (VS xs') = Ok (map VS zss')).
      { clear -HF' Hc. revert Hc. generalize dependent (m :: t). intros l HF' Hc. 
        induction HF' as [|a z l zl E HF IHF]; [reflexivity|]. inversion Hc; subst. cbn [br_fwd map].
        unfold nfwd in E. destruct (fwd a (VS xs')) as [v|] eqn:Ev; [|discriminate]. destruct (H1 xs' v Ev) as [w ->].
        injection E as ->. cbn [bind]. rewrite IHF by auto. reflexivity. }
      rewrite Eb. cbn [bind]. rewrite (reduce_vals_eq r n); auto. intros _. rewrite <- L2. destruct t; [congruence|]. simpl. lia.
    + rewrite (redz_length r n), (redz_length r n); auto.
Qed.

(** Every long enough clip is accepted and gives as many outputs as wanted. *)
Definition accepts m := forall L, exists N, forall xs, N <= length xs ->
  exists ys, nfwd m xs = Ok ys /\ L <= length ys.

Lemma br_fwd_ok m t r xs zss n : t <> [] -> Forall isclip (m :: t) ->
  Forall2 (fun m z => nfwd m xs = Ok z) (m :: t) zss -> Forall (fun z => length z = n) zss ->
  nfwd (MBR (m :: t) r) xs = Ok (redz r zss).
Proof.
  intros Ht Hc HF Hn. unfold nfwd. cbn [fwd].
  assert (Eb : br_fwd fwd (m :: t) (VS xs) = Ok (map VS zss)).
  { clear -HF Hc. revert Hc. generalize dependent (m :: t). intros l HF Hc. 
    induction HF as [|a z l zl E HF IHF]; [reflexivity|]. inversion Hc; subst. cbn [br_fwd map].
    unfold nfwd in E. destruct (fwd a (VS xs)) as [v|] eqn:Ev; [|discriminate]. destruct (H1 xs v Ev) as [w ->].
    injection E as ->. cbn [bind]. rewrite IHF by auto. reflexivity. }
  rewrite Eb. cbn [bind]. pose proof (F2_length _ _ _ HF) as L. rewrite (reduce_vals_eq r n); auto.
  - destruct zss; discriminate.
  - intros _. rewrite <- L. destruct t; [congruence|]. simpl. lia.
Qed.

Lemma seq_fwd_ok m t xs ys zs : isclip m -> nfwd m xs = Ok ys -> nfwd (MSeq t) ys = Ok zs -> nfwd (MSeq (m :: t)) xs = Ok zs.
Proof.
  intros Hc E1 E2. unfold nfwd in *. cbn [fwd seq_fwd].
  destruct (fwd m (VS xs)) as [v|] eqn:Ev; [|discriminate]. destruct (Hc xs v Ev) as [w ->]. cbn [bind] in *.
  injection E1 as ->. exact E2.
Qed.

Theorem core_accepts sh m : core sh m -> accepts m.
Proof.
  induction 1 as [c H|c H Hp|d f s Hs|n|g|c|ms Hms IH|m t r Hms IH Ht Hsy Hsl]; intros L.
  - exists (ck c + cs c * L + 1). intros xs Hl.
    destruct (conv_forward_total c xs) as [y E]; [intros ->; simpl in *; lia|lia|].
    exists y. unfold nfwd. cbn [fwd]. rewrite E. split; [reflexivity|].
    destruct (conv_forward_inv _ _ _ H E) as (_ & _ & ->). rewrite map_length, seq_length.
    destruct H. assert (L <= (length xs + 2 * cp c - ck c) / cs c) by (apply Nat.div_le_lower_bound; lia). lia.
  - exists (pk c + ps c * L + 1). intros xs Hl.
    destruct (pool_forward_total c xs) as [y E]; [auto|intros ->; simpl in *; lia|lia|lia|].
    exists y. unfold nfwd. cbn [fwd]. rewrite E. split; [reflexivity|].
    destruct (pool_forward_inv _ _ _ H E) as (_ & _ & ->). rewrite map_length, seq_length.
    destruct H. assert (L <= (length xs + 2 * pp c - pk c) / ps c) by (apply Nat.div_le_lower_bound; lia). lia.
  - exists (L + 2 * d). intros xs Hl. eexists. split; [reflexivity|]. unfold delay_forward, slice_ab.
    destruct s, (d =? 0); rewrite ?skipn_length, ?firstn_length; lia.
  - exists (L + n). intros xs Hl. eexists. split; [reflexivity|]. unfold skip_forward. rewrite skipn_length. lia.
  - exists L. intros xs Hl. eexists. split; [reflexivity|]. rewrite map_length. lia.
  - exists (L + 1). intros xs Hl. destruct xs as [|x xt]; [simpl in *; lia|].
    destruct (steps_good (MRnn c None) I (x :: xt)) as (os & m' & _ & E2 & _); [discriminate|].
    cbn [steps] in E2. unfold rnn_forward_steps in E2. unfold nfwd. cbn [fwd]. unfold rnn_forward.
    destruct (torch_rnn c (x :: xt) None) as [[w h]|] eqn:E1; [|discriminate]. exists w. split; [reflexivity|].
    rewrite (torch_rnn_len c (x :: xt) w h); [lia|discriminate|auto].
  - assert (Hc : Forall isclip ms) by (apply Forall_forall; intros; eapply core_isclip; eauto).
    clear Hms. revert L. induction ms as [|m t IHt]; intros L.
    + exists L. intros xs Hl. exists xs. auto.
    + inversion Hc; subst. destruct (IHt (fun x Hx => IH x (or_intror Hx)) H2 L) as [N1 H3].
      destruct (IH m (or_introl eq_refl) N1) as [N2 H4]. exists N2. intros xs Hl.
      destruct (H4 xs Hl) as (y & E1 & L1). destruct (H3 y L1) as (z & E2 & L2). exists z. split; auto.
      eapply seq_fwd_ok; eauto.
  - assert (Hc : Forall isclip (m :: t)) by (apply Forall_forall; intros; eapply core_isclip; eauto).
    assert (G : exists N, forall xs, N <= length xs -> exists zss, Forall2 (fun m z => nfwd m xs = Ok z) (m :: t) zss /\
       Forall (fun z => L <= length z) zss).
    { clear -IH. revert IH. generalize (m :: t). intros l. induction l as [|a l IHl]; intros IH.
      - exists 0. intros xs _. exists []. split; constructor.
      - destruct (IHl (fun x Hx => IH x (or_intror Hx))) as [N1 H1]. destruct (IH a (or_introl eq_refl) L) as [N2 H2].
        exists (N1 + N2). intros xs Hl. destruct (H1 xs) as (zss & F1 & F2); [lia|]. destruct (H2 xs) as (z & E & Lz); [lia|].
        exists (z :: zss). split; constructor; auto. }
    destruct G as [N G]. exists N. intros xs Hl. destruct (G xs Hl) as (zss & HF & HL).
    destruct zss as [|z0 zt]; [inversion HF|].
    assert (Hn : Forall (fun z => length z = length z0) (z0 :: zt)).
    { apply Forall_forall. intros z Hz. destruct (F2_in_r _ _ _ z HF Hz) as (a & Ha & Ea).
      destruct (F2_in_r _ _ _ z0 HF (or_introl eq_refl)) as (b & Hb & Eb). exact (Hsl a b xs z z0 Ha Hb Ea Eb). }
    exists (redz r (z0 :: zt)). split; [eapply br_fwd_ok; eauto|].
    rewrite (redz_length r (length z0)); auto; [|discriminate]. inversion HL; auto.
Qed.

(* ------------------------------------------------------------------ *)
(** ** Windows *)

Lemma core_strd sh m : core sh m -> strd m = Z.of_nat (per m) /\ (0 <= padg m)%Z /\ (1 <= strd m)%Z.
Proof.
  induction 1 as [c H|c H Hp|d f s Hs|n|g|c|ms Hms IH|m t r Hms IH Ht Hsy Hsl].
  - destruct H. cbn [strd per padg]. lia.
  - destruct H. cbn [strd per padg]. lia.
  - cbn. lia.
  - cbn. lia.
  - cbn. lia.
  - cbn. lia.
  - clear Hms. induction ms as [|m t IHt]; [cbn; lia|]. rewrite strd_cons, padg_cons.
    change (per (MSeq (m :: t))) with (per m * per (MSeq t)).
    destruct (IH m (or_introl eq_refl)) as (A1 & A2 & A3). destruct (IHt (fun x Hx => IH x (or_intror Hx))) as (B1 & B2 & B3).
    repeat split; nia.
  - destruct (IH m (or_introl eq_refl)) as (A1 & A2 & A3). cbn [strd per padg].
    split; [auto|]. split; [|auto]. pose proof (zmax_ge (map padg (m :: t)) (padg m)) as G.
    specialize (G (or_introl eq_refl)). lia.
Qed.

Lemma redz_nth r n j : forall zss zss' : list (list F), Forall (fun z => length z = n) zss -> Forall (fun z => length z = n) zss' ->
  Forall2 (fun z z' => nth_error z j = nth_error z' j) zss zss' ->
  nth_error (redz r zss) j = nth_error (redz r zss') j.
Proof.
  assert (Z : forall a b, length a = length b -> nth_error (zipw r a b) j
     = match nth_error a j, nth_error b j with Some x, Some y => Some (r_op r x y) | _, _ => None end).
  { intros a. revert j. induction a as [|x a IH]; intros j b; destruct b as [|y b]; simpl; try discriminate.
    - intros _. destruct j; reflexivity.
    - intros L. destruct j; [reflexivity|]. unfold zipw in *. simpl. apply IH. lia. }
  intros zss zss' H1 H2 HF. destruct HF as [|a a' l l' E HF]; [reflexivity|]. cbn [redz].
  inversion H1 as [|? ? Ha Hl]; inversion H2 as [|? ? Ha' Hl']; clear H1 H2; subst.
  revert a a' E Ha' Hl Hl'. induction HF as [|b b' l l' Eb HF IH]; intros a a' E La Hl Hl'; [exact E|].
  inversion Hl; inversion Hl'; subst. cbn [fold_left]. apply IH.
  - rewrite !Z by congruence. rewrite E, Eb. reflexivity.
  - rewrite !zipw_length by congruence. auto.
  - rewrite zipw_length by congruence. auto.
  - rewrite zipw_length by congruence. auto.
Qed.

(** Output [j] of [forward] depends on inputs [j*s - padding .. j*s + delay]. *)
Definition window m := forall xs xs' ys ys' j, length xs = length xs' -> nfwd m xs = Ok ys -> nfwd m xs' = Ok ys' ->
  (forall i, (Z.of_nat j * strd m - padg m <= Z.of_nat i <= Z.of_nat j * strd m + Z.of_nat (ph m))%Z ->
     nth_error xs i = nth_error xs' i) ->
  nth_error ys j = nth_error ys' j.

Lemma ext_clip_eq f xs xs' z lo hi : length xs = length xs' -> xs <> [] ->
  (forall i, (lo <= Z.of_nat i <= hi)%Z -> nth_error xs i = nth_error xs' i) ->
  (lo <= z <= hi)%Z -> (0 <= hi)%Z -> (lo <= Z.of_nat (length xs) - 1)%Z ->
  ext_clip f xs z = ext_clip (F:=F) f xs' z.
Proof.
  intros L Hx H Hz Hhi Hlo. unfold ext_clip.
  assert (Hnth : forall i d d', i < length xs -> nth_error xs i = nth_error xs' i -> nth i xs d = nth i xs' d').
  { intros i d d' Hi E. rewrite (nth_error_nth' xs d) in E by auto. rewrite (nth_error_nth' xs' d') in E by lia. congruence. }
  assert (Hlen : 0 < length xs) by (destruct xs; simpl; [congruence|lia]).
  destruct (Z.ltb_spec z 0).
  - f_equal. assert (E : nth_error xs 0 = nth_error xs' 0) by (apply H; lia).
    destruct xs, xs'; simpl in *; congruence.
  - destruct (lt_dec (Z.to_nat z) (length xs)) as [Hi|Hi].
    + apply Hnth; [auto|]. apply H. lia.
    + rewrite !nth_overflow by lia. f_equal.
      assert (E : nth_error xs (length xs - 1) = nth_error xs' (length xs - 1)) by (apply H; lia).
      assert (Hl : forall l : list F, l <> [] -> forall d, last l d = nth (length l - 1) l d).
      { clear. induction l as [|x l IH]; [congruence|]. intros _ d. destruct l as [|y l]; [reflexivity|].
        change (last (x :: y :: l) d) with (last (y :: l) d). rewrite IH by discriminate.
        simpl length. replace (S (S (length l)) - 1) with (S (S (length l) - 1)) by lia. reflexivity. }
      rewrite (Hl xs), (Hl xs') by (auto; eapply len_nil; eauto). rewrite <- L. apply Hnth; [lia|auto].
Qed.

Lemma nth_map_seq {A} (g : nat -> A) n j : nth_error (map g (seq 0 n)) j = if j <? n then Some (g j) else None.
Proof.
  destruct (Nat.ltb_spec j n).
  - rewrite nth_error_map, (nth_error_nth' _ 0) by (rewrite seq_length; auto). rewrite seq_nth by auto. reflexivity.
  - apply nth_error_None. rewrite map_length, seq_length. auto.
Qed.


Lemma nth_skipn {A} n (l : list A) j : nth_error (skipn n l) j = nth_error l (n + j).
Proof. revert l; induction n; intros [|x l]; simpl; auto. destruct j; reflexivity. Qed.
Lemma nth_firstn {A} n (l : list A) j : nth_error (firstn n l) j = if j <? n then nth_error l j else None.
Proof.
  revert l j; induction n as [|n IH]; intros l j; [destruct j; reflexivity|].
  destruct l as [|x l]; [destruct j; simpl; [reflexivity|]; destruct (_ <? _); reflexivity|]. destruct j; [reflexivity|].
  simpl nth_error. rewrite IH. destruct (Nat.ltb_spec j n), (Nat.ltb_spec (S j) (S n)); auto; lia.
Qed.

Lemma window_conv c : conv_ok c -> window (MConv c obj_init).
Proof.
  intros Hc xs xs' ys ys' j L E E' H. unfold nfwd in *. cbn [fwd] in *.
  destruct (conv_forward c xs) as [y|] eqn:Ef; [|discriminate]. injection E as ->.
  destruct (conv_forward c xs') as [y|] eqn:Ef'; [|discriminate]. injection E' as ->.
  destruct (conv_forward_inv _ _ _ Hc Ef) as (Hx & Hk & ->).
  destruct (conv_forward_inv _ _ _ Hc Ef') as (Hx' & Hk' & ->).
  rewrite !nth_map_seq, <- L. destruct (Nat.ltb_spec j ((length xs + 2 * cp c - ck c) / cs c + 1)) as [Hj|]; [|reflexivity].
  f_equal. unfold conv_val. do 2 f_equal. apply map_ext_in. intros i Hi%in_seq. f_equal.
  destruct Hc. cbn [strd padg ph] in H.
  assert (Hjs : j * cs c <= length xs + 2 * cp c - ck c) by (pose proof (Nat.mul_div_le (length xs + 2 * cp c - ck c) (cs c)); nia).
  apply ext_clip_eq with (lo := (Z.of_nat j * Z.of_nat (cs c) - Z.of_nat (cp c))%Z)
    (hi := (Z.of_nat j * Z.of_nat (cs c) + Z.of_nat (ck c - 1 - cp c))%Z); auto; try nia.
Qed.

Lemma window_pool c : pool_ok c -> window (MPool c obj_init).
Proof.
  intros Hc xs xs' ys ys' j L E E' H. unfold nfwd in *. cbn [fwd] in *.
  destruct (pool_forward c xs) as [y|] eqn:Ef; [|discriminate]. injection E as ->.
  destruct (pool_forward c xs') as [y|] eqn:Ef'; [|discriminate]. injection E' as ->.
  destruct (pool_forward_inv _ _ _ Hc Ef) as (Hx & Hk & ->).
  destruct (pool_forward_inv _ _ _ Hc Ef') as (Hx' & Hk' & ->).
  rewrite !nth_map_seq, <- L. destruct (Nat.ltb_spec j ((length xs + 2 * pp c - pk c) / ps c + 1)) as [Hj|]; [|reflexivity].
  f_equal. unfold pool_val. f_equal. apply map_ext_in. intros i Hi%in_seq.
  destruct Hc. cbn [strd padg ph] in H.
  assert (Hjs : j * ps c <= length xs + 2 * pp c - pk c) by (pose proof (Nat.mul_div_le (length xs + 2 * pp c - pk c) (ps c)); nia).
  assert (H' : forall i, (Z.of_nat j * Z.of_nat (ps c) - Z.of_nat (pp c) <= Z.of_nat i <= Z.of_nat j * Z.of_nat (ps c) + Z.of_nat (pk c - 1 - pp c))%Z ->
     nth_error xs i = nth_error xs' i).
  { intros i0 Hi0. apply H. simpl. rewrite ?pok_d. nia. }
  unfold pool_ext. destruct (Z.ltb_spec (Z.of_nat (pk c - 1 - pp c + j * ps c) - Z.of_nat (pk c - 1) + Z.of_nat i) 0).
  - do 2 f_equal. assert (E : nth_error xs 0 = nth_error xs' 0) by (apply H'; nia). 
    destruct xs, xs'; simpl in *; congruence.
  - f_equal. apply ext_clip_eq with (lo := (Z.of_nat j * Z.of_nat (ps c) - Z.of_nat (pp c))%Z)
    (hi := (Z.of_nat j * Z.of_nat (ps c) + Z.of_nat (pk c - 1 - pp c))%Z); auto; try nia.
Qed.

Lemma window_seq sh ms : Forall (core sh) ms -> Forall window ms -> window (MSeq ms).
Proof.
  intros Hc HF. induction HF as [|m t Hm HF IH]; intros xs xs' ys ys' j L E E' H.
  - unfold nfwd in *. cbn [fwd seq_fwd bind] in *. injection E as <-. injection E' as <-. apply H. cbn. lia.
  - inversion Hc as [|? ? Hcm Hct]; subst.
    apply seq_fwd_cons in E as (y & E1 & E2); [|eapply core_isclip; eauto].
    apply seq_fwd_cons in E' as (y' & E1' & E2'); [|eapply core_isclip; eauto].
    destruct (core_shape sh m Hcm xs xs' y L E1) as (y2 & E3 & Ly). rewrite E1' in E3. injection E3 as <-.
    apply (IH Hct y y' ys ys' j Ly E2 E2'). intros i Hi. apply (Hm xs xs' y y' i L E1 E1').
    intros k Hk. apply H. rewrite strd_cons, padg_cons.
    change (ph (MSeq (m :: t))) with (ph m + per m * ph (MSeq t)).
    destruct (core_strd sh m Hcm) as (A1 & A2 & A3). nia.
Qed.

Lemma window_br sh m t r : core sh (MBR (m :: t) r) -> Forall isclip (m :: t) -> Forall (core sh) (m :: t) -> Forall window (m :: t) ->
  t <> [] -> same_len (m :: t) -> (forall x, In x t -> ph x = ph m /\ per x = per m) -> window (MBR (m :: t) r).
Proof.
  intros Hco Hc Hcs HF Ht Hsl Hsy xs xs' ys ys' j L E E' H.
  pose proof (core_shape sh _ Hco xs xs' ys L E) as (y2 & E3 & Ly). rewrite E' in E3. injection E3 as <-.
  apply br_fwd_inv in E as (zss & n & F1 & -> & Hn); auto.
  apply br_fwd_inv in E' as (zss' & n' & F1' & -> & Hn'); auto.
  assert (Hz : zss <> []) by (intros ->; inversion F1). assert (Hz' : zss' <> []) by (intros ->; inversion F1').
  rewrite (redz_length r n), (redz_length r n') in Ly by auto. subst n'.
  apply (redz_nth r n); auto.
  assert (Hw : forall a, In a (m :: t) -> forall i, (Z.of_nat j * strd a - padg a <= Z.of_nat i <= Z.of_nat j * strd a + Z.of_nat (ph a))%Z ->
     nth_error xs i = nth_error xs' i).
  { intros a Ha i Hi. apply H. cbn [strd padg ph].
    pose proof (zmax_ge (map padg (m :: t)) (padg a) (in_map _ _ _ Ha)).
    rewrite Forall_forall in Hcs. destruct (core_strd sh a (Hcs a Ha)) as (A1 & _). destruct (core_strd sh m (Hcs m (or_introl eq_refl))) as (B1 & _).
    assert (ph a = ph m /\ per a = per m) as [C1 C2] by (destruct Ha as [<-|Ha]; auto). rewrite C1, A1, C2, <- B1 in Hi. lia. }
  clear -F1 F1' HF L Hw. revert zss' F1' HF Hw. induction F1 as [|a z l zl E F1 IH]; intros zss' F1' HF Hw.
  - inversion F1'. constructor.
  - inversion F1' as [|? z' ? zl' Ez' Hzl']; subst. inversion HF as [|? ? Hwa Hwl]; subst. constructor.
    + apply (Hwa xs xs' z z' j L E Ez'). intros i Hi. apply (Hw a (or_introl eq_refl) i Hi).
    + apply IH; auto. intros b Hb. apply Hw. right. auto.
Qed.

Theorem core_window sh m : core sh m -> rnn_free m -> window m.
Proof.
  intros H. pose proof H as H'. revert H'.
  induction H as [c H|c H Hp|d f s Hs|n|g|c|ms Hms IH|m t r Hms IH Ht Hsy Hsl]; intros H' Hr.
  - now apply window_conv.
  - now apply window_pool.
  - intros xs xs' ys ys' j L E E' H. unfold nfwd in *. cbn [fwd bind] in *. injection E as <-. injection E' as <-.
    cbn [strd padg] in H. unfold delay_forward, slice_ab. destruct Hs as [->|[_ [->| ->]]].
    + apply H. lia.
    + destruct (Nat.eqb_spec d 0) as [->|Hd]; [apply H; lia|].
      rewrite !nth_skipn, !nth_firstn, <- L. destruct (_ <? _); [|reflexivity]. apply H. simpl.
      replace (d =? 0) with false by lia. lia.
    + destruct (Nat.eqb_spec d 0) as [->|Hd]; [apply H; lia|].
      rewrite !nth_skipn, !nth_firstn, <- L. destruct (_ <? _); [|reflexivity]. apply H. lia.
  - intros xs xs' ys ys' j L E E' H. unfold nfwd in *. cbn [fwd bind] in *. injection E as <-. injection E' as <-.
    unfold skip_forward. rewrite !nth_skipn. apply H. cbn [strd padg ph]. unfold skip_init. lia.
  - intros xs xs' ys ys' j L E E' H. unfold nfwd in *. cbn [fwd bind] in *. injection E as <-. injection E' as <-.
    rewrite !nth_error_map. f_equal. apply H. cbn. lia.
  - destruct Hr.
  - cbn [rnn_free] in Hr. apply allP_Forall in Hr. rewrite Forall_forall in Hr.
    apply (window_seq sh); apply Forall_forall; auto.
  - cbn [rnn_free] in Hr. apply allP_Forall in Hr. rewrite Forall_forall in Hr.
    eapply window_br; eauto; apply Forall_forall; [intros; eapply core_isclip; eauto|auto|auto].
Qed.

(** Streaming: outputs depend on the last [receptive_field] frames only. *)
Theorem core_rf sh m a a' b : core sh m -> rnn_free m -> length a = length a' ->
  exists ys m1 ys' m1', feed (nstep true) m (a ++ b) = Ok (ys, m1) /\ feed (nstep true) m (a' ++ b) = Ok (ys', m1') /\
   let R := length a + Z.to_nat (padg m) + ph m in
   skipn R ys = skipn R ys' /\ length ys = length a + length b.
Proof.
  intros Hc Hr L. pose proof (core_ok sh m Hc) as Ho. pose proof (per_pos m Ho) as Hp. assert (Hp0 : per m <> 0) by lia.
  destruct (core_strd sh m Hc) as (A1 & A2 & A3).
  destruct (core_accepts sh m Hc (S (length a + length b))) as [N HN].
  set (ws := repeat f0 N).
  destruct (HN ((a ++ b) ++ ws)) as (zs & E & Lz); [unfold ws; rewrite app_length, repeat_length; lia|].
  assert (L2 : length ((a ++ b) ++ ws) = length ((a' ++ b) ++ ws)) by (rewrite !app_length; lia).
  destruct (core_shape sh m Hc _ _ _ L2 E) as (zs' & E' & Lz').
  destruct (core_sched sh m _ _ _ Hc E) as (m1 & F1). destruct (core_sched sh m _ _ _ Hc E') as (m1' & F1').
  rewrite F1, F1'. do 4 eexists. split; [reflexivity|]. split; [reflexivity|]. cbv zeta.
  split; [|rewrite map_length, seq_length, app_length; auto].
  rewrite !app_length, <- L. set (R := length a + Z.to_nat (padg m) + ph m).
  assert (Hs : forall n, skipn R (map (scheduled (ph m) (per m) zs) (seq 0 n)) = map (scheduled (ph m) (per m) zs) (seq R (n - R)) /\
     skipn R (map (scheduled (ph m) (per m) zs') (seq 0 n)) = map (scheduled (ph m) (per m) zs') (seq R (n - R))).
  { intros n. rewrite !skipn_map. assert (Es : skipn R (seq 0 n) = seq R (n - R)); [|rewrite Es; auto].
    assert (G : forall k n s, skipn k (seq s n) = seq (s + k) (n - k)).
    { clear. induction k; intros [|n] s; simpl; rewrite ?Nat.add_0_r, ?Nat.sub_0_r; auto. rewrite IHk. f_equal. lia. }
    rewrite G. f_equal. }
  destruct (Hs (length a + length b)) as [-> ->]. apply map_ext_in. intros n Hn%in_seq. unfold scheduled.
  destruct (emits (ph m) (per m) n) eqn:Em; [|reflexivity].
  apply (core_window sh m Hc Hr _ _ _ _ _ L2 E E').
  intros i Hi. unfold emits in Em. apply andb_prop in Em as [Em1 Em2].
  assert (Hj : (n - ph m) / per m * per m = n - ph m).
  { apply Nat.eqb_eq in Em2. pose proof (Nat.div_mod (n - ph m) (per m) Hp0) as D. rewrite Em2, Nat.add_0_r in D.
    rewrite Nat.mul_comm. symmetry. exact D. }
  assert (Hi2 : length a <= i).
  { rewrite A1 in Hi. rewrite <- Nat2Z.inj_mul, Hj in Hi. unfold R in Hn. lia. }
  rewrite <- !app_assoc. rewrite (nth_error_app2 a), (nth_error_app2 a') by lia. rewrite L. reflexivity.
Qed.

(* ------------------------------------------------------------------ *)
(** ** Length of the output of [forward] *)

Theorem chain_len m : chain m -> forall xs ys, xs <> [] -> nfwd m xs = Ok ys ->
  Z.of_nat (length ys) = ((Z.of_nat (length xs) + 2 * padg m - rfield m) / strd m + 1)%Z /\ ys <> [].
Proof.
  induction 1 as [c H|c H|g|ms Hms IH]; intros xs ys Hx E.
  - unfold nfwd in *. cbn [fwd] in *. destruct (conv_forward c xs) as [y|] eqn:Ef; [|discriminate]. injection E as ->.
    destruct (conv_forward_inv _ _ _ H Ef) as (_ & Hk & Ey). destruct H.
    assert (Ll : length ys = (length xs + 2 * cp c - ck c) / cs c + 1) by (rewrite Ey, map_length, seq_length; reflexivity).
    split; [|destruct ys; [simpl in Ll; lia|discriminate]]. rewrite Ll. cbn [padg rfield strd]. unfold conv_rf.
    rewrite Nat2Z.inj_add, Nat2Z.inj_div. f_equal. f_equal. lia.
  - unfold nfwd in *. cbn [fwd] in *. destruct (pool_forward c xs) as [y|] eqn:Ef; [|discriminate]. injection E as ->.
    destruct (pool_forward_inv _ _ _ H Ef) as (_ & Hk & Ey). destruct H.
    assert (Ll : length ys = (length xs + 2 * pp c - pk c) / ps c + 1) by (rewrite Ey, map_length, seq_length; reflexivity).
    split; [|destruct ys; [simpl in Ll; lia|discriminate]]. rewrite Ll. cbn [padg rfield strd]. unfold pool_rf. rewrite pok_d.
    rewrite Nat2Z.inj_add, Nat2Z.inj_div. f_equal. f_equal. lia.
  - unfold nfwd in *. cbn [fwd bind] in *. injection E as <-. cbn [padg rfield strd]. rewrite map_length, Z.div_1_r.
    split; [lia|]. destruct xs; [congruence|discriminate].
  - revert xs ys Hx E. assert (Hc : Forall isclip ms).
    { apply Forall_forall. intros x Hi. specialize (Hms x Hi). clear -Hms. induction Hms as [c H|c H|g|ms Hms IH]; intros xs v E; cbn [fwd] in E.
      - destruct (conv_forward c xs); cbn [bind] in E; [injection E as <-; eauto|discriminate].
      - destruct (pool_forward c xs); cbn [bind] in E; [injection E as <-; eauto|discriminate].
      - injection E as <-; eauto.
      - clear Hms. revert xs E. induction ms as [|m t IHt]; intros xs E; cbn [seq_fwd] in E; [injection E as <-; eauto|].
        destruct (fwd m (VS xs)) as [w|] eqn:Em; [|discriminate]. cbn [bind] in E.
        destruct (IH m (or_introl eq_refl) xs w Em) as [ys ->]. eapply IHt; eauto. intros; apply IH; right; auto. }
    assert (Hs : forall x, In x ms -> (1 <= strd x)%Z).
    { intros x Hi. specialize (Hms x Hi). clear -Hms. induction Hms as [c H|c H|g|ms Hms IH]; try (destruct H; cbn; lia); [cbn; lia|].
      clear Hms. induction ms as [|m t IHt]; [cbn; lia|]. rewrite strd_cons. pose proof (IH m (or_introl eq_refl)).
      pose proof (IHt (fun x Hx => IH x (or_intror Hx))). nia. }
    clear Hms. induction ms as [|m t IHt]; intros xs ys Hx E.
    + unfold nfwd in E. cbn in E. injection E as <-. cbn. rewrite Z.div_1_r. split; [lia|auto].
    + inversion Hc; subst. apply seq_fwd_cons in E as (y & E1 & E2); auto.
      destruct (IH m (or_introl eq_refl) xs y Hx E1) as [L1 N1].
      destruct (IHt (fun x Hx => IH x (or_intror Hx)) H2 (fun x Hx => Hs x (or_intror Hx)) y ys N1 E2) as [L2 N2].
      split; [|auto]. rewrite L2, L1, strd_cons, padg_cons, rfield_cons. f_equal.
      pose proof (Hs m (or_introl eq_refl)) as S1.
      assert (S2 : (1 <= strd (MSeq t))%Z).
      { clear -Hs. assert (forall x, In x t -> (1 <= strd x)%Z) by (intros; apply Hs; right; auto). clear Hs.
        induction t as [|a t IHt]; [cbn; lia|]. rewrite strd_cons. pose proof (H a (or_introl eq_refl)).
        pose proof (IHt (fun x Hx => H x (or_intror Hx))). nia. }
      rewrite <- Z.div_div by lia. f_equal.
      replace (Z.of_nat (length xs) + 2 * (padg m + strd m * padg (MSeq t)) - (rfield m + strd m * (rfield (MSeq t) - 1)))%Z
        with (Z.of_nat (length xs) + 2 * padg m - rfield m + (1 + 2 * padg (MSeq t) - rfield (MSeq t)) * strd m)%Z by lia.
      rewrite Z.div_add by lia. lia.
Qed.

End NetAcc.
