(** Networks: shifting the input by a multiple of the stride shifts the output.
    Lemmas behind the restart theorem (C52). *)
From Coq Require Import List ZArith Bool Arith Lia ZifyBool ZifyNat.
From Verif Require Import Base Frames CoMod Leaf Rnn Net Spec LeafSpec Ring LeafProof LeafMore NetSpec NetOk Calls NetDef NetCore NetFwd NetPad NetAcc NetProps NetThm.
Import ListNotations.
Ltac Zify.zify_post_hook ::= Z.div_mod_to_equations.

Section NetShift.
Context {F : Type} {FA : Frames F} {FL : FrameLaws F}.
Implicit Types m : md F.
Implicit Types ms : list (md F).
Implicit Types xs zs : list F.

(** Output [j] of [forward] on a clip is output [j + q] of [forward] on a clip
    that has [q] strides more in front, as long as the window of [j] does not
    reach back over the start. *)
Definition shifts m := forall xs xs' ys ys' q, length xs' = length xs + q * per m ->
  nfwd m xs = Ok ys -> nfwd m xs' = Ok ys' -> ys <> [] ->
  xs <> [] /\ length ys' = length ys + q /\
  forall j, (padg m <= Z.of_nat j * strd m)%Z ->
    (forall i, (Z.of_nat j * strd m - padg m <= Z.of_nat i <= Z.of_nat j * strd m + Z.of_nat (ph m))%Z ->
       nth_error xs i = nth_error xs' (i + q * per m)) ->
    nth_error ys j = nth_error ys' (j + q).

Lemma last_nth (l : list F) d : l <> [] -> last l d = nth (length l - 1) l d.
Proof.
  induction l as [|x l IH]; [congruence|]. intros _. destruct l as [|y l]; [reflexivity|].
  change (last (x :: y :: l) d) with (last (y :: l) d). rewrite IH by discriminate.
  simpl length. replace (S (S (length l)) - 1) with (S (S (length l) - 1)) by lia. reflexivity.
Qed.

Lemma ext_clip_shift f xs xs' z lo hi d : length xs' = length xs + d -> xs <> [] ->
  (forall i, (lo <= Z.of_nat i <= hi)%Z -> nth_error xs i = nth_error xs' (i + d)) ->
  (lo <= z <= hi)%Z -> (0 <= lo <= Z.of_nat (length xs) - 1)%Z ->
  ext_clip f xs z = ext_clip (F:=F) f xs' (z + Z.of_nat d).
Proof.
  intros L Hx H Hz Hlo. unfold ext_clip.
  assert (Hnth : forall i a b, i < length xs -> nth_error xs i = nth_error xs' (i + d) -> nth i xs a = nth (i + d) xs' b).
  { intros i a b Hi E. rewrite (nth_error_nth' xs a) in E by auto. rewrite (nth_error_nth' xs' b) in E by lia. congruence. }
  destruct (Z.ltb_spec z 0); [lia|]. destruct (Z.ltb_spec (z + Z.of_nat d) 0); [lia|].
  replace (Z.to_nat (z + Z.of_nat d)) with (Z.to_nat z + d) by lia.
  destruct (lt_dec (Z.to_nat z) (length xs)) as [Hi|Hi].
  - apply Hnth; [auto|]. apply H. lia.
  - rewrite !nth_overflow by lia. f_equal.
    assert (Hx' : xs' <> []) by (destruct xs; [congruence|destruct xs'; simpl in L; [lia|discriminate]]).
    rewrite !last_nth by auto. rewrite L. replace (length xs + d - 1) with (length xs - 1 + d) by lia.
    apply Hnth; [lia|]. apply H. lia.
Qed.

Lemma div_shift a b q : b <> 0 -> (a + q * b) / b = a / b + q.
Proof. intros H. now rewrite Nat.div_add. Qed.

Lemma shifts_conv c : conv_ok c -> shifts (MConv c obj_init).
Proof.
  intros Hc xs xs' ys ys' q L E E' Hne. unfold nfwd in *. cbn [fwd] in *.
  destruct (conv_forward c xs) as [y|] eqn:Ef; [|discriminate]. injection E as ->.
  destruct (conv_forward c xs') as [y|] eqn:Ef'; [|discriminate]. injection E' as ->.
  destruct (conv_forward_inv _ _ _ Hc Ef) as (Hx & Hk & Ey).
  destruct (conv_forward_inv _ _ _ Hc Ef') as (Hx' & Hk' & Ey').
  cbn [per] in L. destruct Hc. assert (Hs : cs c <> 0) by lia.
  assert (Ln : (length xs' + 2 * cp c - ck c) / cs c = (length xs + 2 * cp c - ck c) / cs c + q).
  { rewrite L. replace (length xs + q * cs c + 2 * cp c - ck c) with (length xs + 2 * cp c - ck c + q * cs c) by lia.
    now apply div_shift. }
  split; [auto|]. split; [rewrite Ey, Ey', !map_length, !seq_length, Ln; lia|].
  intros j Hp H. subst ys ys'. rewrite !nth_map_seq, Ln.
  set (n := (length xs + 2 * cp c - ck c) / cs c) in *.
  replace (j + q <? n + q + 1) with (j <? n + 1) by (destruct (Nat.ltb_spec j (n + 1)), (Nat.ltb_spec (j + q) (n + q + 1)); auto; lia).
  destruct (Nat.ltb_spec j (n + 1)) as [Hj|]; [|reflexivity].
  f_equal. unfold conv_val. do 2 f_equal. apply map_ext_in. intros i Hi%in_seq. f_equal.
  cbn [strd padg ph per] in H, Hp.
  assert (Hjs : j * cs c <= length xs + 2 * cp c - ck c)
    by (pose proof (Nat.mul_div_le (length xs + 2 * cp c - ck c) (cs c)); unfold n in Hj; nia).
  rewrite (ext_clip_shift _ xs xs' _ (Z.of_nat j * Z.of_nat (cs c) - Z.of_nat (cp c))%Z
    (Z.of_nat j * Z.of_nat (cs c) + Z.of_nat (ck c - 1 - cp c))%Z (q * cs c)); auto; try nia.
  f_equal. nia.
Qed.

Lemma shifts_pool c : pool_ok c -> shifts (MPool c obj_init).
Proof.
  intros Hc xs xs' ys ys' q L E E' Hne. unfold nfwd in *. cbn [fwd] in *.
  destruct (pool_forward c xs) as [y|] eqn:Ef; [|discriminate]. injection E as ->.
  destruct (pool_forward c xs') as [y|] eqn:Ef'; [|discriminate]. injection E' as ->.
  destruct (pool_forward_inv _ _ _ Hc Ef) as (Hx & Hk & Ey).
  destruct (pool_forward_inv _ _ _ Hc Ef') as (Hx' & Hk' & Ey').
  cbn [per] in L. destruct Hc. assert (Hs : ps c <> 0) by lia.
  assert (Ln : (length xs' + 2 * pp c - pk c) / ps c = (length xs + 2 * pp c - pk c) / ps c + q).
  { rewrite L. replace (length xs + q * ps c + 2 * pp c - pk c) with (length xs + 2 * pp c - pk c + q * ps c) by lia.
    now apply div_shift. }
  split; [auto|]. split; [rewrite Ey, Ey', !map_length, !seq_length, Ln; lia|].
  intros j Hp H. subst ys ys'. rewrite !nth_map_seq, Ln.
  set (n := (length xs + 2 * pp c - pk c) / ps c) in *.
  replace (j + q <? n + q + 1) with (j <? n + 1) by (destruct (Nat.ltb_spec j (n + 1)), (Nat.ltb_spec (j + q) (n + q + 1)); auto; lia).
  destruct (Nat.ltb_spec j (n + 1)) as [Hj|]; [|reflexivity].
  f_equal. unfold pool_val. f_equal. apply map_ext_in. intros i Hi%in_seq.
  assert (Hjs : j * ps c <= length xs + 2 * pp c - pk c)
    by (pose proof (Nat.mul_div_le (length xs + 2 * pp c - pk c) (ps c)); unfold n in Hj; nia).
  cbn [strd padg per] in H, Hp.
  assert (H' : forall i, (Z.of_nat j * Z.of_nat (ps c) - Z.of_nat (pp c) <= Z.of_nat i <= Z.of_nat j * Z.of_nat (ps c) + Z.of_nat (pk c - 1 - pp c))%Z ->
     nth_error xs i = nth_error xs' (i + q * ps c)).
  { intros i0 Hi0. apply H. simpl. rewrite ?pok_d. nia. }
  unfold pool_ext. rewrite !(proj2 (Z.ltb_ge _ 0)) by nia. f_equal.
  rewrite (ext_clip_shift _ xs xs' _ (Z.of_nat j * Z.of_nat (ps c) - Z.of_nat (pp c))%Z
    (Z.of_nat j * Z.of_nat (ps c) + Z.of_nat (pk c - 1 - pp c))%Z (q * ps c)); auto; try nia.
  f_equal. nia.
Qed.

Lemma shifts_seq sh ms : Forall (core sh) ms -> Forall shifts ms -> shifts (MSeq ms).
Proof.
  intros Hc HF. induction HF as [|m t Hm HF IH]; intros xs xs' ys ys' q L E E' Hne.
  - unfold nfwd in *. cbn [fwd seq_fwd bind] in *. injection E as <-. injection E' as <-.
    cbn in L. rewrite Nat.mul_1_r in L. split; [auto|]. split; [auto|]. intros j _ H.
    rewrite (H j) by (cbn; lia). cbn. now rewrite Nat.mul_1_r.
  - inversion Hc as [|? ? Hcm Hct]; subst.
    apply seq_fwd_cons in E as (y & E1 & E2); [|eapply core_isclip; eauto].
    apply seq_fwd_cons in E' as (y' & E1' & E2'); [|eapply core_isclip; eauto].
    change (per (MSeq (m :: t))) with (per m * per (MSeq t)) in *.
    assert (Ly : y <> []).
    { intros ->. destruct (IH Hct [] [] ys ys 0 eq_refl E2 E2 Hne) as [X _]. congruence. }
    destruct (Hm xs xs' y y' (q * per (MSeq t))) as (X1 & L1 & W1); auto; [lia|].
    destruct (IH Hct y y' ys ys' q L1 E2 E2' Hne) as (X2 & L2 & W2).
    split; [auto|]. split; [auto|]. intros j Hp H. rewrite strd_cons, padg_cons in *.
    change (ph (MSeq (m :: t))) with (ph m + per m * ph (MSeq t)) in H.
    destruct (core_strd sh m Hcm) as (A1 & A2 & A3).
    assert (Hst : strd (MSeq t) = Z.of_nat (per (MSeq t)) /\ (0 <= padg (MSeq t))%Z /\ (1 <= strd (MSeq t))%Z).
    { apply (core_strd sh). constructor. now apply Forall_forall. }
    destruct Hst as (B1 & B2 & B3).
    apply W2; [nia|]. intros i Hi. apply W1; [nia|].
    intros k Hk. rewrite H by nia. f_equal. nia.
Qed.

Lemma redz_nth2 r n n' j j' : forall zss zss' : list (list F), Forall (fun z => length z = n) zss -> Forall (fun z => length z = n') zss' ->
  Forall2 (fun z z' => nth_error z j = nth_error z' j') zss zss' ->
  nth_error (redz r zss) j = nth_error (redz r zss') j'.
Proof.
  assert (Z : forall j a b, length a = length b -> nth_error (zipw r a b) j
     = match nth_error a j, nth_error b j with Some x, Some y => Some (r_op r x y) | _, _ => None end).
  { clear. intros j a. revert j. induction a as [|x a IH]; intros j b; destruct b as [|y b]; simpl; try discriminate.
    - intros _. destruct j; reflexivity.
    - intros L. destruct j; [reflexivity|]. unfold zipw in *. simpl. apply IH. lia. }
  intros zss zss' H1 H2 HF. destruct HF as [|a a' l l' E HF]; [destruct j, j'; reflexivity|]. cbn [redz].
  inversion H1 as [|? ? Ha Hl]; inversion H2 as [|? ? Ha' Hl']; clear H1 H2; subst.
  assert (La : length a = length a) by auto. assert (La' : length a' = length a') by auto.
  revert La La' Hl Hl'. generalize (length a) at 2 3. generalize (length a') at 2 3. intros n' n La La' Hl Hl'.
  revert a a' E La La'. induction HF as [|b b' l l' Eb HF IH]; intros a a' E La La'; [exact E|].
  inversion Hl; inversion Hl'; subst. cbn [fold_left]. apply IH; auto.
  - rewrite !Z by congruence. rewrite E, Eb. reflexivity.
  - rewrite zipw_length by congruence. auto.
  - rewrite zipw_length by congruence. auto.
Qed.

Lemma shifts_br sh m t r : core sh (MBR (m :: t) r) -> Forall isclip (m :: t) -> Forall (core sh) (m :: t) -> Forall shifts (m :: t) ->
  t <> [] -> same_len (m :: t) -> (forall x, In x t -> ph x = ph m /\ per x = per m) -> shifts (MBR (m :: t) r).
Proof.
  intros Hco Hc Hcs HF Ht Hsl Hsy xs xs' ys ys' q L E E' Hne.
  apply br_fwd_inv in E as (zss & n & F1 & -> & Hn); auto.
  apply br_fwd_inv in E' as (zss' & n' & F1' & -> & Hn'); auto.
  assert (Hz : zss <> []) by (intros ->; inversion F1). assert (Hz' : zss' <> []) by (intros ->; inversion F1').
  cbn [per] in *.
  assert (Hn0 : n <> 0).
  { intros ->. apply Hne. apply length_zero_iff_nil. rewrite (redz_length r 0); auto. }
  assert (Hsy' : forall a, In a (m :: t) -> ph a = ph m /\ per a = per m) by (intros a [<-|Ha]; auto).
  assert (G : forall a z z', In a (m :: t) -> nfwd a xs = Ok z -> nfwd a xs' = Ok z' -> length z = n ->
    xs <> [] /\ length z' = length z + q /\ forall j, (padg (MBR (m :: t) r) <= Z.of_nat j * strd m)%Z ->
    (forall i, (Z.of_nat j * strd m - padg (MBR (m :: t) r) <= Z.of_nat i <= Z.of_nat j * strd m + Z.of_nat (ph m))%Z ->
       nth_error xs i = nth_error xs' (i + q * per m)) ->
    nth_error z j = nth_error z' (j + q)).
  { intros a z z' Ha Ez Ez' Lz. rewrite Forall_forall in HF, Hcs.
    destruct (Hsy' a Ha) as [C1 C2].
    destruct (HF a Ha xs xs' z z' q) as (G1 & G2 & G3); auto; [rewrite C2; auto|intros ->; simpl in Lz; lia|].
    split; [auto|]. split; [auto|]. cbn [padg].
    pose proof (zmax_ge (map padg (m :: t)) (padg a) (in_map _ _ _ Ha)) as HZ.
    destruct (core_strd sh a (Hcs a Ha)) as (A1 & _). destruct (core_strd sh m (Hcs m (or_introl eq_refl))) as (B1 & _).
    intros j Hp H. rewrite C2, A1, C2, <- B1, C1 in G3. apply G3; [lia|]. intros i Hi. apply H. lia. }
  inversion F1 as [|? z ? zl Ez Fl]; subst. inversion F1' as [|? z' ? zl' Ez' Fl']; subst.
  inversion Hn as [|? ? Q1 Q2]; inversion Hn' as [|? ? Q1' Q2']; subst.
  destruct (G m z z' (or_introl eq_refl) Ez Ez' eq_refl) as (G1 & G2 & _).
  split; [auto|]. rewrite (redz_length r (length z')), (redz_length r (length z)) by auto. split; [auto|].
  intros j Hp H. apply (redz_nth2 r (length z) (length z')); auto.
  cbn [strd per ph] in Hp, H. clear -F1 F1' G Hp H Hn.
  revert F1 F1' G Hn. generalize (z :: zl) (z' :: zl') (length z). intros zs zs' n F1 F1' G Hn.
  assert (G' : forall a z z', In a (m :: t) -> nfwd a xs = Ok z -> nfwd a xs' = Ok z' -> length z = n -> nth_error z j = nth_error z' (j + q)).
  { intros a y y' Ha Ey Ey' Ly. apply (G a y y' Ha Ey Ey' Ly); auto. }
  clear G H Hp. revert zs' F1' G' Hn. induction F1 as [|a y l yl Ey F1 IH]; intros zs' F1' G' Hn.
  - inversion F1'. constructor.
  - inversion F1' as [|? y' ? yl' Ey' Fl']; subst. inversion Hn; subst. constructor.
    + apply (G' a); auto. left; auto.
    + apply IH; auto. intros b u u' Hb. apply G'. right; auto.
Qed.

Theorem core_shifts sh m : core sh m -> rnn_free m -> shifts m.
Proof.
  intros H. pose proof H as H'. revert H'.
  induction H as [c H|c H Hp|d f s Hs|n|g|c|ms Hms IH|m t r Hms IH Ht Hsy Hsl]; intros H' Hr.
  - now apply shifts_conv.
  - now apply shifts_pool.
  - intros xs xs' ys ys' q L E E' Hne. unfold nfwd in *. cbn [fwd bind per] in *. injection E as <-. injection E' as <-.
    rewrite Nat.mul_1_r in *.
    assert (Hx : xs <> []).
    { intros ->. apply Hne. unfold delay_forward, slice_ab. destruct s, (d =? 0); auto; rewrite ?skipn_nil, ?firstn_nil, ?skipn_nil; auto. }
    assert (Hl : 0 < length (delay_forward d s xs)) by (destruct (delay_forward d s xs); [congruence|simpl; lia]).
    split; [auto|]. cbn [strd padg ph]. unfold delay_forward, slice_ab in *. destruct Hs as [->|[_ [->| ->]]].
    + split; [auto|]. intros j _ H. apply H. lia.
    + destruct (Nat.eqb_spec d 0) as [->|Hd]; [split; [auto|]; intros j _ H; apply H; lia|].
      rewrite !skipn_length, !firstn_length in *. split; [lia|]. intros j _ H.
      rewrite !nth_skipn, !nth_firstn, L.
      destruct (Nat.ltb_spec (d + j) (length xs - d)), (Nat.ltb_spec (d + (j + q)) (length xs + q - d)); try lia; [|reflexivity].
      rewrite H; [f_equal; lia|]. cbn. replace (d =? 0) with false by lia. lia.
    + destruct (Nat.eqb_spec d 0) as [->|Hd]; [split; [auto|]; intros j _ H; apply H; lia|].
      rewrite !skipn_length, !firstn_length in *. split; [lia|]. intros j _ H.
      rewrite !nth_skipn, !nth_firstn, L. cbn [Nat.add].
      destruct (Nat.ltb_spec j (length xs - d)), (Nat.ltb_spec (j + q) (length xs + q - d)); try lia; [|reflexivity].
      apply H. lia.
  - intros xs xs' ys ys' q L E E' Hne. unfold nfwd in *. cbn [fwd bind per] in *. injection E as <-. injection E' as <-.
    rewrite Nat.mul_1_r in *. unfold skip_forward in *.
    assert (Hl : 0 < length (skipn n xs)) by (destruct (skipn n xs); [congruence|simpl; lia]).
    rewrite skipn_length in Hl.
    split; [intros ->; simpl in Hl; lia|]. rewrite !skipn_length. split; [lia|]. intros j _ H. rewrite !nth_skipn.
    rewrite H; [f_equal; lia|]. cbn [strd padg ph]. unfold skip_init. lia.
  - intros xs xs' ys ys' q L E E' Hne. unfold nfwd in *. cbn [fwd bind per] in *. injection E as <-. injection E' as <-.
    rewrite Nat.mul_1_r in *. split; [intros ->; apply Hne; reflexivity|]. rewrite !map_length. split; [auto|].
    intros j _ H. rewrite !nth_error_map. f_equal. apply H. cbn. lia.
  - destruct Hr.
  - cbn [rnn_free] in Hr. apply allP_Forall in Hr. rewrite Forall_forall in Hr.
    apply (shifts_seq sh); apply Forall_forall; auto.
  - cbn [rnn_free] in Hr. apply allP_Forall in Hr. rewrite Forall_forall in Hr.
    eapply shifts_br; eauto; apply Forall_forall; [intros; eapply core_isclip; eauto|auto|auto].
Qed.

Lemma skipn_seq k n s : skipn k (seq s n) = seq (s + k) (n - k).
Proof. revert n s; induction k; intros [|n] s; simpl; rewrite ?Nat.add_0_r, ?Nat.sub_0_r; auto. rewrite IHk. f_equal. lia. Qed.

Lemma map_seq_shift {A} (g : nat -> A) k n s : map g (seq (s + k) n) = map (fun i => g (i + k)) (seq s n).
Proof. revert s. induction n as [|n IH]; intros s; [reflexivity|]. simpl. f_equal. apply (IH (S s)). Qed.

Lemma emits_shift d p n q : p <> 0 -> d <= n -> emits d p (n + q * p) = emits d p n.
Proof.
  intros Hp Hd. unfold emits. replace (n + q * p - d) with (n - d + q * p) by lia.
  rewrite Nat.mod_add by auto. f_equal. destruct (Nat.leb_spec d (n + q * p)), (Nat.leb_spec d n); auto; lia.
Qed.

Theorem core_restart sh m a a' b q : core sh m -> rnn_free m -> length a' = length a + q * per m ->
  exists ys m1 ys' m1', feed (nstep true) m (a ++ b) = Ok (ys, m1) /\ feed (nstep true) m (a' ++ b) = Ok (ys', m1') /\
   let R := Z.to_nat (padg m) + ph m in
   skipn (length a + R) ys = skipn (length a' + R) ys'.
Proof.
  intros Hc Hr L. pose proof (core_ok sh m Hc) as Ho. pose proof (per_pos m Ho) as Hp. assert (Hp0 : per m <> 0) by lia.
  destruct (core_strd sh m Hc) as (A1 & A2 & A3).
  destruct (core_accepts sh m Hc (S (length a' + length b))) as [N HN].
  set (ws := repeat f0 N).
  destruct (HN ((a ++ b) ++ ws)) as (zs & E & Lz); [unfold ws; rewrite app_length, repeat_length; lia|].
  destruct (HN ((a' ++ b) ++ ws)) as (zs' & E' & Lz'); [unfold ws; rewrite app_length, repeat_length; lia|].
  destruct (core_sched sh m _ _ _ Hc E) as (m1 & F1). destruct (core_sched sh m _ _ _ Hc E') as (m1' & F1').
  rewrite F1, F1'. do 4 eexists. split; [reflexivity|]. split; [reflexivity|]. cbv zeta.
  rewrite !app_length. set (R := Z.to_nat (padg m) + ph m). rewrite !skipn_map, !skipn_seq.
  replace (length a' + length b - (length a' + R)) with (length a + length b - (length a + R)) by lia.
  replace (0 + (length a' + R)) with (length a + R + q * per m) by lia. rewrite (map_seq_shift _ (q * per m)). cbn [Nat.add].
  apply map_ext_in. intros n Hn%in_seq. unfold scheduled.
  rewrite emits_shift by (unfold R in Hn; lia).
  destruct (emits (ph m) (per m) n) eqn:Em; [|reflexivity].
  unfold emits in Em. apply andb_prop in Em as [Em1 Em2].
  assert (Hj : (n - ph m) / per m * per m = n - ph m).
  { apply Nat.eqb_eq in Em2. pose proof (Nat.div_mod (n - ph m) (per m) Hp0) as D. rewrite Em2, Nat.add_0_r in D.
    rewrite Nat.mul_comm. symmetry. exact D. }
  assert (Hq : (n + q * per m - ph m) / per m = (n - ph m) / per m + q).
  { replace (n + q * per m - ph m) with (n - ph m + q * per m) by (unfold R in Hn; lia). now apply div_shift. }
  rewrite Hq.
  destruct (core_shifts sh m Hc Hr ((a ++ b) ++ ws) ((a' ++ b) ++ ws) zs zs' q) as (_ & _ & W); auto.
  - rewrite !app_length. lia.
  - intros ->. simpl in Lz. lia.
  - generalize dependent ((n - ph m) / per m). intros j Hj Hq. unfold R in Hn. apply W.
    + rewrite A1, <- Nat2Z.inj_mul, Hj. lia.
    + intros i Hi. rewrite A1, <- Nat2Z.inj_mul, Hj in Hi.
      assert (Hi2 : length a <= i) by lia.
      rewrite <- !app_assoc. rewrite (nth_error_app2 a), (nth_error_app2 a') by lia. f_equal. lia.
Qed.

Theorem net_restart sh m a a' b q : net sh m -> rnn_free m ->
  Z.of_nat (length a') = (Z.of_nat (length a) + Z.of_nat q * strd m)%Z ->
  exists us ys m1 us' ys' m1',
    feed (nstep true) m (a ++ b) = Ok (us ++ ys, m1) /\ length us = length a /\
    feed (nstep true) m (a' ++ b) = Ok (us' ++ ys', m1') /\ length us' = length a' /\
    skipn (Z.to_nat (rfield m - 1)) ys = skipn (Z.to_nat (rfield m - 1)) ys'.
Proof.
  intros Hn Hr L. destruct (net_core sh m Hn) as [Hc []].
  destruct (core_restart sh m a a' b q Hc Hr) as (ys & m1 & ys' & m1' & E & E' & H); [lia|].
  pose proof (feed_length _ _ _ _ _ E) as L1. pose proof (feed_length _ _ _ _ _ E') as L2. rewrite app_length in L1, L2.
  exists (firstn (length a) ys), (skipn (length a) ys), m1, (firstn (length a') ys'), (skipn (length a') ys'), m1'.
  rewrite !firstn_skipn, !firstn_length. split; [auto|]. split; [lia|]. split; [auto|]. split; [lia|].
  cbv zeta in H. assert (G : forall A i j (l : list A), skipn i (skipn j l) = skipn (j + i) l).
  { clear. induction j; intros l; [reflexivity|]. destruct l; [now rewrite !skipn_nil|]. simpl. auto. }
  rewrite !G. replace (Z.to_nat (rfield m - 1)) with (Z.to_nat (padg m) + ph m) by lia. exact H.
Qed.

Lemma clean_feed m xs : forall ys m', cond_free m -> feed (nstep true) m xs = Ok (ys, m') -> clean m' = clean m /\ cond_free m'.
Proof.
  revert m. induction xs as [|x xs IH]; intros m ys m' Hc E; cbn [feed] in E; [injection E as <- <-; auto|].
  destruct (nstep true m x) as [[y m1]|] eqn:E1; [|discriminate]. cbn [bind] in E.
  destruct (feed (nstep true) m1 xs) as [[zs m2]|] eqn:E2; [|discriminate]. cbn [bind] in E. injection E as <- <-.
  assert (G : clean m1 = clean m /\ cond_free m1).
  { unfold nstep in E1. destruct (step m (VT x) true) as [[v m0]|] eqn:E3; [|discriminate]. cbn [bind] in E1.
    apply (clean_step m Hc (VT x) true v m0) in E3.
    destruct v; try discriminate; injection E1 as <- <-; auto. }
  destruct G as [G1 G2]. destruct (IH m1 zs m2 G2 E2) as [H1 H2]. split; congruence.
Qed.

Theorem net_clean_mid sh m a b q : net sh m -> rnn_free m -> Z.of_nat (length a) = (Z.of_nat q * strd m)%Z ->
  exists us m1 ys m2 ys' m2',
    feed (nstep true) m a = Ok (us, m1) /\
    feed (nstep true) m1 b = Ok (ys, m2) /\ feed (nstep true) (clean m1) b = Ok (ys', m2') /\
    skipn (Z.to_nat (rfield m - 1)) ys = skipn (Z.to_nat (rfield m - 1)) ys'.
Proof.
  intros Hn Hr L. destruct (net_restart sh m [] a b q Hn Hr) as (us & ys & m1 & us' & ys' & m1' & E & L1 & E' & L2 & H); [simpl; lia|].
  destruct us; [|discriminate]. cbn [app] in E. rewrite feed_app in E'.
  destruct (feed (nstep true) m a) as [[ya ma]|] eqn:Ea; [|discriminate]. cbn [bind fst snd] in E'.
  destruct (feed (nstep true) ma b) as [[yb mb]|] eqn:Eb; [|discriminate]. cbn [bind fst snd] in E'. injection E' as E1 _.
  pose proof (feed_length _ _ _ _ _ Ea) as La.
  assert (yb = ys').
  { assert (G : forall A (a b c d : list A), a ++ b = c ++ d -> length a = length c -> b = d).
    { clear. induction a; intros b [|c0 c] d Ha Hl; simpl in *; try discriminate; [auto|]. injection Ha as _ Ha. eapply IHa; eauto. }
    eapply G; eauto. congruence. }
  subst yb. exists ya, ma, ys', mb, ys, m1. split; [auto|]. split; [auto|]. split; [|auto].
  destruct (net_core sh m Hn) as [_ []]. destruct (clean_feed m a ya ma inv_cf Ea) as [-> _].
  rewrite clean_fresh by auto. exact E.
Qed.

Theorem net_phase sh m a b us m1 ys m2 ys' m2' k y y' : net sh m ->
  feed (nstep true) m a = Ok (us, m1) -> feed (nstep true) m1 b = Ok (ys, m2) -> feed (nstep true) (clean m1) b = Ok (ys', m2') ->
  nth_error ys k = Some (Some y) -> nth_error ys' k = Some (Some y') ->
  exists q, Z.of_nat (length a) = (Z.of_nat q * strd m)%Z.
Proof.
  intros Hn Ea Eb Ec Hk Hk'. destruct (net_core sh m Hn) as [_ []].
  assert (Ecl : clean m1 = m) by (destruct (clean_feed m a us m1 inv_cf Ea) as [-> _]; now apply clean_fresh).
  rewrite Ecl in Ec.
  destruct (net_pattern sh m b Hn) as (z1 & n1 & F1 & P1). rewrite Ec in F1. injection F1 as <- <-.
  destruct (net_pattern sh m (a ++ b) Hn) as (z2 & n2 & F2 & P2). rewrite feed_app, Ea in F2. cbn [bind fst snd] in F2.
  rewrite Eb in F2. cbn [bind fst snd] in F2. injection F2 as <- <-.
  pose proof (feed_length _ _ _ _ _ Ea) as La.
  pose proof (feed_length _ _ _ _ _ Eb) as Lb.
  assert (Hkb : k < length b) by (rewrite <- Lb; apply nth_error_Some; congruence).
  apply (f_equal (fun l => nth_error l k)) in P1. apply (f_equal (fun l => nth_error l (length a + k))) in P2.
  rewrite nth_error_map, Hk' in P1. rewrite nth_error_map, nth_error_app2 in P2 by lia.
  replace (length a + k - length us) with k in P2 by lia. rewrite Hk in P2. cbn [option_map is_some] in P1, P2.
  rewrite nth_map_seq, app_length in P2. rewrite nth_map_seq in P1.
  replace (length a + k <? length a + length b) with true in P2 by (symmetry; apply Nat.ltb_lt; lia).
  replace (k <? length b) with true in P1 by (symmetry; apply Nat.ltb_lt; lia).
  injection P1 as P1. injection P2 as P2. unfold emits in P1, P2.
  symmetry in P1, P2. apply andb_prop in P1 as [Q1 Q2]. apply andb_prop in P2 as [R1 R2].
  apply Nat.leb_le in Q1, R1. apply Nat.eqb_eq in Q2, R2.
  assert (Hs : Z.to_nat (strd m) <> 0) by (rewrite inv_strd, Nat2Z.id; pose proof (per_pos m inv_ok); lia).
  set (D := Z.to_nat (del m)) in *. set (s := Z.to_nat (strd m)) in *.
  apply Nat.mod_divides in Q2 as [u Q2]; auto. apply Nat.mod_divides in R2 as [v R2]; auto.
  exists (v - u). assert (Es : strd m = Z.of_nat s) by (unfold s; lia). rewrite Es.
  rewrite <- Nat2Z.inj_mul. f_equal. rewrite Nat.mul_sub_distr_r, (Nat.mul_comm v), (Nat.mul_comm u), <- Q2, <- R2. lia.
Qed.

End NetShift.
