(** Output length of [forward] for networks with parallel branches. *)
From Coq Require Import List ZArith Bool Arith Lia ZifyBool ZifyNat.
From Verif Require Import Base Frames CoMod Leaf Rnn Net Spec LeafSpec Ring LeafProof LeafMore NetSpec NetOk Calls NetDef NetCore NetFwd NetPad NetAcc NetRes.
Import ListNotations.
Ltac Zify.zify_post_hook ::= Z.div_mod_to_equations.

Section NetLen.
Context {F : Type} {FA : Frames F} {FL : FrameLaws F}.
Implicit Types m : md F.
Implicit Types ms : list (md F).

Definition law m := forall xs ys, xs <> [] -> nfwd m xs = Ok ys ->
  Z.of_nat (length ys) = ((Z.of_nat (length xs) + 2 * padg m - rfield m) / strd m + 1)%Z /\ ys <> [].

Lemma law_conv c : conv_ok c -> law (MConv c obj_init).
Proof. intros H xs ys Hx E. apply chain_len; auto. now constructor. Qed.
Lemma law_pool c : pool_ok c -> law (MPool c obj_init).
Proof. intros H xs ys Hx E. apply chain_len; auto. now constructor. Qed.
Lemma law_map g : law (MMap g).
Proof. intros xs ys Hx E. apply chain_len; auto. now constructor. Qed.
Lemma law_rnn c : law (MRnn c None).
Proof.
  intros xs ys Hx E. unfold nfwd in E. cbn [fwd] in E. 
  unfold rnn_forward in E. destruct (torch_rnn c xs None) as [[y h]|] eqn:Er; [|discriminate]. cbn [bind] in E. injection E as <-.
  pose proof (torch_rnn_len _ _ _ _ Hx Er) as L. cbn [padg rfield strd]. rewrite Z.div_1_r, L. split; [lia|].
  destruct y; [destruct xs; [congruence|discriminate]|discriminate].
Qed.

Lemma law_seq ms : Forall isclip ms -> Forall law ms -> Forall (fun m => (1 <= strd m)%Z) ms -> law (MSeq ms).
Proof.
  intros Hc HL Hs. induction ms as [|m t IHt]; intros xs ys Hx E.
  - unfold nfwd in E. cbn in E. injection E as <-. cbn. rewrite Z.div_1_r. split; [lia|auto].
  - inversion Hc as [|? ? C1 C2]; inversion HL as [|? ? L1 L2]; inversion Hs as [|? ? S1 S2]; subst.
    apply seq_fwd_cons in E as (y & E1 & E2); auto.
    destruct (L1 xs y Hx E1) as [Q1 N1]. destruct (IHt C2 L2 S2 y ys N1 E2) as [Q2 N2].
    split; [|auto]. rewrite Q2, Q1, strd_cons, padg_cons, rfield_cons. f_equal.
    assert (S3 : (1 <= strd (MSeq t))%Z).
    { clear -S2. induction S2 as [|a t Ha HF IH]; [cbn; lia|]. rewrite strd_cons. nia. }
    rewrite <- Z.div_div by lia. f_equal.
    replace (Z.of_nat (length xs) + 2 * (padg m + strd m * padg (MSeq t)) - (rfield m + strd m * (rfield (MSeq t) - 1)))%Z
      with (Z.of_nat (length xs) + 2 * padg m - rfield m + (1 + 2 * padg (MSeq t) - rfield (MSeq t)) * strd m)%Z by lia.
    rewrite Z.div_add by lia. lia.
Qed.

(** The branches of a BroadcastReduce with a common length law. *)
Lemma law_br ms r a : Forall isclip ms -> 2 <= length ms -> same_len ms -> In a ms ->
  (forall xs ys, xs <> [] -> nfwd a xs = Ok ys ->
     Z.of_nat (length ys) = ((Z.of_nat (length xs) + 2 * padg (MBR ms r) - rfield (MBR ms r)) / strd (MBR ms r) + 1)%Z /\ ys <> []) ->
  law (MBR ms r).
Proof.
  intros Hc Hl Hsl Ha H xs ys Hx E. destruct ms as [|m t]; [simpl in Hl; lia|].
  assert (Ht : t <> []) by (destruct t; [simpl in Hl; lia|discriminate]).
  apply br_fwd_inv in E as (zss & n & HF & -> & Hn); auto.
  destruct (F2_in_l _ _ _ _ HF Ha) as (z & Hz & Ez). destruct (H xs z Hx Ez) as [Q N].
  rewrite Forall_forall in Hn. pose proof (Hn z Hz) as Lz.
  assert (Hzs : zss <> []) by (destruct zss; [destruct Hz|discriminate]).
  assert (Lr : length (redz r zss) = n) by (apply redz_length; [auto|apply Forall_forall; auto]).
  rewrite Lr, <- Lz. split; [exact Q|]. intros En. rewrite En in Lr. simpl in Lr. destruct z; [congruence|simpl in Lz; lia].
Qed.

Lemma law_same_len sh ms : (forall x, In x ms -> core sh x) ->
  (forall a b, In a ms -> In b ms -> forall xs ys zs, xs <> [] -> nfwd a xs = Ok ys -> nfwd b xs = Ok zs ->
     length ys = length zs) -> same_len ms.
Proof.
  intros Hc H a b xs y1 y2 Ha Hb E1 E2. destruct xs as [|x xs].
  - rewrite (fwd_nil sh a (Hc a Ha) _ E1), (fwd_nil sh b (Hc b Hb) _ E2). reflexivity.
  - eapply (H a b Ha Hb); eauto. discriminate.
Qed.

Lemma rf_delay_to D m : inv m -> (del m <= D)%Z -> strd m = 1%Z ->
  rfield (delay_to D m) = (rfield m + (D - del m))%Z /\ padg (delay_to D m) = padg m.
Proof.
  intros Hi HD Hs. unfold delay_to. destruct (Z.ltb (del m) D) eqn:E; [|split; lia].
  rewrite rfield_cons, padg_cons, rfield_cons, padg_cons, Hs.
  change (rfield (MSeq [])) with 1%Z. change (padg (MSeq [])) with 0%Z. cbn [rfield padg strd]. lia.
Qed.

Theorem regular_net sh m : regular sh m -> net sh m /\ law m.
Proof.
  induction 1 as [c H|c H Hp|g|c|ms Hms IH|ms r auto m Hms IH Hal Hrf Hmk|m0 tf r rs m H0 IH Hsh Hres].
  - split; [now constructor|now apply law_conv].
  - split; [now constructor|now apply law_pool].
  - split; [constructor|apply law_map].
  - split; [constructor|apply law_rnn].
  - split; [constructor; intros; apply IH; auto|].
    assert (HN : forall x, In x ms -> core sh x /\ inv x) by (intros; apply net_core; apply IH; auto).
    unfold mk_seq. rewrite (infer_core sh) by (apply Forall_forall; intros; apply HN; auto).
    apply law_seq; apply Forall_forall; intros x Hx.
    + eapply core_isclip, HN; auto.
    + apply IH; auto.
    + destruct (HN x Hx) as [_ []]. pose proof (per_pos x inv_ok). lia.
  - pose proof Hmk as Hmk0. apply mk_br_inv in Hmk0 as (-> & Hlen & Hst).
    set (ms' := if auto then auto_delay ms else ms) in *.
    assert (HN : forall x, In x ms -> core sh x /\ inv x) by (intros; apply net_core; apply IH; auto).
    (* the numbers of the branches *)
    assert (HB : (forall y, In y ms' -> core sh y /\ exists x, In x ms /\ (forall xs, nfwd y xs = nfwd x xs) /\ strd x = strd y) /\
      (forall x, In x ms -> (zmax_list (map rfield ms') - 2 * zmax_list (map padg ms') = rfield x - 2 * padg x)%Z) /\
      (forall x y, In x ms -> In y ms -> strd x = strd y)).
    { assert (Hne : ms <> []) by (intros ->; subst ms'; destruct auto; simpl in Hlen; lia).
      destruct Hal as [Hal|[-> Hal]].
      - assert (ms' = ms) as Em.
        { subst ms'. destruct auto; auto. unfold auto_delay.
          transitivity (map (fun x : md F => x) ms); [|apply map_id]. apply map_ext_in. intros a Ha.
          apply inv_align; [apply HN; auto|]. apply zmax_char; [apply in_map; auto|].
          intros z Hz. apply in_map_iff in Hz as (b & <- & Hb). rewrite (Hal b a); auto; lia. }
        clearbody ms'. subst ms'. repeat split; auto.
        + apply HN; auto.
        + exists y. auto.
        + intros x Hx.
          assert (Q : forall b, In b ms -> padg b = padg x /\ rfield b = rfield x).
          { intros b Hb. pose proof (Hal b x Hb Hx). pose proof (Hrf b x Hb Hx).
            destruct (HN b Hb) as [_ []], (HN x Hx) as [_ []]. lia. }
          rewrite (zmax_char (map rfield ms) (rfield x)), (zmax_char (map padg ms) (padg x)); auto using in_map.
          * intros z Hz. apply in_map_iff in Hz as (b & <- & Hb). destruct (Q b Hb). lia.
          * intros z Hz. apply in_map_iff in Hz as (b & <- & Hb). destruct (Q b Hb). lia.
      - subst ms'. unfold auto_delay in *. set (D := zmax_list (map del ms)) in *.
        assert (HD : forall x, In x ms -> (del x <= D)%Z) by (intros; apply zmax_ge, in_map; auto).
        split; [|split].
        + intros y Hy. apply in_map_iff in Hy as (x & <- & Hx). destruct (HN x Hx) as [Hc Hi]. split; [now apply core_delay_to|].
          exists x. split; [auto|]. split; [intros; eapply nfwd_delay_to; eauto|].
          destruct (inv_delay_to D x Hi (HD x Hx) (Hal x Hx)) as (_ & _ & ->). auto.
        + intros x Hx. pose proof (Hrf) as Hrf'.
          set (cc := (rfield x - 2 * padg x)%Z).
          assert (Hcc : forall b, In b ms -> (rfield b = cc + 2 * padg b /\ del b = cc + padg b - 1)%Z).
          { intros b Hb. pose proof (Hrf b x Hb Hx). destruct (HN b Hb) as [_ []]. subst cc. lia. }
          assert (HDin : In D (map del ms)) by (apply zmax_in; destruct ms; [congruence|discriminate]).
          apply in_map_iff in HDin as (a & Ea & Hina).
          destruct (Hcc a Hina) as [Ra Da].
          rewrite (zmax_char (map rfield (map (delay_to D) ms)) (rfield a)), (zmax_char (map padg (map (delay_to D) ms)) (padg a)); [lia|..].
          * apply in_map_iff. exists (delay_to D a). split; [|now apply in_map].
            apply rf_delay_to; [apply HN; auto|auto|auto].
          * intros z Hz. rewrite map_map in Hz. apply in_map_iff in Hz as (b & <- & Hb).
            destruct (rf_delay_to D b) as [_ ->]; [apply HN; auto|auto|auto|]. destruct (Hcc b Hb). pose proof (HD b Hb). lia.
          * apply in_map_iff. exists (delay_to D a). split; [|now apply in_map].
            destruct (rf_delay_to D a) as [-> _]; [apply HN; auto|auto|auto|]. lia.
          * intros z Hz. rewrite map_map in Hz. apply in_map_iff in Hz as (b & <- & Hb).
            destruct (rf_delay_to D b) as [-> _]; [apply HN; auto|auto|auto|]. destruct (Hcc b Hb). pose proof (HD b Hb). lia.
        + intros x y Hx Hy. rewrite (Hal x), (Hal y); auto. }
    destruct HB as (HB1 & HB2 & HB3).
    assert (Hs' : forall y, In y ms' -> strd (MBR ms' r) = strd y).
    { intros y Hy. destruct ms' as [|y0 t]; [destruct Hy|]. cbn [strd]. apply Hst; auto. left; auto. }
    assert (Hlaw : forall y, In y ms' -> forall xs ys, xs <> [] -> nfwd y xs = Ok ys ->
      Z.of_nat (length ys) = ((Z.of_nat (length xs) + 2 * padg (MBR ms' r) - rfield (MBR ms' r)) / strd (MBR ms' r) + 1)%Z /\ ys <> []).
    { intros y Hy xs ys Hx E. destruct (HB1 y Hy) as (_ & x & Hinx & En & Es). rewrite En in E.
      destruct (proj2 (IH x Hinx) xs ys Hx E) as [Q N]. split; [|auto]. rewrite Q. cbn [padg rfield].
      pose proof (HB2 x Hinx) as Q2. rewrite (Hs' y Hy), Es. f_equal. f_equal. lia. }
    assert (Hsl : same_len ms').
    { apply (law_same_len sh); [intros; apply HB1; auto|]. intros a b Ha Hb. intros xs ys zs Hx E1 E2.
      destruct (Hlaw a Ha xs ys Hx E1) as [Q1 _], (Hlaw b Hb xs zs Hx E2) as [Q2 _]. lia. }
    split.
    + eapply net_br; eauto. intros; apply IH; auto.
    + assert (exists a, In a ms') as [a Ha] by (destruct ms' as [|a t]; [simpl in Hlen; lia|exists a; left; auto]).
      eapply law_br; eauto. apply Forall_forall. intros y Hy. eapply core_isclip, HB1; auto.
  - destruct IH as [Hn HL]. destruct (net_core sh m0 Hn) as [Hc Hi]. pose proof Hi as [].
    assert (G : same_len (branches m) /\ law m).
    { unfold residual in Hres. destruct (negb (strd m0 =? 1)%Z) eqn:Es; [discriminate|].
      assert (Hs1 : strd m0 = 1%Z) by lia.
      assert (Key : forall br L, core sh br -> (rfield br <= rfield m0)%Z -> padg br = 0%Z -> strd br = 1%Z ->
         (forall xs, exists ys, nfwd br xs = Ok ys /\ length ys = length xs - L) ->
         Z.of_nat L = (rfield m0 - 1 - 2 * padg m0)%Z ->
         mk_br [br; m0] r false = Ok m -> same_len (branches m) /\ law m).
      { intros br L B1 B2 B3 B4 B5 B6 Hmk. apply mk_br_inv in Hmk as (-> & _ & _). cbn [branches].
        assert (Q : forall xs ys zs, xs <> [] -> nfwd br xs = Ok ys -> nfwd m0 xs = Ok zs -> length ys = length zs).
        { intros xs ys zs Hx E1 E2. destruct (HL xs zs Hx E2) as [Q N]. rewrite Hs1, Z.div_1_r in Q.
          destruct (B5 xs) as (ys' & E1' & L1). rewrite E1 in E1'. injection E1' as <-.
          assert (length zs <> 0) by (destruct zs; [congruence|discriminate]). lia. }
        assert (Hsl : same_len [br; m0]).
        { apply (law_same_len sh); [intros x [<-|[<-|[]]]; auto|]. intros a b Ha Hb. intros xs ys zs Hx E1 E2.
          destruct Ha as [<-|[<-|[]]], Hb as [<-|[<-|[]]]; try congruence; [eapply Q; eauto|symmetry; eapply Q; eauto]. }
        split; [auto|]. eapply (law_br _ r m0); auto.
        - constructor; [eapply core_isclip; eauto|constructor; [eapply core_isclip; eauto|constructor]].
        - right; left; auto.
        - intros xs ys Hx E. destruct (HL xs ys Hx E) as [Q1 N]. split; [|auto]. rewrite Q1.
          cbn [padg rfield strd map zmax_list fold_left]. rewrite B3, B4, Hs1. f_equal. f_equal. lia. }
      destruct (rfield m0 - padg m0 * 2 =? 1)%Z eqn:Er.
      - cbn [bind] in Hres. destruct (del m0 <? 0)%Z eqn:Ed; [discriminate|]. cbn [bind] in Hres.
        eapply (Key _ 0); [..|exact Hres]; try lia; try (cbn; auto; lia); [constructor; auto|]. 
        intros xs. exists xs. split; [reflexivity|lia].
      - destruct Hsh as [Hsh|[Hp Hsh]]; [lia|]. destruct Hsh as [->|[-> [->| ->]]]; cbn [bind] in Hres.
        + destruct (0 <? del m0)%Z eqn:Ed; [|discriminate]. cbn [bind] in Hres.
          eapply (Key _ (Z.to_nat (del m0))); [..|exact Hres]; try lia; try (cbn; auto; lia); [constructor|].
          intros xs. eexists. split; [reflexivity|]. unfold skip_forward. apply skipn_length.
        + destruct (del m0 mod 2 =? 0)%Z eqn:E2; [|discriminate]. cbn [bind] in Hres.
          destruct (del m0 / 2 <? 0)%Z eqn:Ed; [discriminate|]. cbn [bind] in Hres.
          eapply (Key _ (Z.to_nat (del m0))); [..|exact Hres]; try lia; try (cbn; auto; lia); [constructor; auto|].
          intros xs. eexists. split; [reflexivity|]. unfold delay_forward, slice_ab.
          destruct (Z.to_nat (del m0 / 2) =? 0) eqn:Ez; [lia|]. rewrite skipn_length, firstn_length. lia.
        + destruct (del m0 <? 0)%Z eqn:Ed; [discriminate|]. cbn [bind] in Hres.
          eapply (Key _ (Z.to_nat (del m0))); [..|exact Hres]; try lia; try (cbn; auto; lia); [constructor; auto|].
          intros xs. eexists. split; [reflexivity|]. unfold delay_forward, slice_ab.
          destruct (Z.to_nat (del m0) =? 0) eqn:Ez; [lia|]. rewrite skipn_length, firstn_length. lia. }
    destruct G as [G1 G2]. split; [|auto]. eapply net_res; eauto.
    destruct Hsh as [Hsh|[Hp Hsh]]; [left; auto|]. unfold shrink_allowed. tauto.
Qed.

End NetLen.
