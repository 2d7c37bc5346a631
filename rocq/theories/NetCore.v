(** Networks: reported delays and strides are the real ones. *)
From Coq Require Import List ZArith Bool Arith Lia ZifyBool ZifyNat.
From Verif Require Import Base Frames CoMod Leaf Rnn Net Spec LeafSpec Ring LeafProof NetSpec NetOk Calls NetDef.
Import ListNotations.
Ltac Zify.zify_post_hook ::= Z.div_mod_to_equations.

Section NetCore.
Context {F : Type} {FA : Frames F} {FL : FrameLaws F}.
Implicit Types m : md F.
Implicit Types ms : list (md F).

(* ------------------------------------------------------------------ *)
(** ** Algebra of receptive fields, strides, paddings *)
Section Alg.
Local Open Scope Z_scope.

Lemma fold_mul l : forall a, fold_left Z.mul l a = a * fold_left Z.mul l 1.
Proof.
  induction l as [|x l IH]; intros a; cbn [fold_left]; [lia|].
  rewrite (IH (a * x)), (IH (1 * x)). lia.
Qed.
Lemma strd_cons m t : strd (MSeq (m :: t)) = strd m * strd (MSeq t).
Proof. cbn [strd map fold_left]. rewrite fold_mul. f_equal. destruct (strd m); reflexivity. Qed.

Lemma rfield_cons m t : rfield (MSeq (m :: t)) = rfield m + strd m * (rfield (MSeq t) - 1).
Proof.
  cbn [rfield map rev].
  destruct (rev (map (fun m => (rfield m, strd m)) t)) as [|[r s] l]; cbn [app].
  - cbn [fold_left]. lia.
  - rewrite fold_left_app. cbn [fold_left fst snd]. lia.
Qed.

Definition padf (ps m : Z * Z) : Z * Z := (fst ps + fst m * snd ps, snd ps * snd m).
Lemma padf_fold l : forall p s, fst (fold_left padf l (p, s)) = p + s * fst (fold_left padf l (0, 1)).
Proof.
  induction l as [|[q r] l IH]; intros p s; cbn [fold_left]; [cbn; lia|].
  unfold padf at 2 4. cbn [fst snd]. rewrite (IH (p + q * s)), (IH (0 + q * 1)). 
  rewrite Z.mul_1_l. lia.
Qed.
Lemma padg_seq ms : padg (MSeq ms) = fst (fold_left padf (map (fun m => (padg m, strd m)) ms) (0, 1)).
Proof.
  cbn [padg]. destruct ms as [|m t]; [reflexivity|]. cbn [map fold_left]. unfold padf at 2. cbn [fst snd].
  change (fun ps m : Z * Z => (fst ps + fst m * snd ps, snd ps * snd m)) with padf.
  rewrite Z.mul_1_r, Z.mul_1_l, Z.add_0_l. reflexivity.
Qed.
Lemma padg_cons m t : padg (MSeq (m :: t)) = padg m + strd m * padg (MSeq t).
Proof.
  rewrite !padg_seq. cbn [map fold_left]. unfold padf at 2. cbn [fst snd]. rewrite padf_fold. lia.
Qed.

Lemma fold_max_ge l : forall a, a <= fold_left Z.max l a /\ (forall x, In x l -> x <= fold_left Z.max l a) /\
  (fold_left Z.max l a = a \/ In (fold_left Z.max l a) l).
Proof.
  induction l as [|y l IH]; intros a; cbn [fold_left].
  - repeat split; auto; try lia. intros x [].
  - destruct (IH (Z.max a y)) as (H1 & H2 & H3). split; [lia|]. split.
    + intros x [->|Hx]; [lia|auto].
    + destruct H3 as [H3|H3]; [|right; right; auto]. rewrite H3.
      destruct (Z.max_spec a y) as [[? ->]|[? ->]]; [right; left|left]; auto.
Qed.
Lemma zmax_ge l x : In x l -> x <= zmax_list l.
Proof.
  destruct l as [|y l]; [intros []|]. cbn [zmax_list]. destruct (fold_max_ge l y) as (H1 & H2 & _).
  intros [->|H]; auto.
Qed.
Lemma zmax_in l : l <> [] -> In (zmax_list l) l.
Proof.
  destruct l as [|y l]; [congruence|]. intros _. cbn [zmax_list].
  destruct (fold_max_ge l y) as (_ & _ & [->|H]); [left|right]; auto.
Qed.
Lemma zmax_char l z : In z l -> (forall x, In x l -> x <= z) -> zmax_list l = z.
Proof.
  intros Hi Hz. assert (l <> []) by (destruct l; [destruct Hi|discriminate]).
  pose proof (zmax_ge l z Hi). pose proof (Hz _ (zmax_in l H)). lia.
Qed.
End Alg.

(* ------------------------------------------------------------------ *)
(** ** The reported numbers of a new network *)

(** Reported stride, delay and receptive field against the real schedule. *)
Record inv m : Prop := {
  inv_ok : ok m;
  inv_fresh : fresh m;
  inv_cf : cond_free m;
  inv_strd : strd m = Z.of_nat (per m);
  inv_del : del m = Z.of_nat (ph m);
  inv_rf : (rfield m - 1 - padg m = del m)%Z;
  inv_pad : (0 <= padg m)%Z
}.

Lemma seq_del ms : del (MSeq ms) = (rfield (MSeq ms) - 1 - padg (MSeq ms))%Z.
Proof. reflexivity. Qed.

Lemma inv_seq ms : Forall inv ms -> inv (MSeq ms).
Proof.
  induction 1 as [|m t Hm HF IH].
  - constructor; simpl; auto; lia.
  - destruct Hm, IH. constructor.
    + split; auto.
    + split; auto.
    + split; auto.
    + rewrite strd_cons, inv_strd0, inv_strd1. change (per (MSeq (m :: t))) with (per m * per (MSeq t)). lia.
    + rewrite seq_del, rfield_cons, padg_cons. change (ph (MSeq (m :: t))) with (ph m + per m * ph (MSeq t)).
      rewrite inv_strd0. rewrite seq_del in *. nia.
    + reflexivity.
    + rewrite padg_cons. nia.
Qed.

(** Core networks: what the other proofs need, in terms of the real schedule. *)
Inductive core (sh : bool) : md F -> Prop :=
| core_conv c : conv_ok c -> core sh (MConv c obj_init)
| core_pool c : pool_ok c -> 2 * pp c <= pk c -> core sh (MPool c obj_init)
| core_delay d f s : s = ShNo \/ (sh = true /\ (s = ShTrue \/ s = ShLagging)) -> core sh (MDelay d f s obj_init)
| core_skip n : core sh (MSkip n (skip_init n))
| core_map g : core sh (MMap g)
| core_rnn c : core sh (MRnn c None)
| core_seq ms : (forall m, In m ms -> core sh m) -> core sh (MSeq ms)
| core_br m t r : (forall x, In x (m :: t) -> core sh x) -> t <> [] ->
    (forall x, In x t -> ph x = ph m /\ per x = per m) ->
    same_len (m :: t) -> core sh (MBR (m :: t) r).

Lemma core_seq2 sh a b : core sh a -> core sh b -> core sh (MSeq [a; b]).
Proof. intros Ha Hb. constructor. intros m [<-|[<-|[]]]; auto. Qed.

Lemma inv_delay d f : inv (MDelay d f ShNo obj_init).
Proof.
  constructor; try (simpl; auto; lia).
  simpl. destruct (d =? 0) eqn:E; lia.
Qed.

Lemma inv_conv c : conv_ok c -> inv (MConv c obj_init).
Proof.
  intros []. constructor; try (simpl; auto; lia).
  - simpl. split; [constructor; auto|auto].
  - cbn [del rfield padg]. unfold conv_rf. simpl. lia.
Qed.
Lemma inv_pool c : pool_ok c -> inv (MPool c obj_init).
Proof.
  intros []. constructor; try (simpl; auto; lia).
  - simpl. split; [|auto]. constructor; auto; rewrite ?pok_d; lia.
  - cbn [del rfield padg]. unfold pool_rf. simpl. rewrite pok_d. lia.
Qed.

(** Adding the automatic delay. *)
Lemma inv_delay_to D m : inv m -> (del m <= D)%Z -> strd m = 1%Z ->
  inv (delay_to D m) /\ del (delay_to D m) = D /\ strd (delay_to D m) = 1%Z.
Proof.
  intros Hm HD Hs. unfold delay_to. destruct (Z.ltb (del m) D) eqn:E.
  - assert (H : inv (MSeq [m; MDelay (Z.to_nat (D - del m)) Zeros ShNo obj_init])).
    { apply inv_seq. constructor; [auto|]. constructor; [apply inv_delay|constructor]. }
    split; [auto|]. destruct Hm.
    rewrite seq_del, rfield_cons, padg_cons, rfield_cons, padg_cons, !strd_cons, Hs.
    change (strd (MSeq [])) with 1%Z. change (rfield (MSeq [])) with 1%Z. change (padg (MSeq [])) with 0%Z.
    cbn [rfield padg strd]. lia.
  - split; [auto|]. lia.
Qed.

Lemma core_delay_to sh D m : core sh m -> core sh (delay_to D m).
Proof.
  intros H. unfold delay_to. destruct (Z.ltb (del m) D); [|auto].
  apply core_seq2; [auto|]. constructor. auto.
Qed.

Lemma inv_br ms r : ms <> [] -> (r_min2 r = true -> 2 <= length ms) -> Forall inv ms ->
  (forall a b, In a ms -> In b ms -> del a = del b /\ strd a = strd b) ->
  inv (MBR ms r).
Proof.
  intros Hn H2 HF Heq. destruct ms as [|m t]; [congruence|]. clear Hn.
  rewrite Forall_forall in HF.
  assert (Hm : inv m) by (apply HF; left; auto).
  assert (Hd : forall x, In x (m :: t) -> del x = del m /\ strd x = strd m).
  { intros x Hx. apply Heq; auto. left; auto. }
  assert (Hrf : (zmax_list (map rfield (m :: t)) = del m + 1 + zmax_list (map padg (m :: t)))%Z).
  { apply zmax_char.
    - assert (In (zmax_list (map padg (m :: t))) (map padg (m :: t))) as Hi by (apply zmax_in; discriminate).
      apply in_map_iff in Hi as (x & Ex & Hx). apply in_map_iff. exists x. split; auto.
      destruct (HF x Hx). destruct (Hd x Hx). lia.
    - intros z Hz. apply in_map_iff in Hz as (x & <- & Hx). destruct (HF x Hx). destruct (Hd x Hx).
      assert (padg x <= zmax_list (map padg (m :: t)))%Z by (apply zmax_ge, in_map; auto). lia. }
  assert (Hdel : zmax_list (map del (m :: t)) = del m).
  { apply zmax_char; [left; auto|]. intros z Hz. apply in_map_iff in Hz as (x & <- & Hx).
    destruct (Hd x Hx). lia. }
  constructor.
  - cbn [ok]. split; [|split; auto].
    + apply allP_Forall, Forall_forall. intros x Hx. apply HF; auto.
    + apply allP_Forall, Forall_forall. intros x Hx. destruct (Hd x) as [E1 E2]; [right; auto|].
      destruct (HF x) ; [right; auto|]. destruct Hm. lia.
  - cbn [fresh]. apply allP_Forall, Forall_forall. intros x Hx. apply HF; auto.
  - cbn [cond_free]. apply allP_Forall, Forall_forall. intros x Hx. apply HF; auto.
  - cbn [strd per]. apply Hm.
  - cbn [ph]. change (del (MBR (m :: t) r)) with (zmax_list (map del (m :: t))). rewrite Hdel. apply Hm.
  - change (del (MBR (m :: t) r)) with (zmax_list (map del (m :: t))).
    change (rfield (MBR (m :: t) r)) with (zmax_list (map rfield (m :: t))).
    change (padg (MBR (m :: t) r)) with (zmax_list (map padg (m :: t))). lia.
  - change (padg (MBR (m :: t) r)) with (zmax_list (map padg (m :: t))).
    destruct Hm. assert (padg m <= zmax_list (map padg (m :: t)))%Z by (apply zmax_ge; left; auto). lia.
Qed.

Lemma infer_core sh ms : Forall (core sh) ms -> infer_streams ms = ms.
Proof.
  induction 1 as [|m t Hm HF IH]; [reflexivity|].
  destruct Hm; cbn [infer_streams]; rewrite IH; reflexivity.
Qed.

Lemma mk_br_inv ms r auto m : mk_br ms r auto = Ok m ->
  let ms' := if auto then auto_delay ms else ms in
  m = MBR ms' r /\ 2 <= length ms' /\
  (forall a b, In a ms' -> In b ms' -> strd a = strd b).
Proof.
  unfold mk_br. destruct (length ms <=? 1) eqn:El; [discriminate|].
  destruct (same_stride (if auto then auto_delay ms else ms)) eqn:Es; [|discriminate].
  intros [= <-]. split; [auto|]. split.
  - destruct auto; [unfold auto_delay; rewrite map_length|]; lia.
  - unfold same_stride in Es. destruct (if auto then auto_delay ms else ms) as [|x t]; [discriminate|].
    rewrite forallb_forall in Es.
    assert (forall a, In a (x :: t) -> strd a = strd x) as H.
    { intros a [<-|Ha]; auto. specialize (Es a Ha). lia. }
    intros a b Ha Hb. rewrite (H a Ha), (H b Hb). auto.
Qed.

Lemma inv_align D m : inv m -> D = del m -> delay_to D m = m.
Proof. intros _ ->. unfold delay_to. now rewrite Z.ltb_irrefl. Qed.

Theorem net_core sh m : net sh m -> core sh m /\ inv m.
Proof.
  induction 1 as [c H|c H Hp|d f|g|c|ms Hms IH|ms r auto m Hms IH Hal Hmk Hsl|m0 tf r rs m H0 IH Hsh Hres Hsl].
  - split; [now constructor|now apply inv_conv].
  - split; [now constructor|now apply inv_pool].
  - split; [constructor; auto|apply inv_delay].
  - split; [constructor|]. constructor; simpl; auto; lia.
  - split; [constructor|]. constructor; simpl; auto; lia.
  - unfold mk_seq. assert (HC : Forall (core sh) ms).
    { apply Forall_forall. intros m Hm. apply IH; auto. }
    rewrite (infer_core sh) by auto. split.
    + constructor. intros m Hm. apply IH; auto.
    + apply inv_seq, Forall_forall. intros m Hm. apply IH; auto.
  - apply mk_br_inv in Hmk as (-> & Hlen & Hst). cbn [branches] in Hsl.
    set (ms' := if auto then auto_delay ms else ms) in *.
    assert (HI : (forall x, In x ms' -> core sh x /\ inv x) /\ (forall a b, In a ms' -> In b ms' -> del a = del b)).
    { destruct Hal as [Hal|[-> Hal]].
      - assert (ms' = ms) as ->; [|split; auto]. subst ms'. destruct auto; auto. unfold auto_delay.
        transitivity (map (fun x : md F => x) ms); [|apply map_id]. apply map_ext_in. intros a Ha.
        apply inv_align; [apply IH; auto|]. apply zmax_char; [apply in_map; auto|].
        intros z Hz. apply in_map_iff in Hz as (b & <- & Hb). rewrite (Hal b a); auto; lia.
      - subst ms'. unfold auto_delay. set (D := zmax_list (map del ms)).
        assert (forall x, In x ms -> core sh (delay_to D x) /\ inv (delay_to D x) /\ del (delay_to D x) = D) as HD.
        { intros x Hx. destruct (IH x Hx) as [Hc Hi]. split; [now apply core_delay_to|].
          destruct (inv_delay_to D x) as (? & ? & ?); auto. apply zmax_ge, in_map; auto. }
        split.
        + intros x Hx. apply in_map_iff in Hx as (y & <- & Hy). destruct (HD y Hy) as (? & ? & ?). auto.
        + intros a b Ha Hb. apply in_map_iff in Ha as (x & <- & Hx). apply in_map_iff in Hb as (y & <- & Hy).
          destruct (HD x Hx) as (? & ? & ->). destruct (HD y Hy) as (? & ? & ->). auto. }
    destruct HI as [HI HE]. clear IH Hal. split.
    + destruct ms' as [|m t]; [simpl in Hlen; lia|]. constructor; auto.
      * intros x Hx. apply HI; auto.
      * destruct t; [simpl in Hlen; lia|discriminate].
      * intros x Hx. destruct (HI x) as [_ Hx']; [right; auto|]. destruct (HI m) as [_ Hm]; [left; auto|].
        pose proof (HE x m (or_intror Hx) (or_introl eq_refl)).
        pose proof (Hst x m (or_intror Hx) (or_introl eq_refl)). destruct Hx', Hm. lia.
    + apply inv_br; auto.
      * destruct ms'; [simpl in Hlen; lia|discriminate].
      * apply Forall_forall. intros x Hx. apply HI; auto.
  - destruct IH as [Hc Hi]. unfold residual in Hres.
    destruct (negb (strd m0 =? 1)%Z) eqn:Es; [discriminate|].
    assert (Hs1 : strd m0 = 1%Z) by lia. clear Es.
    set (rs' := if (rfield m0 - padg m0 * 2 =? 1)%Z then RNo else rs) in *.
    assert (Hrs : rs' = RNo \/ rs' = RLeading \/ (sh = true /\ (rs' = RTrue \/ rs' = RLagging))).
    { subst rs'. destruct (rfield m0 - padg m0 * 2 =? 1)%Z eqn:E; auto.
      destruct Hsh as [Hsh|Hsh]; [lia|]. auto. }
    clearbody rs'. clear Hsh.
    assert (Hph : ph m0 = Z.to_nat (del m0)) by (destruct Hi; lia).
    assert (Hper : per m0 = 1) by (destruct Hi; lia).
    assert (H0d : (0 <= del m0)%Z) by (destruct Hi; lia).
    assert (Key : forall br, core sh br -> ok br -> fresh br -> cond_free br -> ph br = Z.to_nat (del m0) -> per br = 1 ->
       strd br = 1%Z -> (0 <= padg br <= padg m0)%Z -> (rfield br <= rfield m0)%Z -> (del br <= del m0)%Z ->
       mk_br [br; m0] r false = Ok m -> core sh m /\ inv m).
    { intros br B1 B2 B3 B4 B5 B6 B7 B8 B9 B10 Hmk. apply mk_br_inv in Hmk as (-> & _ & _). cbn [branches] in Hsl.
      split.
      - constructor; auto; try discriminate.
        + intros x [<-|[<-|[]]]; auto.
        + intros x [<-|[]]. lia.
      - destruct Hi. constructor.
        + cbn [ok allP fold_right]. repeat split; auto; try lia. 
        + cbn [fresh allP fold_right]. auto.
        + cbn [cond_free allP fold_right]. auto.
        + cbn [strd per]. lia.
        + cbn [del map zmax_list fold_left ph]. lia.
        + cbn [del rfield padg map zmax_list fold_left]. cbn [del] in *. lia.
        + cbn [padg map zmax_list fold_left]. lia. }
    destruct Hi as [i1 i2 i3 i4 i5 i6 i7].
    assert (KD : forall d s, s = ShNo \/ (sh = true /\ (s = ShTrue \/ s = ShLagging)) ->
       (0 <= d <= del m0)%Z -> (match s with ShTrue => 2 * d = del m0 | _ => d = del m0 end)%Z ->
       mk_br [MDelay (Z.to_nat d) tf s obj_init; m0] r false = Ok m -> core sh m /\ inv m).
    { intros d s Hs Hd Hd2 Hmk. eapply Key; [..|exact Hmk]; try (simpl; auto; lia).
      - now constructor.
      - cbn [ph nonempty_list o_buf obj_init]. destruct (Z.to_nat d =? 0) eqn:Ed; destruct s; lia. }
    destruct Hrs as [->|[->|[-> [->| ->]]]]; cbn [bind] in Hres.
    + destruct (del m0 <? 0)%Z; [discriminate|]. cbn [bind] in Hres. eapply KD; [..|exact Hres]; auto; cbv iota; lia.
    + destruct (0 <? del m0)%Z eqn:E0; [|discriminate]. cbn [bind] in Hres. eapply Key; [..|exact Hres]; try (simpl; auto; lia).
      * constructor.
      * simpl. unfold skip_init. lia.
      * simpl. unfold skip_init. lia.
    + destruct (del m0 mod 2 =? 0)%Z eqn:E2; [|discriminate]. cbn [bind] in Hres.
      destruct (del m0 / 2 <? 0)%Z; [discriminate|]. cbn [bind] in Hres. eapply KD; [..|exact Hres]; auto; cbv iota; lia.
    + destruct (del m0 <? 0)%Z; [discriminate|]. cbn [bind] in Hres. eapply KD; [..|exact Hres]; auto; cbv iota; lia.
Qed.

End NetCore.
