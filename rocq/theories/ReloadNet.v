(** Proofs for C79: networks whose parameters change in the middle of a stream. *)
From Coq Require Import List ZArith Bool Arith Lia ZifyBool ZifyNat.
From Verif Require Import Base Frames CoMod Leaf Rnn Net Spec LeafSpec Ring LeafProof NetSpec NetOk Calls NetDef NetProps NetCore.
From Verif Require Import NetRel RelProof NetFwd NetPad Reload ReloadSpec ReloadProof.
Import ListNotations.
Ltac Zify.zify_post_hook ::= Z.div_mod_to_equations.

Section ReloadNet.
Context {F : Type} {FA : Frames F}.
Implicit Types m p q : md F.

Notation T := (fun _ _ : F => True).

(* ------------------------------------------------------------------ *)
(** ** What a network remembers, against the reported receptive field *)

Definition lagged m : Prop := sane m /\ (Z.of_nat (lag m) <= rfield m - 1)%Z.

Lemma lagged_seq ms : Forall inv ms -> Forall lagged ms -> lagged (MSeq ms).
Proof.
  intros HI HL. split.
  - cbn [sane]. apply allP_Forall. eapply Forall_impl; [|exact HL]. now intros m [].
  - induction HL as [|m t [_ Hm] HL IH]; [cbn; lia|]. inversion HI as [|? ? I1 I2]; subst. specialize (IH I2).
    rewrite rfield_cons, (inv_strd _ I1). change (lag (MSeq (m :: t))) with (lag m + per m * lag (MSeq t)). nia.
Qed.

Lemma lagged_br ms r : Forall lagged ms -> ms <> [] -> lagged (MBR ms r).
Proof.
  intros HL Hn. split.
  - cbn [sane]. apply allP_Forall. eapply Forall_impl; [|exact HL]. now intros m [].
  - change (rfield (MBR ms r)) with (zmax_list (map rfield ms)).
    assert (G : forall D, (0 <= D)%Z -> (forall m, In m ms -> (rfield m - 1 <= D)%Z) -> (Z.of_nat (lag (MBR ms r)) <= D)%Z).
    { intros D HD. clear Hn. cbn [lag]. induction HL as [|m t [_ Hm] HL IH]; intros H; [cbn [fold_right]; lia|].
      cbn [fold_right]. specialize (IH ltac:(intros; apply H; right; auto)). specialize (H m (or_introl eq_refl)). lia. }
    apply G.
    + destruct ms as [|m t]; [congruence|]. inversion HL as [|? ? [_ H]]; subst. pose proof (zmax_ge (map rfield (m :: t)) (rfield m) (or_introl eq_refl)). lia.
    + intros m Hm. pose proof (zmax_ge (map rfield ms) (rfield m) (in_map _ _ _ Hm)). lia.
Qed.

Lemma lagged_delay d f : lagged (MDelay d f ShNo obj_init).
Proof. split; cbn; [destruct (d =? 0); lia|lia]. Qed.

Theorem net_lagged sh m : net sh m -> lagged m.
Proof.
  induction 1 as [c H|c H Hp|d f|g|c|ms Hms IH|ms r auto m Hms IH Hal Hmk Hsl|m0 tf r rs m H0 IH Hsh Hres Hsl].
  - destruct H. split; cbn; unfold conv_rf; lia.
  - destruct H. split; cbn; unfold pool_rf; rewrite ?pok_d; [split; lia|lia].
  - apply lagged_delay.
  - split; cbn; lia.
  - split; cbn; lia.
  - unfold mk_seq. rewrite (infer_core sh); [|apply Forall_forall; intros m Hm; apply (net_core sh m); auto].
    apply lagged_seq; apply Forall_forall; intros m Hm; auto. apply (net_core sh m); auto.
  - apply mk_br_inv in Hmk as (-> & Hlen & Hst). apply lagged_br; [|destruct (if auto then auto_delay ms else ms); [cbn in Hlen; lia|discriminate]].
    apply Forall_forall. intros x Hx. destruct auto; [|auto]. unfold auto_delay in Hx. apply in_map_iff in Hx as (y & <- & Hy).
    unfold delay_to. destruct (Z.ltb _ _); [|auto]. apply lagged_seq; constructor; auto.
    + apply (net_core sh y); auto.
    + constructor; [apply inv_delay|constructor].
    + constructor; [apply lagged_delay|constructor].
  - destruct (net_core sh m0 H0) as [_ Hi]. unfold residual in Hres. destruct (negb (strd m0 =? 1)%Z) eqn:Es; [discriminate|].
    set (rs' := if (rfield m0 - padg m0 * 2 =? 1)%Z then RNo else rs) in *. clearbody rs'.
    assert (Key : forall br, sane br -> (Z.of_nat (lag br) <= rfield m0 - 1)%Z -> mk_br [br; m0] r false = Ok m -> lagged m).
    { intros br S1 L1 Hmk. apply mk_br_inv in Hmk as (-> & _ & _). destruct IH as [S0 L0]. split.
      - cbn [sane allP fold_right]. auto.
      - cbn [lag fold_right rfield map zmax_list fold_left]. lia. }
    destruct Hi. destruct rs'; cbn [bind] in Hres.
    all: repeat (match type of Hres with context [if ?b then _ else _] => destruct b eqn:? end; try discriminate; cbn [bind] in Hres).
    all: (eapply Key; [| |exact Hres]; cbn; unfold skip_init; try (destruct (_ =? 0)); try lia).
Qed.

(* ------------------------------------------------------------------ *)
(** ** Loading parameters *)


Lemma T_list {A} (l k : list A) : length l = length k -> Forall2 (fun _ _ => True) l k.
Proof. revert k. induction l; intros [|]; try discriminate; constructor; auto. Qed.

Lemma TT_list {A} (l k : list (list A)) : map (@length A) l = map (@length A) k -> Forall2 (Forall2 (fun _ _ => True)) l k.
Proof. revert k. induction l; intros [|] E; try discriminate; constructor; injection E as E1 E2; auto. now apply T_list. Qed.

Lemma TT_len {A B} (R : A -> B -> Prop) l k : Forall2 (Forall2 R) l k -> map (@length A) l = map (@length B) k.
Proof. induction 1 as [|a b l k H HF IH]; cbn; f_equal; auto. exact (F2_length _ _ _ H). Qed.

Lemma F2_sym_in {A} (R : A -> A -> Prop) l k : Forall (fun a => forall b, R a b -> R b a) l -> Forall2 R l k -> Forall2 R k l.
Proof. intros H HF. induction HF; inversion H; subst; constructor; auto. Qed.

Lemma F2_trans_in {A} (R : A -> A -> Prop) l k j : Forall (fun a => forall b c, R a b -> R b c -> R a c) l -> Forall2 R l k -> Forall2 R k j -> Forall2 R l j.
Proof.
  intros H HF. revert j. induction HF; intros j G; inversion G; inversion H; subst; constructor; eauto.
Qed.

Lemma obj_T_sym o o' : rel_obj T o o' -> rel_obj T o' o.
Proof. intros (A & B & C). split; [|auto]. apply T_list. symmetry. exact (F2_length _ _ _ A). Qed.
Lemma obj_T_trans o o' o'' : rel_obj T o o' -> rel_obj T o' o'' -> rel_obj T o o''.
Proof. intros (A & B & C) (A' & B' & C'). split; [|split; congruence]. apply T_list. rewrite (F2_length _ _ _ A). exact (F2_length _ _ _ A'). Qed.
Lemma obj_TT_sym o o' : rel_obj (Forall2 T) o o' -> rel_obj (Forall2 T) o' o.
Proof. intros (A & B & C). split; [|auto]. apply TT_list. symmetry. exact (TT_len _ _ _ A). Qed.
Lemma obj_TT_trans o o' o'' : rel_obj (Forall2 T) o o' -> rel_obj (Forall2 T) o' o'' -> rel_obj (Forall2 T) o o''.
Proof. intros (A & B & C) (A' & B' & C'). split; [|split; congruence]. apply TT_list. rewrite (TT_len _ _ _ A). exact (TT_len _ _ _ A'). Qed.
Lemma obj_T_refl (o : obj F) : rel_obj T o o.
Proof. split; [now apply T_list|auto]. Qed.
Lemma obj_TT_refl (o : obj (list F)) : rel_obj (Forall2 T) o o.
Proof. split; [now apply TT_list|auto]. Qed.

Lemma opt_T {A} (x y : option A) : (x = None <-> y = None) -> rel_opt (fun _ _ => True) x y.
Proof. intros [H1 H2]. destruct x, y; try (constructor; auto; fail); [specialize (H2 eq_refl)|specialize (H1 eq_refl)]; discriminate. Qed.
Lemma opt_T_iff {A B} (R : A -> B -> Prop) x y : rel_opt R x y -> (x = None <-> y = None).
Proof. intros []; split; discriminate || auto. Qed.

Lemma conv_T_sym c c' : rel_conv T c c' -> rel_conv T c' c.
Proof. intros []. constructor; try congruence; try (intros ?; exact I); auto; try (intros; exact I). apply opt_T. rewrite (opt_T_iff _ _ _ rc_b). tauto. Qed.
Lemma conv_T_trans a b c : rel_conv T a b -> rel_conv T b c -> rel_conv T a c.
Proof. intros [] []. constructor; try congruence; try (intros ?; exact I); auto; try (intros; exact I). apply opt_T. rewrite (opt_T_iff _ _ _ rc_b), (opt_T_iff _ _ _ rc_b0). tauto. Qed.
Lemma pool_T_sym c c' : rel_pool T c c' -> rel_pool T c' c.
Proof. intros []. constructor; try congruence; try (intros ?; exact I); auto; try (intros; exact I). Qed.
Lemma pool_T_trans a b c : rel_pool T a b -> rel_pool T b c -> rel_pool T a c.
Proof. intros [] []. constructor; try congruence; try (intros ?; exact I); auto; try (intros; exact I). Qed.
Lemma red_T_sym r r' : rel_red T r r' -> rel_red T r' r.
Proof. intros []. constructor; auto. Qed.
Lemma red_T_trans a b c : rel_red T a b -> rel_red T b c -> rel_red T a c.
Proof. intros [] []. constructor; congruence || auto. Qed.

(** Networks without conditional and recurrent modules. *)
Fixpoint plain m : Prop :=
  match m with
  | MDelay _ _ _ _ | MSkip _ _ | MConv _ _ | MPool _ _ | MMap _ => True
  | MSeq ms | MBR ms _ => allP plain ms
  | _ => False
  end.

Lemma ok_plain m : ok m -> rnn_free m -> plain m.
Proof.
  induction m using md_ind'; cbn [ok rnn_free plain]; intros Ho Hr; auto.
  - rewrite allP_Forall in *. induction H; inversion Ho; inversion Hr; subst; auto.
  - destruct Ho as [Ho _]. rewrite allP_Forall in *. induction H; inversion Ho; inversion Hr; subst; auto.
Qed.

Lemma arch_plain m : forall n, same_arch m n -> plain m -> plain n.
Proof.
  unfold same_arch. induction m using md_ind'; intros n' HR Hp; inversion HR; subst; cbn [plain] in *; auto; try tauto.
  all: apply allP_Forall; apply allP_Forall in Hp; match goal with H : Forall2 _ _ _ |- _ => clear HR; induction H as [|a b l k Hab HF IH] end; auto;
    inversion H; inversion Hp; subst; auto.
Qed.

Lemma arch_sym m : forall n, plain m -> same_arch m n -> same_arch n m.
Proof.
  unfold same_arch. induction m using md_ind'; intros n' Hp HR; cbn [plain] in Hp; try tauto; inversion HR; subst; constructor; auto;
    try (intros _; exact I); try (apply obj_T_sym; assumption); try (apply obj_TT_sym; assumption); try (apply conv_T_sym; assumption);
    try (apply pool_T_sym; assumption); try (apply red_T_sym; assumption).
  all: apply F2_sym_in; auto; apply allP_Forall in Hp; clear -H Hp; induction H; inversion Hp; subst; constructor; auto.
Qed.

Lemma arch_trans m : forall n p, plain m -> same_arch m n -> same_arch n p -> same_arch m p.
Proof.
  unfold same_arch. induction m using md_ind'; intros n' p' Hp HR HS; cbn [plain] in Hp; try tauto; inversion HR; subst; inversion HS; subst; constructor; auto;
    try (intros _; exact I); try (eapply obj_T_trans; eassumption); try (eapply obj_TT_trans; eassumption);
    try (eapply conv_T_trans; eassumption); try (eapply pool_T_trans; eassumption); try (eapply red_T_trans; eassumption).
  all: eapply F2_trans_in; [|eassumption|eassumption]; apply allP_Forall in Hp; clear -H Hp; induction H; inversion Hp; subst; constructor; eauto.
Qed.

Lemma arch_shape m : forall n, plain m -> same_arch m n -> ph m = ph n /\ per m = per n /\ lag m = lag n /\ rfield m = rfield n /\ strd m = strd n.
Proof.
  unfold same_arch. induction m using md_ind'; intros n' Hp HR; cbn [plain] in Hp; try tauto; inversion HR; subst; try (repeat split; reflexivity).
  - match goal with H : rel_obj T _ _ |- _ => destruct H as (A & B & C) end. cbn [ph per lag rfield strd]. rewrite <- B.
    replace (nonempty_list (o_buf o')) with (nonempty_list (o_buf o)) by (destruct A; reflexivity). auto.
  - match goal with H : rel_obj _ _ _ |- _ => destruct H as (A & B & C) end. match goal with H : rel_conv _ _ _ |- _ => destruct H end.
    cbn [ph per lag rfield strd]. unfold conv_rf. rewrite <- C, <- rc_k, <- rc_s, <- rc_p.
    replace (nonempty_list (o_buf o')) with (nonempty_list (o_buf o)) by (destruct A; reflexivity). auto.
  - match goal with H : rel_obj _ _ _ |- _ => destruct H as (A & B & C) end. match goal with H : rel_pool _ _ _ |- _ => destruct H end.
    cbn [ph per lag rfield strd]. unfold pool_rf. rewrite <- C, <- rp_k, <- rp_s, <- rp_p, <- rp_d.
    replace (nonempty_list (o_buf o')) with (nonempty_list (o_buf o)) by (destruct A; reflexivity). auto.
  - apply allP_Forall in Hp. match goal with H : Forall2 _ _ _ |- _ => clear HR; induction H as [|a b l k Hab HF IH] end; [auto|].
    inversion H as [|? ? Ha Hl]; inversion Hp; subst. destruct (Ha b) as (A1 & A2 & A3 & A4 & A5); auto. destruct IH as (B1 & B2 & B3 & B4 & B5); auto.
    rewrite !rfield_cons, !strd_cons. cbn [ph per lag fold_right] in *. rewrite A1, A2, A3, A4, A5, B1, B2, B3, B4, B5. auto.
  - apply allP_Forall in Hp. 
    assert (G : Forall2 (fun a b => ph a = ph b /\ per a = per b /\ lag a = lag b /\ rfield a = rfield b /\ strd a = strd b) ms ms').
    { match goal with H : Forall2 _ _ _ |- _ => clear HR; induction H as [|a b l k Hab HF IH] end; [constructor|]. inversion H; inversion Hp; subst. constructor; auto. }
    clear -G. split; [|split; [|split; [|split]]].
    + destruct G as [|? ? ? ? (A & _)]; auto.
    + destruct G as [|? ? ? ? (_ & A & _)]; auto.
    + cbn [lag]. induction G as [|? ? ? ? (_ & _ & A & _) ? IH]; cbn [fold_right]; auto.
    + change (zmax_list (map rfield ms) = zmax_list (map rfield ms')). f_equal. induction G as [|? ? ? ? (_ & _ & _ & A & _) ? IH]; cbn [map]; auto. now rewrite A, IH.
    + destruct G as [|? ? ? ? (_ & _ & _ & _ & A)]; auto.
Qed.

Lemma arch_ok m : forall n, plain m -> same_arch m n -> ok n -> ok m.
Proof.
  unfold same_arch. induction m using md_ind'; intros n' Hp HR Ho; pose proof (arch_shape _ _ Hp HR) as Hs; cbn [plain] in Hp; try tauto; inversion HR; subst; try exact Ho.
  - match goal with H : rel_obj T _ _ |- _ => destruct H as (A & B & C) end. cbn [ok] in *. rewrite B, (F2_length _ _ _ A).
    destruct Ho as [|[E|]]; auto. right. left. rewrite E in A. now inversion A.
  - match goal with H : rel_obj _ _ _ |- _ => destruct H as (A & B & C) end. match goal with H : rel_conv _ _ _ |- _ => destruct H end.
    cbn [ok] in *. destruct Ho as [[] Ho]. split; [constructor; rewrite ?rc_k, ?rc_s, ?rc_p; assumption|]. rewrite B, C, rc_k, rc_s, (F2_length _ _ _ A).
    destruct Ho as [E|(H1 & H2 & H3 & H4)]; [left; rewrite E in A; now inversion A|right]. split; [auto|]. split; [auto|]. split; [|auto].
    clear -A H3. revert H3. generalize (ck c' - 1). intros n H3. induction A as [|a b l k Hab HF IH]; constructor; inversion H3; subst; auto. exact (F2_length _ _ _ Hab).
  - match goal with H : rel_obj _ _ _ |- _ => destruct H as (A & B & C) end. match goal with H : rel_pool _ _ _ |- _ => destruct H end.
    cbn [ok] in *. destruct Ho as [[] Ho]. split; [constructor; rewrite ?rp_k, ?rp_s, ?rp_p, ?rp_d; assumption|]. unfold pool_buflen in *. rewrite B, C, rp_k, rp_s, rp_d, (F2_length _ _ _ A).
    destruct Ho as [E|]; [left; rewrite E in A; now inversion A|auto].
  - cbn [ok] in *. apply allP_Forall in Hp, Ho. apply allP_Forall. match goal with H : Forall2 _ _ _ |- _ => clear HR Hs; induction H as [|a b l k Hab HF IH] end; [constructor|].
    inversion H; inversion Hp; inversion Ho; subst. constructor; eauto.
  - cbn [ok] in *. destruct Ho as (Ho & Hm & Hr2). rewrite allP_Forall in Hp, Ho. match goal with H : Forall2 _ _ _ |- _ => rename H into HF end.
    match goal with H : rel_red _ _ _ |- _ => destruct H end. split; [|split].
    + apply allP_Forall. clear HR Hs Hm Hr2. induction HF as [|a b l k Hab HF IH]; [constructor|]. inversion H; inversion Hp; inversion Ho; subst. constructor; eauto.
    + destruct HF as [|a b l k Hab HF]; [exact Hm|]. inversion Hp as [|? ? Pa Pl]; subst. rewrite allP_Forall in Hm. apply allP_Forall.
      destruct (arch_shape a b Pa Hab) as (A1 & A2 & _). clear -HF Pl Hm A1 A2. induction HF as [|a0 b0 l k Hab HF IH]; constructor; inversion Pl; inversion Hm; subst; auto.
      destruct (arch_shape a0 b0 ltac:(assumption) Hab) as (B1 & B2 & _). rewrite A1, A2, B1, B2. auto.
    + rewrite rd_m2. rewrite (F2_length _ _ _ HF). exact Hr2.
Qed.

Lemma arch_sane m : forall n, plain m -> same_arch m n -> sane n -> sane m.
Proof.
  unfold same_arch. induction m using md_ind'; intros n' Hp HR Ho; pose proof (arch_shape _ _ Hp HR) as (S1 & S2 & S3 & _); cbn [plain] in Hp; try tauto;
    inversion HR; subst; try exact Ho; try (cbn [sane] in *; lia).
  - match goal with H : rel_pool _ _ _ |- _ => destruct H end. cbn [sane] in *. rewrite S1. rewrite rp_d, rp_k, rp_s. exact Ho.
  - cbn [sane] in *. apply allP_Forall in Hp, Ho. apply allP_Forall. match goal with H : Forall2 _ _ _ |- _ => clear HR S1 S2 S3; induction H as [|a b l k Hab HF IH] end; [constructor|].
    inversion H; inversion Hp; inversion Ho; subst. constructor; eauto.
  - cbn [sane] in *. apply allP_Forall in Hp, Ho. apply allP_Forall. match goal with H : Forall2 _ _ _ |- _ => clear HR S1 S2 S3; induction H as [|a b l k Hab HF IH] end; [constructor|].
    inversion H; inversion Hp; inversion Ho; subst. constructor; eauto.
Qed.

(** Loading changes the parameters and nothing else. *)
Lemma load_arch p : forall m, plain p -> same_arch (clean p) (clean m) -> same_arch (load p m) m /\ clean (load p m) = clean p.
Proof.
  unfold same_arch. induction p using md_ind'; intros m Hp HR; cbn [plain] in Hp; try tauto; destruct m; cbn [clean] in HR; inversion HR; subst; cbn [load clean].
  - split; [constructor; auto using obj_T_refl; intros _; exact I|reflexivity].
  - split; [constructor|reflexivity].
  - split; [constructor; auto using obj_TT_refl|reflexivity].
  - split; [constructor; auto using obj_T_refl|reflexivity].
  - split; [constructor; auto|reflexivity].
  - apply allP_Forall in Hp. clear HR. match goal with H : Forall2 _ _ _ |- _ => rename H into HF end.
    match goal with |- context [zip_with load ms ?k] => rename k into l end.
    assert (G : Forall2 (rel_md T) (zip_with load ms l) l /\ map clean (zip_with load ms l) = map clean ms).
    { revert l HF. induction H as [|a t Ha Ht IH]; intros [|b l] HF; cbn [map] in HF; inversion HF; subst; cbn [zip_with map]; [split; auto|].
      inversion Hp; subst. destruct (Ha b) as [G1 G2]; auto. destruct (IH ltac:(assumption) l) as [G3 G4]; auto. split; [constructor; auto|]. now rewrite G2, G4. }
    destruct G as [G1 G2]. split; [now constructor|now rewrite G2].
  - apply allP_Forall in Hp. clear HR. match goal with H : Forall2 _ _ _ |- _ => rename H into HF end.
    match goal with |- context [zip_with load ms ?k] => rename k into l end.
    assert (G : Forall2 (rel_md T) (zip_with load ms l) l /\ map clean (zip_with load ms l) = map clean ms).
    { revert l HF. induction H as [|a t Ha Ht IH]; intros [|b l] HF; cbn [map] in HF; inversion HF; subst; cbn [zip_with map]; [split; auto|].
      inversion Hp; subst. destruct (Ha b) as [G1 G2]; auto. destruct (IH ltac:(assumption) l) as [G3 G4]; auto. split; [constructor; auto|]. now rewrite G2, G4. }
    destruct G as [G1 G2]. split; [now constructor|now rewrite G2].
Qed.

Lemma load_back p : forall m, plain p -> same_arch (clean p) (clean m) -> load m (load p m) = m.
Proof.
  unfold same_arch. induction p using md_ind'; intros m Hp HR; cbn [plain] in Hp; try tauto; destruct m; cbn [clean] in HR; inversion HR; subst; cbn [load]; try reflexivity.
  - apply allP_Forall in Hp. clear HR. match goal with H : Forall2 _ _ _ |- _ => rename H into HF end.
    match goal with |- context [zip_with load ms ?k] => rename k into l end.
    f_equal. revert l HF. induction H as [|a t Ha Ht IH]; intros [|b l] HF; cbn [map] in HF; inversion HF; subst; cbn [zip_with]; [reflexivity|].
    inversion Hp; subst. f_equal; auto.
  - apply allP_Forall in Hp. clear HR. match goal with H : Forall2 _ _ _ |- _ => rename H into HF end.
    match goal with |- context [zip_with load ms ?k] => rename k into l end.
    f_equal. revert l HF. induction H as [|a t Ha Ht IH]; intros [|b l] HF; cbn [map] in HF; inversion HF; subst; cbn [zip_with]; [reflexivity|].
    inversion Hp; subst. f_equal; auto.
Qed.

Lemma plain_clean m : plain (clean m) <-> plain m.
Proof.
  induction m using md_ind'; cbn [clean plain]; try tauto.
  all: induction H; cbn [map allP fold_right] in *; tauto.
Qed.

Lemma arch_plain' m : forall n, same_arch m n -> plain n -> plain m.
Proof.
  unfold same_arch. induction m using md_ind'; intros n' HR Hp; inversion HR; subst; cbn [plain] in *; auto; try tauto.
  all: apply allP_Forall; apply allP_Forall in Hp; match goal with H : Forall2 _ _ _ |- _ => clear HR; induction H as [|a b l k Hab HF IH] end; auto;
    inversion H; inversion Hp; subst; constructor; eauto.
Qed.

Lemma length_pat n : forall h k : nat, length (pat h k n) = n.
Proof. induction n; intros; cbn; auto. Qed.

(* ------------------------------------------------------------------ *)
(** ** Streams *)

Lemma arch_feed xs : forall ys m n us m' vs n', length xs = length ys -> same_arch m n ->
  feed (nstep true) m xs = Ok (us, m') -> feed (nstep true) n ys = Ok (vs, n') -> same_arch m' n'.
Proof.
  induction xs as [|x xs IH]; intros [|y ys] m n us m' vs n' L R Em En; try discriminate; cbn [feed] in *.
  - injection Em as <- <-. injection En as <- <-. auto.
  - destruct (nstep true m x) as [[u m1]|] eqn:E1; [|discriminate]. destruct (nstep true n y) as [[v n1]|] eqn:E2; [|discriminate]. cbn [bind] in *.
    destruct (feed (nstep true) m1 xs) as [[us1 m2]|] eqn:E3; [|discriminate]. destruct (feed (nstep true) n1 ys) as [[vs1 n2]|] eqn:E4; [|discriminate].
    cbn [bind] in *. injection Em as <- <-. injection En as <- <-. apply nstep_step in E1, E2.
    pose proof (r_step T (Build_rel_frames _ I) m n (VT x) (VT y) true R (rv_t _ _ _ I)) as G. rewrite E1, E2 in G. inversion G as [? ? [G1 G2]|]; subst.
    cbn [fst snd] in G1, G2. exact (IH ys m1 n1 us1 m2 vs1 n2 ltac:(cbn in L; lia) G2 E3 E4).
Qed.

Lemma net_state sh q xs us q1 : net sh q -> rnn_free q -> feed (nstep true) q xs = Ok (us, q1) ->
  ok q1 /\ sane q1 /\ clean q1 = q /\ plain q1 /\ rnn_free q1 /\ lag q1 = lag q.
Proof.
  intros Hq Hr E. destruct (net_core sh q Hq) as [_ [Ho Hf _ _ _ _ _]]. destruct (net_lagged sh q Hq) as [Hs _].
  pose proof (feed_clean _ _ _ _ Ho E) as Hc. destruct (feed_ok _ _ _ _ Ho E) as (O1 & _).
  assert (R1 : rnn_free q1) by (rewrite <- rnn_free_clean, Hc, rnn_free_clean; exact Hr).
  repeat split; auto.
  - exact (sane_feed _ _ _ _ Ho Hs E).
  - rewrite Hc. now apply clean_fresh.
  - now apply ok_plain.
  - now apply lag_eq.
Qed.

(** Two states of one network that have seen as many frames. *)
Lemma meet sh q xs us q1 m b c : net sh q -> rnn_free q -> feed (nstep true) q xs = Ok (us, q1) ->
  same_arch m q1 -> clean m = q -> (rfield q - 1 <= Z.of_nat (length b))%Z ->
  exists ub ws m2 vb q2, feed (nstep true) m (b ++ c) = Ok (ub ++ ws, m2) /\ length ub = length b /\
    feed (nstep true) q1 (b ++ c) = Ok (vb ++ ws, q2) /\ length vb = length b.
Proof.
  intros Hq Hr E R C L. destruct (net_state sh q xs us q1 Hq Hr E) as (O1 & S1 & C1 & P1 & R1 & L1).
  assert (Pm : plain m) by (apply (arch_plain' m q1); auto).
  pose proof (arch_ok m q1 Pm R O1) as Om. pose proof (arch_sane m q1 Pm R S1) as Sm.
  assert (Rm : rnn_free m) by (rewrite <- rnn_free_clean, C; exact Hr).
  destruct (arch_shape m q1 Pm R) as (_ & _ & Lm & _). destruct (net_lagged sh q Hq) as [_ Lq].
  destruct (feed_good b m Om) as (ub & ma & Ea & _ & _ & Ha). destruct (feed_good b q1 O1) as (vb & qa & Eb & Oq & _ & Hb).
  assert (St : settled ma qa) by (apply (forget m q1 b ub ma vb qa); auto; [split; [exact R|congruence]|lia]).
  destruct (feed_ok _ _ _ _ Om Ea) as (Oa & _).
  destruct (feed_good c ma Oa) as (ws & mc & Ec & _). destruct (settled_feed _ _ _ _ _ St Ec) as (qc & Ed & _).
  exists ub, ws, mc, vb, qc. rewrite !feed_app, Ea, Eb. cbn [bind fst snd]. rewrite Ec, Ed. cbn [bind fst snd].
  apply (f_equal (@length _)) in Ha, Hb. rewrite map_length, length_pat in Ha, Hb. auto.
Qed.

Theorem train_forgets sh q m l b c : net sh q -> rnn_free q -> same_arch m q ->
  (forall p xs, In (p, xs) l -> same_arch (clean p) q) -> (rfield q - 1 <= Z.of_nat (length b))%Z ->
  exists yss m1 us ws m2 vs q2,
    train m l = Ok (yss, m1) /\
    feed (nstep true) (load q m1) (b ++ c) = Ok (us ++ ws, m2) /\ length us = length b /\
    feed (nstep true) q (concat (map snd l) ++ b ++ c) = Ok (vs ++ ws, q2) /\
    length vs = length (concat (map snd l)) + length b.
Proof.
  intros Hq Hr R Hl L.
  assert (Hc : clean q = q) by (apply clean_fresh; apply (net_core sh q Hq)).
  assert (G : forall l xs us q1 m, feed (nstep true) q xs = Ok (us, q1) -> same_arch m q1 -> (forall p xs, In (p, xs) l -> same_arch (clean p) q) ->
     exists yss m1 vs q2, train m l = Ok (yss, m1) /\ feed (nstep true) q1 (concat (map snd l)) = Ok (vs, q2) /\
       feed (nstep true) q (xs ++ concat (map snd l)) = Ok (us ++ vs, q2) /\ same_arch m1 q2).
  { clear - Hq Hr Hc. induction l as [|[p ys] l IH]; intros xs us q1 m E R Hl; cbn [train map snd concat].
    - exists [], m, [], q1. rewrite !app_nil_r. auto.
    - destruct (net_state sh q xs us q1 Hq Hr E) as (O1 & S1 & C1 & P1 & R1 & L1).
      assert (Pm : plain m) by (apply (arch_plain' m q1); auto).
      assert (Ap : same_arch (clean p) (clean m)).
      { assert (Ac : same_arch (clean m) q) by (rewrite <- C1; apply r_clean; auto using Build_rel_frames).
        assert (Pq : plain q) by (rewrite <- C1, plain_clean; exact P1).
        apply (arch_trans (clean p) q (clean m)); [apply (arch_plain' _ q); auto; apply (Hl p ys); left; auto|apply (Hl p ys); left; auto|].
        apply arch_sym; [rewrite plain_clean; exact Pm|exact Ac]. }
      assert (Pp : plain p) by (rewrite <- plain_clean; apply (arch_plain' _ q); [apply (Hl p ys); left; auto|rewrite <- C1, plain_clean; exact P1]).
      destruct (load_arch p m Pp Ap) as [A1 _].
      assert (Pn : plain (load p m)) by (apply (arch_plain' _ m); auto).
      assert (A2 : same_arch (load p m) q1) by (apply (arch_trans _ m); auto).
      pose proof (arch_ok _ _ Pn A2 O1) as On.
      destruct (feed_good ys (load p m) On) as (ws & n1 & En & _). destruct (feed_good ys q1 O1) as (vs & q2 & E2 & _).
      rewrite En. cbn [bind]. pose proof (arch_feed ys ys _ _ _ _ _ _ eq_refl A2 En E2) as A3.
      assert (E3 : feed (nstep true) q (xs ++ ys) = Ok (us ++ vs, q2)) by (rewrite feed_app, E; cbn [bind fst snd]; rewrite E2; reflexivity).
      destruct (IH (xs ++ ys) (us ++ vs) q2 n1 E3 A3) as (yss & m1 & vs2 & q3 & T1 & T2 & T3 & T4); [intros; eapply Hl; right; eauto|].
      rewrite T1. cbn [bind]. exists (ws :: yss), m1, (vs ++ vs2), q3. split; [reflexivity|]. split.
      + rewrite feed_app, E2. cbn [bind fst snd]. rewrite T2. reflexivity.
      + rewrite <- !app_assoc in T3. auto. }
  destruct (G l [] [] q m eq_refl R Hl) as (yss & m1 & vs & q1 & T1 & T2 & T3 & T4). cbn [app] in T3.
  destruct (net_state sh q _ _ _ Hq Hr T3) as (O1 & S1 & C1 & P1 & R1 & L1).
  assert (Pm : plain m1) by (apply (arch_plain' m1 q1); auto).
  assert (Pq : plain q) by (rewrite <- C1, plain_clean; exact P1).
  assert (Ap : same_arch (clean q) (clean m1)).
  { rewrite Hc. apply arch_sym; [now apply plain_clean|]. rewrite <- C1. apply r_clean; auto using Build_rel_frames. }
  destruct (load_arch q m1 Pq Ap) as [A1 A2].
  assert (Pn : plain (load q m1)) by (apply (arch_plain' _ m1); auto).
  destruct (meet sh q (concat (map snd l)) vs q1 (load q m1) b c Hq Hr T3) as (ub & ws & m2 & vb & q2 & B1 & B2 & B3 & B4); auto.
  { apply (arch_trans _ m1); auto. }
  { congruence. }
  exists yss, m1, ub, ws, m2, (vs ++ vb), q2. split; [exact T1|]. split; [exact B1|]. split; [exact B2|]. split.
  - rewrite feed_app, T3. cbn [bind fst snd]. rewrite B3. cbn [bind fst snd]. now rewrite <- app_assoc.
  - rewrite app_length, B4. f_equal. destruct (net_core sh q Hq) as [_ [Ho _ _ _ _ _ _]]. destruct (feed_ok _ _ _ _ Ho T3) as (_ & _ & Hp).
    apply (f_equal (@length _)) in Hp. now rewrite map_length, length_pat in Hp.
Qed.

(** The same for one network that has seen two different streams. *)
Theorem memory sh q a a' b c : net sh q -> rnn_free q -> length a = length a' -> (rfield q - 1 <= Z.of_nat (length b))%Z ->
  exists us vs ws q1 q2, feed (nstep true) q (a ++ b ++ c) = Ok (us ++ ws, q1) /\ feed (nstep true) q (a' ++ b ++ c) = Ok (vs ++ ws, q2) /\
    length us = length (a ++ b) /\ length vs = length (a' ++ b).
Proof.
  intros Hq Hr La L. destruct (net_core sh q Hq) as [_ [Ho _ _ _ _ _ _]].
  destruct (feed_good a q Ho) as (ua & qa & Ea & Oa & _ & Ha). destruct (feed_good a' q Ho) as (va & qb & Eb & _ & _ & Hb).
  destruct (net_state sh q _ _ _ Hq Hr Ea) as (O1 & S1 & C1 & P1 & R1 & L1).
  assert (Pq : plain q) by (rewrite <- C1, plain_clean; exact P1).
  assert (Rq : same_arch q q).
  { clear -Pq. unfold same_arch. induction q using md_ind'; cbn [plain] in Pq; try tauto; constructor; auto using obj_T_refl, obj_TT_refl; try (intros _; exact I).
    - constructor; auto; try (intros ?; exact I); try (intros; exact I). { now apply opt_T. } { intros ? ? ? ? _ _; exact I. }
    - constructor; auto; try (intros ?; exact I); try (intros; exact I).
    - apply allP_Forall in Pq. induction H; inversion Pq; subst; constructor; auto.
    - apply allP_Forall in Pq. induction H; inversion Pq; subst; constructor; auto.
    - constructor; auto. }
  destruct (meet sh q a' va qb qa b c Hq Hr Eb) as (ub & ws & m2 & vb & q2 & B1 & B2 & B3 & B4); auto.
  { exact (arch_feed a a' q q ua qa va qb La Rq Ea Eb). }
  exists (ua ++ ub), (va ++ vb), ws, m2, q2. rewrite feed_app, Ea. cbn [bind fst snd]. rewrite B1. cbn [bind fst snd].
  rewrite feed_app, Eb. cbn [bind fst snd]. rewrite B3. cbn [bind fst snd]. rewrite <- !app_assoc. split; [reflexivity|]. split; [reflexivity|].
  apply (f_equal (@length _)) in Ha, Hb. rewrite map_length, length_pat in Ha, Hb. rewrite !app_length. lia.
Qed.

(** [forward] does not look at the buffers. *)
Lemma fwd_clean m : forall v, plain m -> fwd (clean m) v = fwd m v.
Proof.
  induction m using md_ind'; intros v Hp; cbn [plain] in Hp; try tauto; try reflexivity; cbn [clean fwd]; apply allP_Forall in Hp.
  - revert v. induction H as [|a t Ha Ht IH]; intros v; cbn [map seq_fwd]; [reflexivity|]. inversion Hp; subst. rewrite Ha by auto.
    destruct (fwd a v); cbn [bind]; auto.
  - assert (E : br_fwd fwd (map clean ms) v = br_fwd fwd ms v); [|now rewrite E].
    induction H as [|a t Ha Ht IH]; cbn [map br_fwd]; [reflexivity|]. inversion Hp; subst. rewrite Ha, IH by auto. reflexivity.
Qed.

Lemma fwd_load sh q m v : net sh q -> rnn_free q -> same_arch q (clean m) -> fwd (load q m) v = fwd q v.
Proof.
  intros Hq Hr R. assert (Hc : clean q = q) by (apply clean_fresh; apply (net_core sh q Hq)).
  assert (Pq : plain q) by (apply ok_plain; auto; apply (net_core sh q Hq)).
  destruct (load_arch q m Pq) as [_ C]; [rewrite Hc; exact R|]. rewrite <- (fwd_clean (load q m)), C; [now rewrite fwd_clean|]. apply plain_clean. rewrite C. now apply plain_clean.
Qed.

Theorem load_facts sh q m : net sh q -> rnn_free q -> same_arch q (clean m) ->
  clean (load q m) = q /\ load m (load q m) = m /\ (forall v, fwd (load q m) v = fwd q v).
Proof.
  intros Hq Hr R. assert (Hc : clean q = q) by (apply clean_fresh; apply (net_core sh q Hq)).
  assert (Pq : plain q) by (apply ok_plain; auto; apply (net_core sh q Hq)).
  destruct (load_arch q m Pq) as [_ C]; [rewrite Hc; exact R|]. split; [congruence|]. split.
  - apply load_back; [exact Pq|]. rewrite Hc. exact R.
  - intros v. exact (fwd_load sh q m v Hq Hr R).
Qed.

End ReloadNet.
