(** Proofs for C68: marks. *)
From Coq Require Import List ZArith Bool Arith Lia Permutation.
From Verif Require Import Base Frames CoMod Leaf Rnn Net Spec LeafSpec LeafProof NetSpec NetDef Calls NetOk NetProps NetCore NetFwd NetThm
  NetRel RelProof Batch BatchProof FloatSpec.
Import ListNotations.

#[export] Instance mark_laws : FrameLaws bool.
Proof. constructor; cbn; intros; [apply orb_comm|apply orb_assoc|reflexivity]. Qed.

Section Sk.
Context {F : Type} {FA : Frames F}.

(** A relation between frames over any carrier [G] and marks, respected by all
    operations. *)
Lemma agree_frames : rel_frames (agree (F:=F)).
Proof. constructor. intros _. reflexivity. Qed.
Lemma agree_sum : rel_sum (agree (F:=F)).
Proof. intros a a' b b' Ha Hb E. cbn in *. unfold pair_add. simpl. apply orb_false_elim in E as [E1 E2]. f_equal; auto. Qed.

Lemma agree_list l l' : Forall2 (agree (F:=F)) l l' -> some_marked l' = false -> map fst l = map snd l.
Proof.
  induction 1 as [|p t l l' H1 H2 IH]; simpl; [reflexivity|]. unfold some_marked. simpl. intros [E1 E2]%orb_false_elim.
  f_equal; auto.
Qed.

Lemma agree_two x t : agree (two (F:=F) x) t.
Proof. intros _. reflexivity. Qed.
Lemma agree_fill f : rel_fill (agree (F:=F)) f.
Proof. intros _ _. reflexivity. Qed.
Lemma agree_buf l : Forall2 (agree (F:=F)) (map two l) (map (fun _ => false) l).
Proof. induction l; simpl; constructor; auto. apply agree_two. Qed.

Lemma agree_comb h1 h2 u : (u = false -> h1 = h2) -> length h1 = length h2 ->
  Forall2 (agree (F:=F)) (combine h1 h2) (repeat u (length h1)).
Proof.
  revert h2. induction h1 as [|a h1 IH]; intros [|b h2] Hu L; simpl in *; try discriminate; constructor.
  - intros E. specialize (Hu E). simpl. congruence.
  - apply IH; [|lia]. intros E. specialize (Hu E). congruence.
Qed.

Lemma agree_conv c : rel_conv (agree (F:=F)) (two_conv c) (sk_conv c).
Proof.
  constructor; try reflexivity; try apply agree_fill.
  - intros i x y H E. simpl. now rewrite H.
  - simpl. destruct (cb c); simpl; constructor. apply agree_two.
  - apply agree_sum.
Qed.
Lemma agree_pool c : rel_pool (agree (F:=F)) (two_pool c) (sk_pool c).
Proof.
  constructor; try reflexivity; try apply agree_fill.
  - intros x y H E. simpl. now rewrite H.
  - intros l l' H E. simpl. now rewrite (agree_list l l').
Qed.
Lemma agree_red r : rel_red (agree (F:=F)) (two_red r) (sk_red r).
Proof.
  constructor; try reflexivity. intros a a' b b' Ha Hb E. cbn in E. apply orb_false_elim in E as [E1 E2]. simpl.
  now rewrite Ha, Hb.
Qed.
Lemma agree_rnn c : Forall cell_len (r_cells c) -> rel_rnn (agree (F:=F)) (two_rnn c) (sk_rnn c).
Proof.
  intros H. constructor; simpl.
  - induction H as [|f l Hf Hl IH]; simpl; constructor; auto. intros s s' x y Hs Hx. unfold two_cell, sk_cell.
    pose proof (Hf (map fst s) (map snd s) (fst x) (snd x)) as L. rewrite !map_length in L. specialize (L eq_refl).
    pose proof (Hf (repeat f0 (length s')) (map fst s) f0 (fst x)) as L'.
    rewrite repeat_length, map_length in L'. rewrite L' by (symmetry; eapply r_len; eauto). clear L'.
    assert (Hu : y || some_marked s' = false -> f (map fst s) (fst x) = f (map snd s) (snd x)).
    { intros [E1 E2]%orb_false_elim. rewrite (agree_list s s') by auto. now rewrite Hx. }
    destruct (f (map fst s) (fst x)) as [h1 y1] eqn:E1, (f (map snd s) (snd x)) as [h2 y2] eqn:E2. simpl in L.
    split; cbn [fst snd].
    + apply agree_comb; auto. intros E. specialize (Hu E). congruence.
    + intros E. specialize (Hu E). simpl. congruence.
  - apply agree_buf.
Qed.

Lemma agree_md m : cond_free m -> cells_len m -> rel_md (agree (F:=F)) (two_md m) (skeleton m).
Proof.
  assert (Hl : forall ms, Forall (fun m => cond_free m -> cells_len m -> rel_md (agree (F:=F)) (two_md m) (skeleton m)) ms ->
    allP cond_free ms -> allP cells_len ms -> Forall2 (rel_md (agree (F:=F))) (map two_md ms) (map skeleton ms)).
  { induction 1 as [|a t Hm HF IH]; intros Hc Hl; simpl; constructor.
    - apply Hm; [apply Hc|apply Hl].
    - apply IH; [apply Hc|apply Hl]. }
  induction m using md_ind'; cbn [two_md skeleton cond_free cells_len]; intros Hc Hcl.
  - constructor; [apply agree_fill|]. repeat split. apply agree_buf.
  - constructor.
  - constructor; [apply agree_conv|]. repeat split. simpl. induction (o_buf o); simpl; constructor; auto. apply agree_buf.
  - constructor; [apply agree_pool|]. repeat split. apply agree_buf.
  - constructor. intros x y H E. simpl. now rewrite H.
  - constructor; [now apply agree_rnn|]. destruct o as [hs|]; simpl; constructor.
    induction hs as [|a hs IH]; simpl; constructor; auto. apply agree_buf.
  - constructor. auto.
  - constructor.
  - constructor. auto.
  - constructor.
  - constructor. apply agree_red.
  - constructor; [auto|apply agree_red].
  - destruct Hc.
Qed.

(** The network and its skeleton run in step, with any set of marks that contains
    [false] and is closed under "or". *)
Section Any.
Variable Q : bool -> Prop.
Hypothesis Q0 : Q false.
Hypothesis Qor : forall a b, Q a -> Q b -> Q (a || b).
Definition any (x : F) (t : bool) : Prop := Q t.
Lemma any_list {A} (l : list F) (l' : list A) : length l = length l' -> Forall2 any l (map (fun _ => false) l').
Proof. revert l'. induction l; intros [|b l'] H; simpl in *; try discriminate; constructor; auto. Qed.
Lemma any_list' (l : list F) l' : length l = length l' -> Forall Q l' -> Forall2 any l l'.
Proof. revert l'. induction l; intros [|b l'] H HQ; simpl in *; try discriminate; constructor; inversion HQ; subst; auto. Qed.
Lemma any_marked l (l' : list bool) : Forall2 any l l' -> Q (some_marked l').
Proof. induction 1; [exact Q0|]. apply Qor; auto. Qed.
Lemma any_frames : rel_frames any.
Proof. constructor. exact Q0. Qed.
Lemma any_fill f : rel_fill any f.
Proof. intros _. exact Q0. Qed.

Lemma any_md m : cond_free m -> cells_len m -> rel_md any m (skeleton m).
Proof.
  assert (Hl : forall ms, Forall (fun m => cond_free m -> cells_len m -> rel_md any m (skeleton m)) ms ->
    allP cond_free ms -> allP cells_len ms -> Forall2 (rel_md any) ms (map skeleton ms)).
  { induction 1 as [|a t Hm HF IH]; intros Hc Hl; simpl; constructor.
    - apply Hm; [apply Hc|apply Hl].
    - apply IH; [apply Hc|apply Hl]. }
  assert (Hr : forall r, rel_red any r (sk_red r)).
  { constructor; try reflexivity. intros a a' b b'. apply Qor. }
  induction m using md_ind'; cbn [skeleton cond_free cells_len]; intros Hc Hcl.
  - constructor; [apply any_fill|]. repeat split. now apply any_list.
  - constructor.
  - constructor.
    + constructor; try reflexivity; try apply any_fill; [auto| |intros a a' b b'; apply Qor]. simpl. destruct (cb c); simpl; constructor. exact Q0.
    + repeat split. simpl. induction (o_buf o); simpl; constructor; auto. now apply any_list.
  - constructor.
    + constructor; try reflexivity; try apply any_fill; [auto|]. intros l l'. apply any_marked.
    + repeat split. now apply any_list.
  - constructor. auto.
  - constructor.
    + constructor; [|now apply any_list]. cbn [r_cells sk_rnn]. induction Hcl as [|f l Hf Hl' IH]; simpl; constructor; auto.
      intros s s' x y Hs Hx. unfold sk_cell. cbn [fst].
      assert (HQ : Q (y || some_marked s')) by (apply Qor; [exact Hx|eapply any_marked; eauto]).
      split; cbn [fst snd]; [|exact HQ]. apply any_list'; [rewrite repeat_length|apply Forall_forall; intros z ->%repeat_spec; exact HQ].
      apply Hf. rewrite repeat_length. eapply r_len; eauto.
    + destruct o as [hs|]; simpl; constructor. induction hs as [|a hs IH]; simpl; constructor; auto. now apply any_list.
  - constructor. auto.
  - constructor.
  - constructor. auto.
  - constructor.
  - constructor. auto.
  - constructor; auto.
  - destruct Hc.
Qed.
End Any.
End Sk.

Section Built2.
Context {F : Type} {FA : Frames F}.

Lemma map_sk {A} (f : md F -> A) (g : md bool -> A) ms : Forall (fun m => g (skeleton m) = f m) ms ->
  map g (map skeleton ms) = map f ms.
Proof. intros H. rewrite map_map. induction H; simpl; congruence. Qed.

Lemma all_sk {A} (f : md F -> A) (g : md bool -> A) (H : forall m, g (skeleton m) = f m) ms : map g (map skeleton ms) = map f ms.
Proof. apply map_sk. apply Forall_forall. auto. Qed.

Lemma sk_strd (m : md F) : strd (skeleton m) = strd m.
Proof.
  induction m using md_ind'; try reflexivity.
  - cbn [skeleton strd]. now rewrite (map_sk strd strd).
  - destruct ms as [|a ms]; [reflexivity|]. inversion H; subst. assumption.
  - destruct ms as [|a ms]; [reflexivity|]. inversion H; subst. assumption.
Qed.
Lemma sk_padg (m : md F) : padg (skeleton m) = padg m.
Proof.
  induction m using md_ind'; try reflexivity; cbn [skeleton padg].
  - rewrite (map_sk (fun m => (padg m, strd m)) (fun m => (padg m, strd m))); [reflexivity|].
    eapply Forall_impl; [|exact H]. intros a E. cbv beta. now rewrite E, sk_strd.
  - now rewrite (map_sk padg padg).
  - now rewrite (map_sk padg padg).
Qed.
Lemma sk_rfield (m : md F) : rfield (skeleton m) = rfield m.
Proof.
  induction m using md_ind'; try reflexivity; cbn [skeleton rfield].
  - rewrite (map_sk (fun m => (rfield m, strd m)) (fun m => (rfield m, strd m))); [reflexivity|].
    eapply Forall_impl; [|exact H]. intros a E. cbv beta. now rewrite E, sk_strd.
  - now rewrite (map_sk rfield rfield).
  - now rewrite (map_sk rfield rfield).
Qed.
Lemma sk_del (m : md F) : del (skeleton m) = del m.
Proof.
  induction m using md_ind'; try reflexivity.
  - change (del (MSeq ms)) with (rfield (MSeq ms) - 1 - padg (MSeq ms))%Z. rewrite <- sk_rfield, <- sk_padg. reflexivity.
  - cbn [skeleton del]. now rewrite (map_sk del del).
  - cbn [skeleton del]. now rewrite (map_sk del del).
Qed.

Lemma sk_infer (ms : list (md F)) : infer_streams (map skeleton ms) = map skeleton (infer_streams ms).
Proof.
  induction ms as [|m ms IH]; [reflexivity|]. destruct m; try (cbn [List.map skeleton infer_streams] in *; f_equal; exact IH).
  destruct ms as [|m2 ms]; [reflexivity|].
  destruct m2; cbn [List.map skeleton infer_streams] in *; rewrite ?map_length; f_equal; exact IH.
Qed.
Lemma sk_mk_seq (ms : list (md F)) : skeleton (mk_seq ms) = mk_seq (map skeleton ms).
Proof. unfold mk_seq. cbn [skeleton]. now rewrite sk_infer. Qed.

Lemma sk_auto (ms : list (md F)) : auto_delay (map skeleton ms) = map skeleton (auto_delay ms).
Proof.
  unfold auto_delay. rewrite (all_sk del del sk_del), !map_map. apply map_ext. intros m. unfold delay_to.
  rewrite sk_del. destruct (_ <? _)%Z; [|reflexivity]. cbn [skeleton map]. reflexivity.
Qed.

Lemma sk_same_stride (ms : list (md F)) : same_stride (map skeleton ms) = same_stride ms.
Proof.
  unfold same_stride. destruct ms as [|m t]; [reflexivity|]. cbn [map]. rewrite sk_strd.
  induction t as [|a t IH]; [reflexivity|]. cbn [map forallb]. rewrite sk_strd. f_equal. exact IH.
Qed.

Lemma sk_mk_br (ms : list (md F)) r auto m : mk_br ms r auto = Ok m ->
  mk_br (map skeleton ms) (sk_red r) auto = Ok (skeleton m).
Proof.
  unfold mk_br. rewrite map_length. destruct (_ <=? 1); [discriminate|].
  replace (if auto then auto_delay (map skeleton ms) else map skeleton ms)
    with (map skeleton (if auto then auto_delay ms else ms)) by (destruct auto; [symmetry; apply sk_auto|reflexivity]).
  rewrite sk_same_stride. destruct (same_stride _); [|discriminate]. intros [= <-]. reflexivity.
Qed.

Lemma sk_residual (m0 : md F) tf r rs m : residual m0 tf r rs = Ok m ->
  residual (skeleton m0) tf (sk_red r) rs = Ok (skeleton m).
Proof.
  unfold residual. rewrite sk_strd, sk_del, sk_rfield, sk_padg. destruct (negb _); [discriminate|].
  set (rs' := if (_ =? 1)%Z then _ else _). clearbody rs'. intros E.
  destruct rs'; cbn [bind] in *;
    repeat match type of E with context [if ?b then _ else _] => destruct b; cbn [bind] in *; try discriminate end;
    apply sk_mk_br in E; exact E.
Qed.

Lemma br_form (ms : list (md F)) r auto m : mk_br ms r auto = Ok m -> m = MBR (if auto then auto_delay ms else ms) r.
Proof.
  unfold mk_br. destruct (_ <=? 1); [discriminate|]. destruct (same_stride _); [|discriminate]. congruence.
Qed.

Lemma allP_forall (P : md F -> Prop) ms : (forall m, In m ms -> P m) -> allP P ms.
Proof. induction ms; simpl; intros H; auto. Qed.

Lemma allP_infer (P : md F -> Prop) ms : (forall n, P (MBroadcast n)) -> allP P ms -> allP P (infer_streams ms).
Proof.
  intros HB. induction ms as [|m ms IH]; [auto|]. intros [H1 H2]. specialize (IH H2).
  destruct m; try (split; auto; fail). destruct ms as [|m2 ms]; [split; auto|].
  destruct m2; try (split; auto; fail).
Qed.

Lemma built_plain sh (m : md F) : built sh m -> cond_free m /\ cells_len m.
Proof.
  induction 1 as [c H|c H|d f|g|c H|ms Hms IH|ms r auto m Hms IH Hal Hmk Hsl|m0 tf r rs m H0 IH Hsh Hres Hsl];
    try (split; cbn; auto; fail).
  - unfold mk_seq. split; cbn [cond_free cells_len]; apply allP_infer; try (intros; exact I); apply allP_forall; intros m Hm; now apply IH.
  - apply br_form in Hmk as ->. assert (G : forall x, In x (if auto then auto_delay ms else ms) -> cond_free x /\ cells_len x).
    { destruct auto; auto. unfold auto_delay. intros x (y & <- & Hy)%in_map_iff. specialize (IH y Hy). unfold delay_to.
      destruct (_ <? _)%Z; [|exact IH]. cbn. tauto. }
    split; cbn [cond_free cells_len]; apply allP_forall; intros x Hx; now apply G.
  - unfold residual in Hres. destruct (negb _); [discriminate|]. set (rs' := if (_ =? 1)%Z then _ else _) in Hres. clearbody rs'.
    destruct IH. destruct rs'; cbn [bind] in *;
    repeat match type of Hres with context [if ?b then _ else _] => destruct b; cbn [bind] in *; try discriminate end;
    apply br_form in Hres as ->; cbn; tauto.
Qed.

Lemma any_nfwd (m : md F) xs bs : cond_free m -> cells_len m -> length xs = length bs ->
  rel_res (Forall2 (any (fun _ => True))) (nfwd m xs) (nfwd (skeleton m) bs).
Proof.
  intros Hc Hl L. unfold nfwd. eapply r_bind.
  - apply (r_fwd (any (fun _ => True)));
      [now apply any_frames|now apply any_md|constructor; apply any_list'; auto; apply Forall_forall; auto].
  - intros a b Hv. destruct Hv; constructor; auto.
Qed.

Lemma sk_same_len (ms : list (md F)) : allP cond_free ms -> allP cells_len ms -> same_len ms -> same_len (map skeleton ms).
Proof.
  intros Hc Hl Hs a b bs y1 y2 (m1 & <- & H1)%in_map_iff (m2 & <- & H2)%in_map_iff E1 E2.
  assert (G : forall m, In m ms -> cond_free m /\ cells_len m).
  { clear - Hc Hl. induction ms as [|m ms IH]; [intros _ []|]. intros x [<-|Hx].
    - split; [apply Hc|apply Hl].
    - apply IH; auto; [apply Hc|apply Hl]. }
  set (xs := repeat (f0 : F) (length bs)). assert (Lx : length xs = length bs) by apply repeat_length.
  pose proof (any_nfwd m1 xs bs (proj1 (G _ H1)) (proj2 (G _ H1)) Lx) as R1. rewrite E1 in R1.
  pose proof (any_nfwd m2 xs bs (proj1 (G _ H2)) (proj2 (G _ H2)) Lx) as R2. rewrite E2 in R2.
  inversion R1 as [z1 ? Q1 X1|]; subst. inversion R2 as [z2 ? Q2 X2|]; subst.
  rewrite <- (r_len _ _ _ Q1), <- (r_len _ _ _ Q2). apply (Hs m1 m2 xs); auto.
Qed.

Lemma sk_branches (m : md F) : branches (skeleton m) = map skeleton (branches m).
Proof. destruct m; reflexivity. Qed.
Lemma branches_plain (m : md F) : cond_free m -> cells_len m -> allP cond_free (branches m) /\ allP cells_len (branches m).
Proof. destruct m; cbn; auto. Qed.

Theorem built_net sh (m : md F) : built sh m -> net sh (skeleton m).
Proof.
  intros HB. pose proof (built_plain sh m HB) as Hp.
  induction HB as [c H|c H|d f|g|c H|ms Hms IH|ms r auto m Hms IH Hal Hmk Hsl|m0 tf r rs m H0 IH Hsh Hres Hsl].
  - apply net_conv. destruct H. constructor; auto.
  - apply (net_pool sh (sk_pool c)); [|apply H]. destruct H. constructor; auto.
    intros l l' P. cbn. unfold some_marked. clear - P. induction P; simpl; auto; [congruence|rewrite !orb_assoc; f_equal; apply orb_comm|congruence].
  - apply net_delay.
  - apply net_map.
  - apply net_rnn.
  - rewrite sk_mk_seq. apply net_seq. intros x (y & <- & Hy)%in_map_iff. apply IH; auto. apply (built_plain sh). auto.
  - eapply (net_br sh (map skeleton ms)); [..|eapply sk_mk_br; eauto|].
    + intros x (y & <- & Hy)%in_map_iff. apply IH; auto. apply (built_plain sh). auto.
    + destruct Hal as [Hd|[Ha Hd]]; [left|right; split; auto].
      * intros a b (y & <- & Hy)%in_map_iff (z & <- & Hz)%in_map_iff. rewrite !sk_del. auto.
      * intros a (y & <- & Hy)%in_map_iff. rewrite sk_strd. auto.
    + rewrite sk_branches. destruct Hp as [P1 P2]. destruct (branches_plain m P1 P2). now apply sk_same_len.
  - eapply (net_res sh (skeleton m0)); [| |eapply sk_residual; eauto|].
    + apply IH. apply (built_plain sh). auto.
    + unfold shrink_allowed in *. now rewrite sk_rfield, sk_padg.
    + rewrite sk_branches. destruct Hp as [P1 P2]. destruct (branches_plain m P1 P2). now apply sk_same_len.
Qed.

Lemma shaped_plain sh (m : md F) : shaped sh m -> cond_free m /\ cells_len m.
Proof.
  induction 1 as [c H|c H|g|c H|ms Hms IH|ms r auto m Hms IH Hal Hrf Hmk|m0 tf r rs m H0 IH Hsh Hres];
    try (split; cbn; auto; fail).
  - unfold mk_seq. split; cbn [cond_free cells_len]; apply allP_infer; try (intros; exact I); apply allP_forall; intros m Hm; now apply IH.
  - apply br_form in Hmk as ->. assert (G : forall x, In x (if auto then auto_delay ms else ms) -> cond_free x /\ cells_len x).
    { destruct auto; auto. unfold auto_delay. intros x (y & <- & Hy)%in_map_iff. specialize (IH y Hy). unfold delay_to.
      destruct (_ <? _)%Z; [|exact IH]. cbn. tauto. }
    split; cbn [cond_free cells_len]; apply allP_forall; intros x Hx; now apply G.
  - unfold residual in Hres. destruct (negb _); [discriminate|]. set (rs' := if (_ =? 1)%Z then _ else _) in Hres. clearbody rs'.
    destruct IH. destruct rs'; cbn [bind] in *;
    repeat match type of Hres with context [if ?b then _ else _] => destruct b; cbn [bind] in *; try discriminate end;
    apply br_form in Hres as ->; cbn; tauto.
Qed.

Lemma sk_same_len_inv (ms : list (md F)) : allP cond_free ms -> allP cells_len ms -> same_len (map skeleton ms) -> same_len ms.
Proof.
  intros Hc Hl Hs m1 m2 xs y1 y2 H1 H2 E1 E2.
  assert (G : forall m, In m ms -> cond_free m /\ cells_len m).
  { clear - Hc Hl. induction ms as [|m ms IH]; [intros _ []|]. intros x [<-|Hx].
    - split; [apply Hc|apply Hl].
    - apply IH; auto; [apply Hc|apply Hl]. }
  set (bs := repeat false (length xs)). assert (Lx : length xs = length bs) by (symmetry; apply repeat_length).
  pose proof (any_nfwd m1 xs bs (proj1 (G _ H1)) (proj2 (G _ H1)) Lx) as R1. rewrite E1 in R1.
  pose proof (any_nfwd m2 xs bs (proj1 (G _ H2)) (proj2 (G _ H2)) Lx) as R2. rewrite E2 in R2.
  inversion R1 as [w1 z1 Q1 X0 X1|]; subst. inversion R2 as [w2 z2 Q2 X2 X3|]; subst.
  rewrite (r_len _ _ _ Q1), (r_len _ _ _ Q2). apply (Hs (skeleton m1) (skeleton m2) bs); auto using in_map.
Qed.

Theorem shaped_regular sh (m : md F) : shaped sh m -> regular sh (skeleton m).
Proof.
  induction 1 as [c H|c H|g|c H|ms Hms IH|ms r auto m Hms IH Hal Hrf Hmk|m0 tf r rs m H0 IH Hsh Hres].
  - apply regular_conv. destruct H. constructor; auto.
  - apply (regular_pool sh (sk_pool c)); [|apply H]. destruct H. constructor; auto.
    intros l l' P. cbn. unfold some_marked. clear - P. induction P; simpl; auto; [congruence|rewrite !orb_assoc; f_equal; apply orb_comm|congruence].
  - apply regular_map.
  - apply regular_rnn.
  - rewrite sk_mk_seq. apply (regular_seq sh (map skeleton ms)). intros x (y & <- & Hy)%in_map_iff. auto.
  - eapply (regular_br sh (map skeleton ms)); [..|eapply sk_mk_br; eauto].
    + intros x (y & <- & Hy)%in_map_iff. auto.
    + destruct Hal as [Hd|[Ha Hd]]; [left|right; split; auto].
      * intros a b (y & <- & Hy)%in_map_iff (z & <- & Hz)%in_map_iff. rewrite !sk_del. auto.
      * intros a (y & <- & Hy)%in_map_iff. rewrite sk_strd. auto.
    + intros a b (y & <- & Hy)%in_map_iff (z & <- & Hz)%in_map_iff. rewrite !sk_rfield, !sk_padg. auto.
  - eapply (regular_res sh (skeleton m0)); [auto| |eapply sk_residual; eauto].
    rewrite sk_rfield, sk_padg. exact Hsh.
Qed.

Lemma net_br_len sh (ms : list (md bool)) r : net sh (MBR ms r) -> same_len ms.
Proof. inversion 1; assumption. Qed.

Lemma shaped_len sh (ms : list (md F)) r : shaped sh (MBR ms r) -> same_len ms.
Proof.
  intros H. destruct (shaped_plain sh _ H) as [P1 P2]. cbn [cond_free cells_len] in P1, P2.
  apply sk_same_len_inv; auto. apply shaped_regular, regular_is_net in H. exact (net_br_len sh _ _ H).
Qed.

Theorem shaped_built sh (m : md F) : shaped sh m -> built sh m.
Proof.
  intros HS. assert (L : forall m, shaped sh m -> forall ms r, m = MBR ms r -> same_len ms)
    by (intros x Hx ms r ->; eapply shaped_len; eauto).
  induction HS as [c H|c H|g|c H|ms Hms IH|ms r auto m Hms IH Hal Hrf Hmk|m0 tf r rs m H0 IH Hsh Hres].
  - now apply built_conv.
  - now apply built_pool.
  - apply built_map.
  - now apply built_rnn.
  - apply built_seq. auto.
  - assert (HS : shaped sh m) by (eapply shaped_br; eauto).
    eapply built_br; eauto. destruct m; try (intros ? ? ? ? ? []). eapply L; eauto.
  - assert (HS : shaped sh m) by (eapply shaped_res; eauto).
    eapply built_res; eauto.
    + destruct Hsh as [Q|(_ & [Q|[Q [Q1|Q1]]])]; unfold shrink_allowed; auto 6.
    + destruct m; try (intros ? ? ? ? ? []). eapply L; eauto.
Qed.

Theorem net_built sh (m : md F) : cells_len m -> net sh m -> built sh m.
Proof.
  intros Hl HB.
  induction HB as [c H|c H Hp|d f|g|c|ms Hms IH|ms r auto m Hms IH Hal Hmk Hsl|m0 tf r rs m H0 IH Hsh Hres Hsl].
  - constructor. destruct H. constructor; auto.
  - constructor. destruct H. constructor; auto.
  - constructor.
  - constructor.
  - constructor. exact Hl.
  - constructor. intros m Hm. apply IH; auto. unfold mk_seq in Hl. cbn [cells_len] in Hl. clear IH Hms.
    induction ms as [|a ms IH]; [destruct Hm|]. destruct Hm as [<-|Hm].
    + destruct a; try (apply Hl). destruct ms as [|b ms]; [exact I|]. destruct b; exact I.
    + apply IH; auto. destruct a; try (apply Hl). destruct ms as [|b ms]; [destruct Hm|]. destruct b; apply Hl.
  - eapply built_br; eauto. intros x Hx. apply IH; auto. apply br_form in Hmk as ->. cbn [cells_len] in Hl. clear - Hx Hl.
    assert (G : forall ms, allP cells_len ms -> forall x : md F, In x ms -> cells_len x).
    { clear. induction ms as [|a ms IH]; [intros _ _ []|]. intros [H1 H2] x [<-|Hx]; auto. }
    destruct auto; [|eauto]. specialize (G _ Hl (delay_to (zmax_list (map del ms)) x)). unfold delay_to in G at 2.
    assert (Hi : In (delay_to (zmax_list (map del ms)) x) (auto_delay ms)) by (unfold auto_delay; now apply in_map).
    specialize (G Hi). unfold delay_to in G. destruct (_ <? _)%Z; [apply G|exact G].
  - eapply built_res; eauto. apply IH. unfold residual in Hres. destruct (negb _); [discriminate|].
    set (rs' := if (_ =? 1)%Z then _ else _) in Hres. clearbody rs'.
    destruct rs'; cbn [bind] in *;
    repeat match type of Hres with context [if ?b then _ else _] => destruct b; cbn [bind] in *; try discriminate end;
    apply br_form in Hres as ->; cbn in Hl; tauto.
Qed.
End Built2.

(* ------------------------------------------------------------------ *)
(** ** Runs *)

Section RFeed.
Context {F G : Type} {FA : Frames F} {GA : Frames G} (R : F -> G -> Prop) (RF : rel_frames R).

Lemma r_feed xs ys : Forall2 R xs ys -> forall m m', rel_md R m m' ->
  rel_res (rel_pair (Forall2 (rel_opt R)) (rel_md R)) (feed (nstep true) m xs) (feed (nstep true) m' ys).
Proof.
  induction 1 as [|x y xs ys H1 H2 IH]; intros m m' HM; cbn [feed]; [constructor; split; simpl; auto|].
  eapply (r_bindp (rel_opt R) (rel_md R)).
  - unfold nstep. eapply r_bindp; [apply r_step; eauto; constructor; auto|].
    intros a b k k' Hv Hk. destruct Hv; constructor; split; simpl; auto; now constructor.
  - intros a b k k' Ha Hk. eapply r_bindp; [apply IH; eauto|]. intros. constructor. split; simpl; auto.
Qed.

Lemma r_nfwd xs ys m m' : Forall2 R xs ys -> rel_md R m m' -> rel_res (Forall2 R) (nfwd m xs) (nfwd m' ys).
Proof.
  intros H HM. unfold nfwd. eapply r_bind; [eapply r_fwd; eauto; now constructor|]. intros a b []; constructor; auto.
Qed.
End RFeed.

Section Runs.
Context {F : Type} {FA : Frames F}.

Theorem marks_calls (m : md F) cs ts : cond_free m -> cells_len m -> Forall2 (rel_call agree) cs ts ->
  exists ws,
    outs (run_calls m (map (call_map fst) cs)) = outs_map fst ws /\
    outs (run_calls m (map (call_map snd) cs)) = outs_map snd ws /\
    rel_res (Forall2 (rel_val agree)) ws (outs (run_calls (skeleton m) ts)).
Proof.
  intros Hc Hl H. exists (outs (run_calls (two_md m) cs)). destruct (two_streams m cs Hc Hl) as [E1 E2].
  split; [exact E1|]. split; [exact E2|].
  destruct (r_calls agree agree_frames cs ts H _ _ (agree_md m Hc Hl)) as [[a m1] [b m2] [Q _]|e]; cbn; now constructor.
Qed.

Lemma marks_feed (m : md F) ps ts us k : cond_free m -> cells_len m -> Forall2 agree ps ts ->
  feed (nstep true) (skeleton m) ts = Ok (us, k) ->
  exists ys ys' m1 m1', feed (nstep true) m (map fst ps) = Ok (ys, m1) /\ feed (nstep true) m (map snd ps) = Ok (ys', m1') /\
    forall n, nth_error us n <> Some (Some true) -> nth_error ys n = nth_error ys' n.
Proof.
  intros Hc Hl H E. pose proof (r_feed agree agree_frames ps ts H _ _ (agree_md m Hc Hl)) as RR. rewrite E in RR.
  inversion RR as [[zs k2] ? [Q1 _] E2|]; subst. symmetry in E2. cbn [fst snd] in *.
  assert (P : forall q : F * F -> F, q = fst \/ q = snd -> exists ys m1, feed (nstep true) m (map q ps) = Ok (ys, m1) /\ ys = map (option_map q) zs).
  { intros q Hq. pose proof (r_feed (graph q) ltac:(destruct Hq as [-> | ->]; [apply fst_frames|apply snd_frames])
      ps (map q ps) ltac:(now apply g_list) _ _ (two_proj q Hq m Hc Hl)) as RQ. rewrite E2 in RQ.
    inversion RQ as [? [ys m1] [Q _] E0 E3|]; subst. symmetry in E3. exists ys, m1. split; auto. cbn [fst] in Q.
    clear - Q. induction Q as [|a b l l' [x y <-|] H2 IH]; simpl; [reflexivity| |]; now f_equal. }
  destruct (P fst (or_introl eq_refl)) as (ys & m1 & F1 & ->). destruct (P snd (or_intror eq_refl)) as (ys' & m1' & F2 & ->).
  do 4 eexists. split; [exact F1|]. split; [exact F2|]. clear - Q1.
  induction Q1 as [|z u zs us HR HF IH]; intros [|n] Hn; simpl in *; auto.
  destruct HR as [z u HR|]; [|reflexivity]. simpl. destruct u; [congruence|]. now rewrite HR.
Qed.

Lemma sk_rnn_free (m : md F) : rnn_free m -> rnn_free (skeleton m).
Proof.
  assert (Hl : forall ms, Forall (fun m : md F => rnn_free m -> rnn_free (skeleton m)) ms -> allP rnn_free ms -> allP rnn_free (map skeleton ms)).
  { induction 1 as [|a t Hm HF IH]; intros H; simpl; auto. destruct H. split; [auto|now apply IH]. }
  induction m using md_ind'; cbn [skeleton rnn_free]; auto.
  intros [H1 H2]. split; [auto|]. destruct b; simpl; auto.
Qed.

Lemma unmarked (m : md F) n us k : cond_free m -> cells_len m ->
  feed (nstep true) (skeleton m) (repeat false n) = Ok (us, k) -> forall i, nth_error us i <> Some (Some true).
Proof.
  intros Hc Hl E.
  pose proof (r_feed (any (eq false)) (any_frames (eq false) eq_refl)
    (repeat f0 n) (repeat false n) ltac:(apply any_list'; [rewrite !repeat_length; auto|apply Forall_forall; intros x ->%repeat_spec; auto])
    _ _ (any_md (eq false) eq_refl ltac:(intros a b <- <-; reflexivity) m Hc Hl)) as RR. rewrite E in RR.
  inversion RR as [[zs k2] ? [Q1 _] E2|]; subst. cbn [fst] in Q1. clear - Q1.
  induction Q1 as [|z u zs us HR HF IH]; intros [|i]; simpl; try discriminate; auto. destruct HR as [z u <-|]; discriminate.
Qed.

Theorem built_memory sh (m : md F) a a' b : built sh m -> rnn_free m -> length a = length a' ->
  (rfield m <= Z.of_nat (length b))%Z -> b <> [] ->
  exists ys ys' y m1 m1',
    feed (nstep true) m (a ++ b) = Ok (ys ++ [y], m1) /\
    feed (nstep true) m (a' ++ b) = Ok (ys' ++ [y], m1').
Proof.
  intros HB Hr La Hb Hb0. destruct (built_plain sh m HB) as [Hc Hl].
  destruct (net_memory sh (skeleton m) (repeat false (length a)) (repeat true (length a)) (repeat false (length b)))
    as (us & us' & u & k1 & k1' & E1 & E2).
  { now apply built_net. } { now apply sk_rnn_free. } { now rewrite !repeat_length. }
  { now rewrite sk_rfield, repeat_length. } { destruct b; [congruence|discriminate]. }
  rewrite <- repeat_app in E1. pose proof (unmarked m _ _ _ Hc Hl E1 (length us)) as Hu.
  rewrite nth_error_app2, Nat.sub_diag in Hu by lia. simpl in Hu.
  destruct (marks_feed m (combine a a' ++ map two b) (repeat true (length a) ++ repeat false (length b)) (us' ++ [u]) k1' Hc Hl) with (2 := E2)
    as (ys & ys' & m1 & m1' & F1 & F2 & HE).
  { apply Forall2_app.
    - clear - La. revert a' La. induction a; intros [|x a'] La; simpl in *; try discriminate; constructor; auto. discriminate.
    - clear. induction b; simpl; constructor; auto. apply agree_two. }
  rewrite map_app in F1, F2. destruct (combine_map a a' La) as [C1 C2].
  rewrite C1, (map_two fst) in F1 by reflexivity. rewrite C2, (map_two snd) in F2 by reflexivity.
  specialize (HE (length us')). rewrite nth_error_app2, Nat.sub_diag in HE by lia. simpl in HE. specialize (HE Hu).
  pose proof (feed_length _ _ _ _ _ F1) as L1. pose proof (feed_length _ _ _ _ _ F2) as L2. pose proof (feed_length _ _ _ _ _ E2) as L3.
  rewrite !app_length in *. rewrite !repeat_length in L3. simpl in L3.
  assert (0 < length b) by (destruct b; [congruence|simpl; lia]).
  destruct (exists_last (l := ys)) as (v & y & ->); [intros ->; simpl in *; lia|].
  destruct (exists_last (l := ys')) as (v' & y' & ->); [intros ->; simpl in *; lia|].
  rewrite !app_length in *. simpl in *.
  rewrite !nth_error_app2 in HE by lia. replace (length us' - length v) with 0 in HE by lia. replace (length us' - length v') with 0 in HE by lia.
  injection HE as <-. exists v, v', y, m1, m1'. split; auto.
Qed.

Lemma feed_prefix (m : md F) a b ys m1 : feed (nstep true) m (a ++ b) = Ok (ys, m1) ->
  exists m2, feed (nstep true) m a = Ok (firstn (length a) ys, m2).
Proof.
  rewrite feed_app. destruct (feed (nstep true) m a) as [[y1 m2]|] eqn:E; [|discriminate]. cbn [bind fst snd].
  destruct (feed _ m2 b) as [[y2 m3]|]; [|discriminate]. cbn [bind fst snd]. intros [= <- <-]. exists m2.
  rewrite <- (feed_length _ _ _ _ _ E), firstn_app, Nat.sub_diag, firstn_all. simpl. now rewrite app_nil_r.
Qed.

Theorem built_pattern sh (m : md F) xs : built sh m ->
  exists ys m', feed (nstep true) m xs = Ok (ys, m') /\
    map is_some ys = map (emits (Z.to_nat (del m)) (Z.to_nat (strd m))) (seq 0 (length xs)).
Proof.
  intros HB. destruct (built_plain sh m HB) as [Hc Hl].
  destruct (net_pattern sh (skeleton m) (map (fun _ => false) xs) (built_net sh m HB)) as (us & k & E & Hp).
  rewrite sk_del, sk_strd, map_length in Hp.
  pose proof (r_feed (any (eq false)) (any_frames (eq false) eq_refl)
    xs (map (fun _ => false) xs) ltac:(apply any_list; auto)
    _ _ (any_md (eq false) eq_refl ltac:(intros a b <- <-; reflexivity) m Hc Hl)) as RR. rewrite E in RR.
  inversion RR as [[zs k2] ? [Q1 _] E2|]; subst. cbn [fst] in Q1. exists zs, k2. split; auto. rewrite <- Hp. clear - Q1.
  induction Q1 as [|z u zs us HR HF IH]; simpl; [auto|]. rewrite IH. f_equal. destruct HR; reflexivity.
Qed.

Theorem built_corrupted sh (m : md F) a x x' b : built sh m -> rnn_free m ->
  exists ys ys' m1 m1',
    feed (nstep true) m (a ++ x :: b) = Ok (ys, m1) /\ feed (nstep true) m (a ++ x' :: b) = Ok (ys', m1') /\
    forall n, n < length a \/ (Z.of_nat (length a) + Z.max 1 (rfield m) <= Z.of_nat n)%Z -> nth_error ys n = nth_error ys' n.
Proof.
  intros HB Hr. destruct (built_pattern sh m (a ++ x :: b) HB) as (ys & m1 & E1 & _).
  destruct (built_pattern sh m (a ++ x' :: b) HB) as (ys' & m1' & E2 & _).
  exists ys, ys', m1, m1'. split; [auto|]. split; [auto|]. intros n Hn.
  pose proof (feed_length _ _ _ _ _ E1) as L1. pose proof (feed_length _ _ _ _ _ E2) as L2. rewrite app_length in L1, L2. simpl in L1, L2.
  destruct Hn as [Hn|Hn].
  - destruct (feed_prefix m a _ _ _ E1) as [k1 P1]. destruct (feed_prefix m a _ _ _ E2) as [k2 P2].
    rewrite P1 in P2. injection P2 as P2 _. rewrite <- (firstn_skipn (length a) ys), <- (firstn_skipn (length a) ys').
    rewrite !nth_error_app1 by (rewrite firstn_length; lia). now rewrite P2.
  - destruct (Nat.le_gt_cases (length ys) n) as [Hc|Hc].
    + rewrite (proj2 (nth_error_None ys n)) by lia. symmetry. apply nth_error_None. lia.
    + set (b1 := firstn (n - length a) b). set (b2 := skipn (n - length a) b).
      assert (Eb : b = b1 ++ b2) by (symmetry; apply firstn_skipn).
      assert (Lb : length b1 = n - length a) by (unfold b1; rewrite firstn_length; lia).
      rewrite Eb in E1, E2. change (x :: b1 ++ b2) with ((x :: b1) ++ b2) in E1. change (x' :: b1 ++ b2) with ((x' :: b1) ++ b2) in E2.
      rewrite app_assoc in E1, E2.
      destruct (feed_prefix m _ _ _ _ E1) as [k1 P1]. destruct (feed_prefix m _ _ _ _ E2) as [k2 P2].
      assert (D : forall z, a ++ z :: b1 = (a ++ [z]) ++ b1) by (intros z; now rewrite <- app_assoc).
      rewrite !D in P1, P2.
      destruct (built_memory sh m (a ++ [x]) (a ++ [x']) b1 HB Hr) as (u & u' & y & q & q' & G1 & G2).
      { now rewrite !app_length. } { rewrite Lb. lia. } { intros Q. rewrite Q in Lb. simpl in Lb. lia. }
      rewrite P1 in G1. rewrite P2 in G2. injection G1 as G1 _. injection G2 as G2 _.
      assert (K : forall z (l : list (option F)) v w, length l = length a + S (length b) -> firstn (length ((a ++ [z]) ++ b1)) l = v ++ [w] -> nth_error l n = Some w).
      { clear - Lb Hc L1 Hn. intros z l v w Ll Ef. rewrite !app_length in Ef. simpl in Ef.
        assert (Lv : length v = n). { apply (f_equal (@length _)) in Ef. rewrite firstn_length, app_length in Ef. simpl in Ef. lia. }
        rewrite <- (firstn_skipn (length a + 1 + length b1) l), nth_error_app1 by (rewrite firstn_length; lia).
        rewrite Ef, nth_error_app2 by lia. now rewrite Lv, Nat.sub_diag. }
      rewrite (K x ys u y), (K x' ys' u' y); auto.
Qed.
End Runs.

Section Local.
Context {F : Type} {FA : Frames F}.

Lemma built_rf sh (m : md F) : built sh m -> (1 <= rfield m)%Z.
Proof.
  intros HB. destruct (net_core sh _ (built_net sh m HB)) as [_ []]. rewrite sk_rfield, sk_del in *. rewrite sk_padg in *. lia.
Qed.

Lemma rnn_free_len (m : md F) : rnn_free m -> cells_len m.
Proof.
  assert (Hl : forall ms, Forall (fun m : md F => rnn_free m -> cells_len m) ms -> allP rnn_free ms -> allP cells_len ms).
  { induction 1 as [|a t Hm HF IH]; intros H; simpl; auto. destruct H. split; [auto|now apply IH]. }
  induction m using md_ind'; cbn [rnn_free cells_len]; auto; try tauto.
  intros [H1 H2]. split; [auto|]. destruct b; simpl; auto.
Qed.
End Local.

Section Local2.
Context {F : Type} {FA : Frames F}.

Lemma sk_marks sh (m : md F) p q us k : built sh m -> rnn_free m ->
  feed (nstep true) (skeleton m) (repeat false p ++ true :: repeat false q) = Ok (us, k) ->
  forall n, n < p \/ (Z.of_nat p + rfield m <= Z.of_nat n)%Z -> nth_error us n <> Some (Some true).
Proof.
  intros HB Hr E n Hn. pose proof (sk_rnn_free m Hr) as Hr'. destruct (built_plain sh m HB) as [Hc Hl].
  assert (HB' : built sh (skeleton m)) by (apply net_built; [now apply rnn_free_len|now apply built_net]).
  destruct (built_corrupted sh (skeleton m) (repeat false p) true false (repeat false q) HB' Hr')
    as (ys & ys' & m1 & m1' & E1 & E2 & H).
  rewrite E in E1. injection E1 as <- <-. rewrite repeat_length, sk_rfield in H.
  pose proof (built_rf sh m HB). rewrite (H n) by (destruct Hn; [left|right]; lia).
  change (false :: repeat false q) with (repeat false (S q)) in E2. rewrite <- repeat_app in E2.
  eapply unmarked; eauto.
Qed.

Theorem built_corrupted' sh (m : md F) a x x' b : built sh m -> rnn_free m ->
  exists ys ys' m1 m1',
    feed (nstep true) m (a ++ x :: b) = Ok (ys, m1) /\ feed (nstep true) m (a ++ x' :: b) = Ok (ys', m1') /\
    forall n, n < length a \/ (Z.of_nat (length a) + rfield m <= Z.of_nat n)%Z -> nth_error ys n = nth_error ys' n.
Proof.
  intros HB Hr. destruct (built_corrupted sh m a x x' b HB Hr) as (ys & ys' & m1 & m1' & E1 & E2 & H).
  exists ys, ys', m1, m1'. split; [auto|]. split; [auto|]. intros n Hn. apply H. pose proof (built_rf sh m HB). lia.
Qed.

Theorem built_forward_local sh (m : md F) a x x' b ys : built sh m -> rnn_free m -> nfwd m (a ++ x :: b) = Ok ys ->
  exists ys', nfwd m (a ++ x' :: b) = Ok ys' /\ length ys = length ys' /\
    forall j, let n := Z.to_nat (del m) + Z.to_nat (strd m) * j in
      n < length a \/ ((Z.of_nat (length a) + rfield m <= Z.of_nat n)%Z /\ n <= length a + length b) ->
      nth_error ys j = nth_error ys' j.
Proof.
  intros HB Hr E. destruct (built_plain sh m HB) as [Hc Hl].
  set (ps := map two a ++ (x, x') :: map two b). set (ts := repeat false (length a) ++ true :: repeat false (length b)).
  assert (Hp : Forall2 agree ps ts).
  { apply Forall2_app; [|constructor; [discriminate|]].
    - clear. induction a; simpl; constructor; auto. apply agree_two.
    - clear. induction b; simpl; constructor; auto. apply agree_two. }
  assert (P1 : map fst ps = a ++ x :: b) by (unfold ps; rewrite map_app; cbn [map]; now rewrite !(map_two fst)).
  assert (P2 : map snd ps = a ++ x' :: b) by (unfold ps; rewrite map_app; cbn [map]; now rewrite !(map_two snd)).
  pose proof (r_nfwd (graph fst) fst_frames ps (map fst ps) _ _ ltac:(now apply g_list) (two_proj fst (or_introl eq_refl) m Hc Hl)) as R1.
  pose proof (r_nfwd (graph snd) snd_frames ps (map snd ps) _ _ ltac:(now apply g_list) (two_proj snd (or_intror eq_refl) m Hc Hl)) as R2.
  pose proof (r_nfwd agree agree_frames ps ts _ _ Hp (agree_md m Hc Hl)) as R3.
  rewrite P1, E in R1. rewrite P2 in R2.
  inversion R1 as [zs ? Q1 E1|]; subst. rewrite <- E1 in R2, R3.
  inversion R2 as [? ys' Q2 E2 E3|]; subst. inversion R3 as [? us Q3 E4 E5|]; subst.
  apply g_list in Q1 as ->. apply g_list in Q2 as ->. exists (map snd zs). split; [auto|]. split; [now rewrite !map_length|].
  intros j n Hn.
  destruct (net_sched sh (skeleton m) ts [] us) as [k Ek]; [now apply built_net|rewrite app_nil_r; auto|].
  rewrite sk_del, sk_strd in Ek.
  assert (Lt : length ts = length a + S (length b)) by (unfold ts; rewrite app_length; simpl; now rewrite !repeat_length).
  assert (Hs : 1 <= Z.to_nat (strd m)).
  { destruct (net_core sh _ (built_net sh m HB)) as [_ []]. rewrite sk_strd in inv_strd. pose proof (per_pos _ inv_ok). lia. }
  assert (Hln : n < length ts) by lia.
  pose proof (sk_marks sh m (length a) (length b) _ k HB Hr Ek n ltac:(tauto)) as Hm.
  rewrite nth_error_map, (nth_error_nth' _ 0) in Hm by now rewrite seq_length. rewrite seq_nth in Hm by auto. simpl in Hm.
  unfold scheduled, emits in Hm.
  replace (n - Z.to_nat (del m)) with (j * Z.to_nat (strd m)) in Hm by (unfold n; lia).
  rewrite Nat.mod_mul, Nat.div_mul in Hm by lia. replace (Z.to_nat (del m) <=? n) with true in Hm by (unfold n; lia). simpl in Hm.
  rewrite !nth_error_map. clear - Q3 Hm. revert j Hm. induction Q3 as [|z u zs us HR HF IH]; intros [|j] Hm; simpl in *; auto.
  destruct u; [congruence|]. now rewrite HR.
Qed.
End Local2.
