(** Proofs for C68: networks without convolutions are exact.

    A law of arithmetic is used for convolutions only.  A network without
    convolutions is run on frames with a lawful addition instead: an extra zero is
    neutral and every other sum is one and the same element.  Reading the frames
    back gives the original network. *)
From Coq Require Import List ZArith Bool Arith Lia Permutation.
From Verif Require Import Base Frames CoMod Leaf Rnn Net Spec LeafSpec LeafProof NetSpec NetDef Calls NetOk NetProps NetCore NetFwd NetPad NetThm
  NetRel RelProof Batch BatchProof FloatSpec FloatProof.
Import ListNotations.

Inductive held (F : Type) := HZero | HVal (x : F) | HMany.
Arguments HZero {F}.
Arguments HVal {F} x.
Arguments HMany {F}.

Section Held.
Context {F : Type} {FA : Frames F}.

Definition held_add (a b : held F) : held F :=
  match a, b with HZero, _ => b | _, HZero => a | _, _ => HMany end.
#[export] Instance held_frames : Frames (held F) := {| f0 := HZero; finf := HVal finf; fadd := held_add |}.
#[export] Instance held_laws : FrameLaws (held F).
Proof. constructor; cbn; intros; destruct a; try destruct b; try destruct c; reflexivity. Qed.

Definition hval (a : held F) : F := match a with HVal x => x | _ => f0 end.

Definition lf_obj (o : obj F) : obj (held F) := Obj (map HVal (o_buf o)) (o_idx o) (o_str o).
Definition lf_pool (c : pool_cfg F) : pool_cfg (held F) :=
  {| pk := pk c; ps := ps c; pp := pp c; pd := pd c;
     psp a := match pmode c, a with Zeros, HZero => HZero | _, _ => HVal (psp c (hval a)) end;
     pagg l := HVal (pagg c (map hval l)); pfill := pfill c; pmode := pmode c; pfdil := pfdil c |}.
Definition lf_cell (f : hid F -> F -> hid F * F) (h : hid (held F)) (a : held F) : hid (held F) * held F :=
  let '(h, y) := f (map hval h) (hval a) in (map HVal h, HVal y).
Definition lf_rnn (c : rnn_cfg F) : rnn_cfg (held F) :=
  {| r_cells := map lf_cell (r_cells c); r_h0 := map HVal (r_h0 c) |}.
Definition lf_red (r : red F) : red (held F) :=
  {| r_op a b := HVal (r_op r (hval a) (hval b)); r_bcast := r_bcast r; r_min2 := r_min2 r |}.

Fixpoint lift (m : md F) : md (held F) :=
  match m with
  | MDelay d f sh o => MDelay d f sh (lf_obj o)
  | MSkip n o => MSkip n o
  | MConv c o => MConv {| ck := ck c; cs := cs c; cp := cp c; cW _ a := a; cb := None; cmode := cmode c; cfill := cfill c |} obj_init
  | MPool c o => MPool (lf_pool c) (lf_obj o)
  | MMap g => MMap (fun a => HVal (g (hval a)))
  | MRnn c o => MRnn (lf_rnn c) (option_map (map (map HVal)) o)
  | MSeq ms => MSeq (map lift ms)
  | MBroadcast n => MBroadcast n
  | MPar ms => MPar (map lift ms)
  | MDispatch d => MDispatch d
  | MReduce r => MReduce (lf_red r)
  | MBR ms r => MBR (map lift ms) (lf_red r)
  | MCond p D R a b => MCond (fun v => p (val_map hval v)) D R (lift a) (option_map lift b)
  end.

Fixpoint liftable (m : md F) : Prop :=
  match m with
  | MConv _ _ => False
  | MPool c _ => pmode c = Zeros -> psp c f0 = f0
  | MSeq ms | MPar ms | MBR ms _ => allP liftable ms
  | MCond _ _ _ a b => liftable a /\ match b with Some b0 => liftable b0 | None => True end
  | _ => True
  end.

Lemma hval_map l : map hval (map HVal l) = l.
Proof. rewrite map_map. apply map_id. Qed.
Lemma lf_fill f : rel_fill (graph hval) f.
Proof. intros _. reflexivity. Qed.
Lemma lf_obj_rel o : rel_obj (graph hval) (lf_obj o) o.
Proof. repeat split. apply g_list. simpl. now rewrite hval_map. Qed.
Lemma lf_red_rel r : rel_red (graph hval) (lf_red r) r.
Proof. constructor; try reflexivity. intros a a' b b' <- <-. reflexivity. Qed.
Lemma lf_frames : rel_frames (graph hval).
Proof. constructor. reflexivity. Qed.

Lemma lf_rel m : liftable m -> rel_md (graph hval) (lift m) m.
Proof.
  assert (Hl : forall ms, Forall (fun m => liftable m -> rel_md (graph hval) (lift m) m) ms ->
    allP liftable ms -> Forall2 (rel_md (graph hval)) (map lift ms) ms).
  { induction 1 as [|a t Hm HF IH]; intros Hc; simpl; constructor.
    - apply Hm, Hc.
    - apply IH, Hc. }
  induction m using md_ind'; cbn [lift liftable]; intros Hc.
  - constructor; [apply lf_fill|apply lf_obj_rel].
  - constructor.
  - destruct Hc.
  - constructor; [|apply lf_obj_rel]. constructor; try reflexivity; try apply lf_fill.
    + intros x y <-. unfold graph. cbn [psp lf_pool]. destruct (pmode c), x; cbn [hval]; auto. now symmetry; apply Hc.
    + intros l l' ->%g_list. reflexivity.
  - constructor. intros x y <-. reflexivity.
  - constructor.
    + constructor; [|apply g_list; cbn; now rewrite hval_map]. cbn [r_cells lf_rnn].
      induction (r_cells c) as [|f l IH]; simpl; constructor; auto.
      intros s s' x y ->%g_list <-. unfold lf_cell. destruct (f (map hval s) (hval x)) as [h1 y1].
      split; cbn [fst snd]; [apply g_list; now rewrite hval_map|reflexivity].
    + destruct o as [hs|]; simpl; constructor. induction hs as [|a hs IH]; simpl; constructor; auto.
      apply g_list. now rewrite hval_map.
  - constructor. auto.
  - constructor.
  - constructor. auto.
  - constructor.
  - constructor. apply lf_red_rel.
  - constructor; [auto|apply lf_red_rel].
  - destruct Hc as [H1 H2]. constructor; auto.
    + intros v v' ->%g_val_inv. reflexivity.
    + destruct b; simpl; constructor. eapply H; eauto.
Qed.

Lemma map_lf {A} (f : md F -> A) (g : md (held F) -> A) ms : Forall (fun m => g (lift m) = f m) ms ->
  map g (map lift ms) = map f ms.
Proof. intros H. rewrite map_map. induction H; simpl; congruence. Qed.

Lemma all_lf {A} (f : md F -> A) (g : md (held F) -> A) (H : forall m, g (lift m) = f m) ms : map g (map lift ms) = map f ms.
Proof. apply map_lf. apply Forall_forall. auto. Qed.

Lemma lf_strd (m : md F) : strd (lift m) = strd m.
Proof.
  induction m using md_ind'; try reflexivity.
  - cbn [lift strd]. now rewrite (map_lf strd strd).
  - destruct ms as [|a ms]; [reflexivity|]. inversion H; subst. assumption.
  - destruct ms as [|a ms]; [reflexivity|]. inversion H; subst. assumption.
Qed.
Lemma lf_padg (m : md F) : padg (lift m) = padg m.
Proof.
  induction m using md_ind'; try reflexivity; cbn [lift padg].
  - rewrite (map_lf (fun m => (padg m, strd m)) (fun m => (padg m, strd m))); [reflexivity|].
    eapply Forall_impl; [|exact H]. intros a E. cbv beta. now rewrite E, lf_strd.
  - now rewrite (map_lf padg padg).
  - now rewrite (map_lf padg padg).
Qed.
Lemma lf_rfield (m : md F) : rfield (lift m) = rfield m.
Proof.
  induction m using md_ind'; try reflexivity; cbn [lift rfield].
  - rewrite (map_lf (fun m => (rfield m, strd m)) (fun m => (rfield m, strd m))); [reflexivity|].
    eapply Forall_impl; [|exact H]. intros a E. cbv beta. now rewrite E, lf_strd.
  - now rewrite (map_lf rfield rfield).
  - now rewrite (map_lf rfield rfield).
Qed.
Lemma lf_del (m : md F) : del (lift m) = del m.
Proof.
  induction m using md_ind'; try reflexivity.
  - change (del (MSeq ms)) with (rfield (MSeq ms) - 1 - padg (MSeq ms))%Z. rewrite <- lf_rfield, <- lf_padg. reflexivity.
  - cbn [lift del]. now rewrite (map_lf del del).
  - cbn [lift del]. now rewrite (map_lf del del).
Qed.

Lemma lf_infer (ms : list (md F)) : infer_streams (map lift ms) = map lift (infer_streams ms).
Proof.
  induction ms as [|m ms IH]; [reflexivity|]. destruct m; try (cbn [List.map lift infer_streams] in *; f_equal; exact IH).
  destruct ms as [|m2 ms]; [reflexivity|].
  destruct m2; cbn [List.map lift infer_streams] in *; rewrite ?map_length; f_equal; exact IH.
Qed.
Lemma lf_mk_seq (ms : list (md F)) : lift (mk_seq ms) = mk_seq (map lift ms).
Proof. unfold mk_seq. cbn [lift]. now rewrite lf_infer. Qed.

Lemma lf_auto (ms : list (md F)) : auto_delay (map lift ms) = map lift (auto_delay ms).
Proof.
  unfold auto_delay. rewrite (all_lf del del lf_del), !map_map. apply map_ext. intros m. unfold delay_to.
  rewrite lf_del. destruct (_ <? _)%Z; [|reflexivity]. cbn [lift map]. reflexivity.
Qed.

Lemma lf_same_stride (ms : list (md F)) : same_stride (map lift ms) = same_stride ms.
Proof.
  unfold same_stride. destruct ms as [|m t]; [reflexivity|]. cbn [map]. rewrite lf_strd.
  induction t as [|a t IH]; [reflexivity|]. cbn [map forallb]. rewrite lf_strd. f_equal. exact IH.
Qed.

Lemma lf_mk_br (ms : list (md F)) r auto m : mk_br ms r auto = Ok m ->
  mk_br (map lift ms) (lf_red r) auto = Ok (lift m).
Proof.
  unfold mk_br. rewrite map_length. destruct (_ <=? 1); [discriminate|].
  replace (if auto then auto_delay (map lift ms) else map lift ms)
    with (map lift (if auto then auto_delay ms else ms)) by (destruct auto; [symmetry; apply lf_auto|reflexivity]).
  rewrite lf_same_stride. destruct (same_stride _); [|discriminate]. intros [= <-]. reflexivity.
Qed.

Lemma lf_residual (m0 : md F) tf r rs m : residual m0 tf r rs = Ok m ->
  residual (lift m0) tf (lf_red r) rs = Ok (lift m).
Proof.
  unfold residual. rewrite lf_strd, lf_del, lf_rfield, lf_padg. destruct (negb _); [discriminate|].
  set (rs' := if (_ =? 1)%Z then _ else _). clearbody rs'. intros E.
  destruct rs'; cbn [bind] in *;
    repeat match type of E with context [if ?b then _ else _] => destruct b; cbn [bind] in *; try discriminate end;
    apply lf_mk_br in E; exact E.
Qed.


(** *** Networks *)

Lemma all_in (P : md F -> Prop) ms : allP P ms -> forall x, In x ms -> P x.
Proof. induction ms as [|a ms IH]; [intros _ _ []|]. intros [H1 H2] x [<-|Hx]; auto. Qed.

Lemma lf_nfwd (m : md F) xs : liftable m -> nfwd m (map hval xs) = (ys <- nfwd (lift m) xs ;; Ok (map hval ys)).
Proof.
  intros Hm. pose proof (r_nfwd (graph hval) lf_frames xs (map hval xs) _ _ (proj2 (g_list hval _ _) eq_refl) (lf_rel m Hm)) as RR.
  destruct (nfwd (lift m) xs) as [ys|e]; inversion RR as [a b Q|]; subst; cbn [bind]; [|reflexivity].
  f_equal. now apply g_list.
Qed.

Lemma lf_same_len (ms : list (md F)) : allP liftable ms -> same_len ms -> same_len (map lift ms).
Proof.
  intros Hl Hs a b xs y1 y2 (m1 & <- & H1)%in_map_iff (m2 & <- & H2)%in_map_iff E1 E2.
  pose proof (lf_nfwd m1 xs (all_in _ _ Hl _ H1)) as R1. rewrite E1 in R1.
  pose proof (lf_nfwd m2 xs (all_in _ _ Hl _ H2)) as R2. rewrite E2 in R2. cbn [bind] in R1, R2.
  rewrite <- (map_length hval y1), <- (map_length hval y2). apply (Hs m1 m2 (map hval xs)); auto.
Qed.

Lemma lf_branches (m : md F) : branches (lift m) = map lift (branches m).
Proof. destruct m; reflexivity. Qed.
Lemma branches_liftable (m : md F) : liftable m -> allP liftable (branches m).
Proof. destruct m; cbn; auto. Qed.

Lemma lf_pool_ok c : pool_ok c -> pool_ok (lf_pool c).
Proof.
  intros []. constructor; auto.
  - intros l l' P. cbn. f_equal. apply pok_agg. now apply Permutation_map.
  - intros x. cbn [psp lf_pool pmode]. destruct (pmode c) eqn:E; cbn [make_padding f0 finf held_frames hval] in *; auto.
    f_equal. apply (pok_sp f0).
Qed.

Theorem net_lift sh (m : md F) : net sh m -> conv_free m -> liftable m /\ net sh (lift m).
Proof.
  intros HB. 
  induction HB as [c H|c H Hp|d f|g|c|ms Hms IH|ms r auto m Hms IH Hal Hmk Hsl|m0 tf r rs m H0 IH Hsh Hres Hsl]; intros Hc.
  - destruct Hc.
  - split; [|apply (net_pool sh (lf_pool c)); [now apply lf_pool_ok|auto]].
    cbn [liftable]. intros E. destruct H. specialize (pok_sp f0). rewrite E in pok_sp. exact pok_sp.
  - split; [exact I|apply net_delay].
  - split; [exact I|apply net_map].
  - split; [exact I|apply net_rnn].
  - assert (G : forall m, In m ms -> conv_free m).
    { clear IH Hms. intros m Hm. unfold mk_seq in Hc. cbn [conv_free] in Hc. revert Hm Hc. induction ms as [|a ms IH]; [intros []|].
      intros Hm Hc. destruct Hm as [<-|Hm].
      + destruct a; try (apply Hc). destruct ms as [|b ms]; [exact I|]. destruct b; exact I.
      + apply IH; auto. destruct a; try (apply Hc). destruct ms as [|b ms]; [destruct Hm|]. destruct b; apply Hc. }
    split.
    + unfold mk_seq. cbn [liftable]. apply allP_infer; [intros; exact I|]. apply allP_forall. intros m Hm. apply IH; auto.
    + rewrite lf_mk_seq. apply net_seq. intros x (y & <- & Hy)%in_map_iff. apply IH; auto.
  - assert (G : forall x, In x ms -> conv_free x).
    { intros x Hx. apply br_form in Hmk as ->. cbn [conv_free] in Hc. clear - Hx Hc.
      pose proof (all_in conv_free) as G. destruct auto; [|eauto]. specialize (G _ Hc (delay_to (zmax_list (map del ms)) x)). unfold delay_to in G at 2.
      assert (Hi : In (delay_to (zmax_list (map del ms)) x) (auto_delay ms)) by (unfold auto_delay; now apply in_map).
      specialize (G Hi). unfold delay_to in G. destruct (_ <? _)%Z; [apply G|exact G]. }
    assert (HL : liftable m).
    { pose proof Hmk as Hmk'. apply br_form in Hmk' as ->. cbn [liftable]. apply allP_forall. intros x Hx. destruct auto; [|apply IH; auto].
      unfold auto_delay in Hx. apply in_map_iff in Hx as (y & <- & Hy). destruct (IH y Hy (G y Hy)) as [Ly _].
      unfold delay_to. destruct (_ <? _)%Z; [|exact Ly]. cbn. tauto. }
    split; [exact HL|]. eapply (net_br sh (map lift ms)); [..|eapply lf_mk_br; eauto|].
    + intros x (y & <- & Hy)%in_map_iff. apply IH; auto.
    + destruct Hal as [Hd|[Ha Hd]]; [left|right; split; auto].
      * intros a b (y & <- & Hy)%in_map_iff (z & <- & Hz)%in_map_iff. rewrite !lf_del. auto.
      * intros a (y & <- & Hy)%in_map_iff. rewrite lf_strd. auto.
    + rewrite lf_branches. apply lf_same_len; auto. now apply branches_liftable.
  - assert (G : conv_free m0 /\ (liftable m0 -> liftable m)).
    { clear IH Hsh. unfold residual in Hres. destruct (negb _); [discriminate|].
      set (rs' := if (_ =? 1)%Z then _ else _) in Hres. clearbody rs'.
      destruct rs'; cbn [bind] in *;
      repeat match type of Hres with context [if ?b then _ else _] => destruct b; cbn [bind] in *; try discriminate end;
      apply br_form in Hres as ->; cbn in *; tauto. }
    destruct G as [Hc0 HL]. destruct (IH Hc0) as [L0 N0]. specialize (HL L0). split; [exact HL|].
    eapply (net_res sh (lift m0)); [exact N0| |eapply lf_residual; eauto|].
    + unfold shrink_allowed in *. now rewrite lf_rfield, lf_padg.
    + rewrite lf_branches. apply lf_same_len; auto. now apply branches_liftable.
Qed.

Lemma nfwd_unlift (m : md F) xs zs : liftable m -> nfwd m xs = Ok zs ->
  exists zs', nfwd (lift m) (map HVal xs) = Ok zs' /\ zs = map hval zs'.
Proof.
  intros HL E. pose proof (lf_nfwd m (map HVal xs) HL) as R. rewrite hval_map, E in R.
  destruct (nfwd (lift m) (map HVal xs)) as [zs'|]; [|discriminate]. cbn [bind] in R. injection R as ->. eauto.
Qed.

Theorem exact_sched sh (m : md F) xs ws zs : net sh m -> conv_free m -> nfwd m (xs ++ ws) = Ok zs ->
  exists m', feed (nstep true) m xs
    = Ok (map (scheduled (Z.to_nat (del m)) (Z.to_nat (strd m)) zs) (seq 0 (length xs)), m').
Proof.
  intros HN Hc E. destruct (net_lift sh m HN Hc) as [HL HN'].
  destruct (nfwd_unlift m _ _ HL E) as (zs' & E' & ->). rewrite map_app in E'.
  destruct (net_sched sh (lift m) _ _ _ HN' E') as [m1 E1].
  pose proof (r_feed (graph hval) lf_frames (map HVal xs) xs ltac:(apply g_list; now rewrite hval_map) _ _ (lf_rel m HL)) as RR.
  rewrite E1 in RR. inversion RR as [a [ys m2] [Q _] E2 E3|]; subst. cbn [fst] in Q. exists m2. f_equal. f_equal.
  rewrite lf_del, lf_strd, map_length in Q. clear - Q. revert Q. generalize (seq 0 (length xs)). intros l.
  revert ys. induction l as [|n l IH]; intros ys Q; cbn [map] in *; inversion Q as [|a b c d R1 R2]; subst; [reflexivity|].
  f_equal; [|auto]. unfold scheduled in *. destruct (emits _ _ _); [|now inversion R1].
  rewrite nth_error_map. inversion R1 as [u v R E1 E2|E1 E2]; subst; cbn; [now rewrite <- R|reflexivity].
Qed.

Theorem exact_pad_end (m : md F) xs zs : net false m -> conv_free m -> xs <> [] -> nfwd m xs = Ok zs ->
  exists m', steps m (VS xs) true true = Ok (of_clip (stack_outs zs), m').
Proof.
  intros HN Hc Hx E. destruct (net_lift false m HN Hc) as [HL HN'].
  destruct (nfwd_unlift m _ _ HL E) as (zs' & E' & ->).
  destruct (net_pad_end (lift m) (map HVal xs) zs' HN') as [m1 E1]; [destruct xs; [congruence|discriminate]|exact E'|].
  pose proof (r_steps (graph hval) lf_frames (lift m) m (VS (map HVal xs)) (VS xs) true true (lf_rel m HL)
    ltac:(constructor; apply g_list; now rewrite hval_map)) as RR.
  rewrite E1 in RR. inversion RR as [a [v m2] [Q _] E2 E3|]; subst. cbn [fst] in Q. exists m2. f_equal. f_equal.
  apply g_val_inv in Q. rewrite Q. destruct zs'; reflexivity.
Qed.
End Held.
