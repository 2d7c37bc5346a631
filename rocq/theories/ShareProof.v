(** Networks with shared objects: proofs (C67). *)
From Coq Require Import List ZArith Bool Arith Lia.
From Verif Require Import Base Frames CoMod Leaf Rnn Net Spec LeafSpec NetSpec Calls LeafProof LeafMore NetOk NetExn NetExnSpec NetExnProof Share ShareSpec.
Import ListNotations.

Section ShareProof.
Context {F : Type} {FA : Frames F} {FL : FrameLaws F}.

Section Ind.
Variable P : sn F -> Prop.
Hypothesis HRef : forall i, P (NRef i).
Hypothesis HSeq : forall ns, Forall P ns -> P (NSeq ns).
Hypothesis HPar : forall ns, Forall P ns -> P (NPar ns).
Hypothesis HBR : forall ns r, Forall P ns -> P (NBR ns r).
Hypothesis HCond : forall p D R a b, P a -> (forall b0, b = Some b0 -> P b0) -> P (NCond p D R a b).
Fixpoint sn_ind' (n : sn F) : P n :=
  let go := fix go ns : Forall P ns :=
    match ns with [] => Forall_nil P | m :: t => Forall_cons m (sn_ind' m) (go t) end in
  match n with
  | NRef i => HRef i
  | NSeq ns => HSeq ns (go ns)
  | NPar ns => HPar ns (go ns)
  | NBR ns r => HBR ns r (go ns)
  | NCond p D R a b =>
      HCond p D R a b (sn_ind' a)
        (match b as b return forall b0, b = Some b0 -> P b0 with
         | None => fun b0 E => match E in _ = o return match o with Some _ => P b0 | None => True end with
                               | eq_refl => I end
         | Some b1 => fun b0 E => match E in _ = o return match o with Some x => P x | None => True end with
                                  | eq_refl => sn_ind' b1 end
         end)
  end.
End Ind.

(* ------------------------------------------------------------------ *)
(** ** The objects *)

Lemma object_set_same s i (m : md F) : i < length s -> object (set_nth s i m) i = m.
Proof.
  unfold object. revert i. induction s as [|h s IH]; intros [|i] H; cbn in *; try lia; auto. apply IH. lia.
Qed.
Lemma object_set_other s i j (m : md F) : i <> j -> object (set_nth s i m) j = object s j.
Proof.
  unfold object. revert i j. induction s as [|h s IH]; intros [|i] [|j] H; cbn; auto; try lia; try easy.
Qed.
Lemma set_nth_out {A} (s : list A) i m : length s <= i -> set_nth s i m = s.
Proof. revert i. induction s as [|h s IH]; intros [|i] H; cbn in *; auto; try lia. f_equal. apply IH. lia. Qed.

Lemma copies_ext n : forall s s' : list (md F), (forall i, In i (occurrences n) -> object s' i = object s i) ->
  copies s' n = copies s n.
Proof.
  assert (L : forall ns, Forall (fun n => forall s s' : list (md F), (forall i, In i (occurrences n) -> object s' i = object s i) ->
    copies s' n = copies s n) ns -> forall s s' : list (md F), (forall i, In i (flat_map occurrences ns) -> object s' i = object s i) ->
    map (copies s') ns = map (copies s) ns).
  { intros ns H s s' E. apply map_ext_in. intros n1 Hn. rewrite Forall_forall in H. apply H; auto.
    intros i Hi. apply E. apply in_flat_map. eauto. }
  induction n using sn_ind'; intros s s' E; cbn [copies occurrences] in *.
  - apply (E i). now left.
  - f_equal. now apply L.
  - f_equal. now apply L.
  - f_equal. now apply L.
  - f_equal.
    + apply IHn. intros i Hi. apply E, in_or_app. auto.
    + destruct b as [b0|]; [|reflexivity]. cbn [option_map]. f_equal. apply (H b0 eq_refl).
      intros i Hi. apply E, in_or_app. auto.
Qed.

Lemma map_copies_ext ns (s s' : list (md F)) : (forall i, In i (flat_map occurrences ns) -> object s' i = object s i) ->
  map (copies s') ns = map (copies s) ns.
Proof.
  intros E. apply map_ext_in. intros n Hn. apply copies_ext. intros i Hi. apply E, in_flat_map. eauto.
Qed.

(* ------------------------------------------------------------------ *)
(** ** One method call *)

(** Objects of the list [l] that occur twice in it never change. *)
Definition safe (s : list (md F)) (l : list nat) : Prop :=
  forall i, 2 <= count_occ Nat.eq_dec l i -> never_changes (object s i).

(** What a call may do to objects that are not in [l] or never change. *)
Definition only (l : list nat) (s s' : list (md F)) : Prop :=
  forall i, (In i l -> never_changes (object s i)) -> object s' i = object s i.

Definition good (n : sn F) (sc : list (md F) -> val F -> list (md F) * res (val F)) (xc : md F -> val F -> md F * res (val F)) :=
  forall s v, safe s (occurrences n) ->
    xc (copies s n) v = (copies (fst (sc s v)) n, snd (sc s v)) /\ only (occurrences n) s (fst (sc s v)).

Lemma in_count l i : In i l <-> 1 <= count_occ Nat.eq_dec l i.
Proof. rewrite (count_occ_In Nat.eq_dec). lia. Qed.

Lemma safe_l s l k : safe s (l ++ k) -> safe s l.
Proof. intros H i Hi. apply H. rewrite count_occ_app. lia. Qed.
Lemma safe_r s l k : safe s (l ++ k) -> safe s k.
Proof. intros H i Hi. apply H. rewrite count_occ_app. lia. Qed.
Lemma safe_both s l k i : safe s (l ++ k) -> In i l -> In i k -> never_changes (object s i).
Proof. intros H H1 H2. apply H. rewrite count_occ_app. apply in_count in H1. apply in_count in H2. lia. Qed.

Lemma only_refl l s : only l s s.
Proof. intros i _. reflexivity. Qed.
Lemma only_trans l k s s1 s2 : safe s (l ++ k) -> only l s s1 -> only k s1 s2 -> only (l ++ k) s s2.
Proof.
  intros Hs H1 H2 i Hi. rewrite H2.
  - apply H1. intros H. apply Hi, in_or_app. auto.
  - intros H. rewrite H1; [apply Hi, in_or_app; auto|]. intros H'. eapply safe_both; eauto.
Qed.
Lemma only_weak l k s s1 : only l s s1 -> (forall i, In i l -> In i k) -> only k s s1.
Proof. intros H Hi i Hn. apply H. auto. Qed.
Lemma only_other l k s s1 : safe s (l ++ k) -> only l s s1 -> forall i, In i k -> object s1 i = object s i.
Proof. intros Hs H i Hi. apply H. intros Hl. eapply safe_both; eauto. Qed.
Lemma only_first l k s s1 s2 : safe s (l ++ k) -> only l s s1 -> only k s1 s2 -> forall i, In i l -> object s2 i = object s1 i.
Proof.
  intros Hs H1 H2 i Hi. apply H2. intros Hk. rewrite H1; [|intros Hl]; eapply safe_both; eauto.
Qed.
Lemma safe_ext s s1 k : (forall i, In i k -> object s1 i = object s i) -> safe s k -> safe s1 k.
Proof. intros E H i Hi. rewrite E; [auto|]. apply in_count. lia. Qed.

(** A call on the first of two parts, then on the second. *)
Lemma second l k s s1 : safe s (l ++ k) -> only l s s1 -> safe s1 k.
Proof. intros Hs H. eapply safe_ext; [eapply only_other; eauto|]. eapply safe_r; eauto. Qed.

Section OneMethod.
Variable sc : sn F -> list (md F) -> val F -> list (md F) * res (val F).
Variable xc : md F -> val F -> md F * res (val F).

Ltac first_child n t :=
  let G := fresh "G" in let E1 := fresh "E" in let O1 := fresh "O" in
  match goal with HF : Forall _ (n :: t), S : safe ?s (occurrences n ++ _) |- context [xc (copies ?s n) ?v] =>
    pose proof (Forall_inv HF s v (safe_l _ _ _ S)) as [E1 O1]
  end.

Lemma nseq_step_good ns : Forall (fun n => good n (sc n) xc) ns -> forall s v, safe s (flat_map occurrences ns) ->
  xseq_step xc (map (copies s) ns) v = (map (copies (fst (nseq_step sc ns s v))) ns, snd (nseq_step sc ns s v)) /\
  only (flat_map occurrences ns) s (fst (nseq_step sc ns s v)).
Proof.
  induction ns as [|n t IH]; intros HF s v S; cbn [map xseq_step nseq_step flat_map] in *; [split; [auto|apply only_refl]|].
  pose proof (Forall_inv HF s v (safe_l _ _ _ S)) as [E1 O1]. rewrite E1.
  destruct (sc n s v) as [s1 [v1|e]] eqn:Ec; cbn [fst snd] in *.
  - destruct (is_none v1) eqn:En.
    + cbn [fst snd]. split; [|apply (only_weak _ _ _ _ O1); intros; apply in_or_app; auto].
      f_equal. f_equal. symmetry. apply map_copies_ext. eapply only_other; eauto.
    + destruct (IH (Forall_inv_tail HF) s1 v1 (second _ _ _ _ S O1)) as [E2 O2].
      rewrite (map_copies_ext t s s1) in E2 by (eapply only_other; eauto). rewrite E2. cbn [fst snd].
      split; [|eapply only_trans; eauto]. f_equal. f_equal. symmetry. apply copies_ext. eapply only_first; eauto.
  - split; [|apply (only_weak _ _ _ _ O1); intros; apply in_or_app; auto].
    f_equal. f_equal. symmetry. apply map_copies_ext. eapply only_other; eauto.
Qed.

Lemma nseq_steps_good ns : Forall (fun n => good n (sc n) xc) ns -> forall s v, safe s (flat_map occurrences ns) ->
  xseq_steps xc (map (copies s) ns) v = (map (copies (fst (nseq_steps sc ns s v))) ns, snd (nseq_steps sc ns s v)) /\
  only (flat_map occurrences ns) s (fst (nseq_steps sc ns s v)).
Proof.
  induction ns as [|n t IH]; intros HF s v S; cbn [map xseq_steps nseq_steps flat_map] in *; [split; [auto|apply only_refl]|].
  destruct (stops v) eqn:Es; [split; [auto|apply only_refl]|].
  pose proof (Forall_inv HF s v (safe_l _ _ _ S)) as [E1 O1]. rewrite E1.
  destruct (sc n s v) as [s1 [v1|e]] eqn:Ec; cbn [fst snd] in *.
  - destruct (IH (Forall_inv_tail HF) s1 v1 (second _ _ _ _ S O1)) as [E2 O2].
    rewrite (map_copies_ext t s s1) in E2 by (eapply only_other; eauto). rewrite E2. cbn [fst snd].
    split; [|eapply only_trans; eauto]. f_equal. f_equal. symmetry. apply copies_ext. eapply only_first; eauto.
  - split; [|apply (only_weak _ _ _ _ O1); intros; apply in_or_app; auto].
    f_equal. f_equal. symmetry. apply map_copies_ext. eapply only_other; eauto.
Qed.

Lemma npar_good ns : Forall (fun n => good n (sc n) xc) ns -> forall s l, safe s (flat_map occurrences ns) ->
  xpar_run xc (map (copies s) ns) l = (map (copies (fst (npar_run sc ns s l))) ns, snd (npar_run sc ns s l)) /\
  only (flat_map occurrences ns) s (fst (npar_run sc ns s l)).
Proof.
  induction ns as [|n t IH]; intros HF s l S; cbn [map xpar_run npar_run flat_map] in *; [split; [auto|apply only_refl]|].
  destruct l as [|v l]; [split; [auto|apply only_refl]|].
  pose proof (Forall_inv HF s v (safe_l _ _ _ S)) as [E1 O1]. rewrite E1.
  destruct (sc n s v) as [s1 [v1|e]] eqn:Ec; cbn [fst snd] in *.
  - destruct (IH (Forall_inv_tail HF) s1 l (second _ _ _ _ S O1)) as [E2 O2].
    rewrite (map_copies_ext t s s1) in E2 by (eapply only_other; eauto). rewrite E2.
    destruct (npar_run sc t s1 l) as [s2 r]. cbn [fst snd] in *.
    split; [|eapply only_trans; eauto]. f_equal. f_equal. symmetry. apply copies_ext. eapply only_first; eauto.
  - split; [|apply (only_weak _ _ _ _ O1); intros; apply in_or_app; auto].
    f_equal. f_equal. symmetry. apply map_copies_ext. eapply only_other; eauto.
Qed.

Lemma nbr_good ns : Forall (fun n => good n (sc n) xc) ns -> forall s v, safe s (flat_map occurrences ns) ->
  xbr_run xc (map (copies s) ns) v = (map (copies (fst (nbr_run sc ns s v))) ns, snd (nbr_run sc ns s v)) /\
  only (flat_map occurrences ns) s (fst (nbr_run sc ns s v)).
Proof.
  induction ns as [|n t IH]; intros HF s v S; cbn [map xbr_run nbr_run flat_map] in *; [split; [auto|apply only_refl]|].
  pose proof (Forall_inv HF s v (safe_l _ _ _ S)) as [E1 O1]. rewrite E1.
  destruct (sc n s v) as [s1 [v1|e]] eqn:Ec; cbn [fst snd] in *.
  - destruct (IH (Forall_inv_tail HF) s1 v (second _ _ _ _ S O1)) as [E2 O2].
    rewrite (map_copies_ext t s s1) in E2 by (eapply only_other; eauto). rewrite E2.
    destruct (nbr_run sc t s1 v) as [s2 r]. cbn [fst snd] in *.
    split; [|eapply only_trans; eauto]. f_equal. f_equal. symmetry. apply copies_ext. eapply only_first; eauto.
  - split; [|apply (only_weak _ _ _ _ O1); intros; apply in_or_app; auto].
    f_equal. f_equal. symmetry. apply map_copies_ext. eapply only_other; eauto.
Qed.

(** An object on its own. *)
Lemma ref_good i : (forall v, fst (xc (MSeq []) v) = MSeq []) -> (forall m, never_changes m -> forall v, fst (xc m v) = m) ->
  good (NRef i) (on_object xc i) xc.
Proof.
  intros H0 Hn s v S. unfold on_object. cbn [copies]. change (nth i s (MSeq [])) with (object s i).
  destruct (xc (object s i) v) as [m' r] eqn:E. cbn [fst snd copies]. change (nth i ?l (MSeq [])) with (object l i).
  assert (K : object (set_nth s i m') i = m').
  { destruct (le_lt_dec (length s) i) as [L|L]; [|now apply object_set_same].
    rewrite set_nth_out by auto. unfold object in *. rewrite nth_overflow in * by auto. specialize (H0 v). rewrite E in H0. auto. }
  split; [now rewrite K|]. intros j Hj. cbn [occurrences] in *. destruct (Nat.eq_dec i j) as [<-|D].
  - rewrite K. specialize (Hn _ (Hj (or_introl eq_refl)) v). rewrite E in Hn. auto.
  - now apply object_set_other.
Qed.

End OneMethod.

Lemma never_step (m : md F) upd : never_changes m -> forall v, fst (xstep m v upd) = m.
Proof. intros H v. exact (H (CStep v upd)). Qed.
Lemma never_steps (m : md F) pe upd : never_changes m -> forall v, fst (xsteps m v pe upd) = m.
Proof. intros H v. exact (H (CSteps v pe upd)). Qed.

Lemma cond_only_a (a : sn F) (b : option (sn F)) s s' : only (occurrences a) s s' ->
  only (occurrences a ++ match b with Some b0 => occurrences b0 | None => [] end) s s'.
Proof. intros H. apply (only_weak _ _ _ _ H). intros; apply in_or_app; auto. Qed.

Lemma specF {A B} (P : B -> A -> Prop) (b : B) l : Forall (fun a => forall b, P b a) l -> Forall (P b) l.
Proof. intros H. eapply Forall_impl; [|exact H]. auto. Qed.
Lemma specF2 {A B C} (P : B -> C -> A -> Prop) (b : B) (c : C) l : Forall (fun a => forall b c, P b c a) l -> Forall (P b c) l.
Proof. intros H. eapply Forall_impl; [|exact H]. auto. Qed.

Theorem sstep_good n : forall upd, good n (sstep n upd) (fun m v => xstep m v upd).
Proof.
  induction n using sn_ind'; intros upd.
  - apply (ref_good (fun m v => xstep m v upd) i); [reflexivity|]. intros m Hm v. now apply never_step.
  - intros s v S. cbn [copies sstep xstep occurrences] in *.
    destruct (nseq_step_good (fun n => sstep n upd) (fun m v => xstep m v upd) ns
                (specF (fun upd n => good n (sstep n upd) (fun m v => xstep m v upd)) upd ns H) s v S) as [E O].
    rewrite E. split; auto.
  - intros s v S. cbn [copies sstep xstep occurrences] in *.
    destruct v as [| | |l]; try (split; [reflexivity|apply only_refl]).
    destruct (npar_good (fun n => sstep n upd) (fun m v => xstep m v upd) ns
                (specF (fun upd n => good n (sstep n upd) (fun m v => xstep m v upd)) upd ns H) s l S) as [E O].
    rewrite E. unfold xmap. cbn [fst snd]. split; auto.
  - intros s v S. cbn [copies sstep xstep occurrences] in *.
    destruct (nbr_good (fun n => sstep n upd) (fun m v => xstep m v upd) ns
                (specF (fun upd n => good n (sstep n upd) (fun m v => xstep m v upd)) upd ns H) s v S) as [E O].
    rewrite E. destruct (nbr_run _ ns s v) as [s' [vs|e]]; cbn [fst snd] in *; split; auto.
  - intros s v S. cbn [copies sstep xstep occurrences] in *. destruct (p v) eqn:Ep.
    + destruct (IHn upd s v (safe_l _ _ _ S)) as [E O]. rewrite E.
      destruct (sstep n upd s v) as [s' r]; cbn [fst snd] in *. split; [|now apply cond_only_a].
      f_equal. f_equal. destruct b as [b0|]; [|reflexivity]. cbn [option_map]. f_equal. symmetry. apply copies_ext.
      eapply only_other; eauto.
    + destruct b as [b0|]; [|split; [reflexivity|apply only_refl]]. cbn [option_map].
      destruct (H b0 eq_refl upd s v (safe_r _ _ _ S)) as [E O]. rewrite E.
      destruct (sstep b0 upd s v) as [s' r]; cbn [fst snd] in *.
      split; [|apply (only_weak _ _ _ _ O); intros; apply in_or_app; auto].
      f_equal. f_equal. symmetry. apply copies_ext. intros i Hi. apply O. intros Hb. eapply safe_both; eauto.
Qed.

Theorem ssteps_good n : forall pe upd, good n (ssteps n pe upd) (fun m v => xsteps m v pe upd).
Proof.
  induction n using sn_ind'; intros pe upd.
  - apply (ref_good (fun m v => xsteps m v pe upd) i); [reflexivity|]. intros m Hm v. now apply never_steps.
  - intros s v S. cbn [copies ssteps xsteps occurrences] in *.
    destruct (nseq_steps_good (fun n => ssteps n pe upd) (fun m v => xsteps m v pe upd) ns
                (specF2 (fun pe upd n => good n (ssteps n pe upd) (fun m v => xsteps m v pe upd)) pe upd ns H) s v S) as [E O].
    rewrite E. split; auto.
  - intros s v S. cbn [copies ssteps xsteps occurrences] in *.
    destruct v as [| | |l]; try (split; [reflexivity|apply only_refl]).
    destruct (npar_good (fun n => ssteps n pe upd) (fun m v => xsteps m v pe upd) ns
                (specF2 (fun pe upd n => good n (ssteps n pe upd) (fun m v => xsteps m v pe upd)) pe upd ns H) s l S) as [E O].
    rewrite E. unfold xmap. cbn [fst snd]. split; auto.
  - intros s v S. cbn [copies ssteps xsteps occurrences] in *.
    destruct (nbr_good (fun n => ssteps n pe upd) (fun m v => xsteps m v pe upd) ns
                (specF2 (fun pe upd n => good n (ssteps n pe upd) (fun m v => xsteps m v pe upd)) pe upd ns H) s v S) as [E O].
    rewrite E. destruct (nbr_run _ ns s v) as [s' [vs|e]]; cbn [fst snd] in *; split; auto.
  - intros s v S. cbn [copies ssteps xsteps occurrences] in *. destruct (p v) eqn:Ep.
    + destruct (IHn false true s v (safe_l _ _ _ S)) as [E O]. rewrite E.
      destruct (ssteps n false true s v) as [s' r]; cbn [fst snd] in *. split; [|now apply cond_only_a].
      f_equal. f_equal. destruct b as [b0|]; [|reflexivity]. cbn [option_map]. f_equal. symmetry. apply copies_ext.
      eapply only_other; eauto.
    + destruct b as [b0|]; [|split; [reflexivity|apply only_refl]]. cbn [option_map].
      destruct (H b0 eq_refl false true s v (safe_r _ _ _ S)) as [E O]. rewrite E.
      destruct (ssteps b0 false true s v) as [s' r]; cbn [fst snd] in *.
      split; [|apply (only_weak _ _ _ _ O); intros; apply in_or_app; auto].
      f_equal. f_equal. symmetry. apply copies_ext. intros i Hi. apply O. intros Hb. eapply safe_both; eauto.
Qed.

(* ------------------------------------------------------------------ *)
(** ** forward and the explicit state: sharing is never visible *)

Theorem sfwd_copies n : forall s v, sfwd n s v = fwd (copies s n) v.
Proof.
  induction n using sn_ind'; intros s v; cbn [sfwd copies fwd]; auto.
  - revert v. induction H as [|n t Hn Ht IH]; intros v; cbn; auto. rewrite Hn.
    destruct (fwd (copies s n) v); cbn; auto.
  - destruct v as [| | |l]; auto.
    assert (E : npar_fwd (fun n => sfwd n s) ns l = par_fwd fwd (map (copies s) ns) l).
    { revert l. induction H as [|n t Hn Ht IH]; intros [|x l]; cbn; auto. rewrite Hn.
      destruct (fwd (copies s n) x); cbn; auto. now rewrite IH. }
    now rewrite E.
  - assert (E : nbr_fwd (fun n => sfwd n s) ns v = br_fwd fwd (map (copies s) ns) v).
    { induction H as [|n t Hn Ht IH]; cbn; auto. rewrite Hn. destruct (fwd (copies s n) v); cbn; auto. now rewrite IH. }
    now rewrite E.
  - destruct (p v); auto. destruct b as [b0|]; cbn [option_map]; auto.
Qed.

Theorem sfstep_copies n : forall s v st, sfstep n s v st = fstep (copies s n) v st.
Proof.
  induction n using sn_ind'; intros s v st; cbn [sfstep copies fstep]; auto.
  - rewrite map_length. destruct (prev_list st (length ns)) as [pl|e]; cbn [bind]; auto.
    assert (E : forall v pl, nseq_fstep (fun n => sfstep n s) ns v pl = seq_fstep fstep (map (copies s) ns) v pl).
    { clear v pl. induction H as [|n t Hn Ht IH]; intros v pl; cbn; auto.
      destruct (nth_state pl) as [[q pt]|e]; cbn; auto. rewrite Hn.
      destruct (fstep (copies s n) v q) as [[v1 s1]|e]; cbn; auto. now rewrite IH. }
    now rewrite E.
  - destruct v as [| | |l]; auto. rewrite map_length. destruct (prev_list st (length ns)) as [pl|e]; cbn [bind]; auto.
    assert (E : forall l pl, npar_fstep (fun n => sfstep n s) ns l pl = par_fstep fstep (map (copies s) ns) l pl).
    { clear l pl. induction H as [|n t Hn Ht IH]; intros [|x l] pl; cbn; auto.
      destruct (nth_state pl) as [[q pt]|e]; cbn; auto. rewrite Hn.
      destruct (fstep (copies s n) x q) as [[v1 s1]|e]; cbn; auto. now rewrite IH. }
    now rewrite E.
  - rewrite map_length. destruct (prev_list st (length ns)) as [pl|e]; cbn [bind]; auto.
    assert (E : forall pl, nbr_fstep (fun n => sfstep n s) ns v pl = br_fstep fstep (map (copies s) ns) v pl).
    { clear pl. induction H as [|n t Hn Ht IH]; intros pl; cbn; auto.
      destruct (nth_state pl) as [[q pt]|e]; cbn; auto. rewrite Hn.
      destruct (fstep (copies s n) v q) as [[v1 s1]|e]; cbn; auto. now rewrite IH. }
    now rewrite E.
  - cbv zeta. destruct (p v).
    + match goal with |- bind ?x _ = _ => destruct x; cbn [bind]; auto end.
    + destruct b as [b0|]; cbn [option_map]; auto.
      match goal with |- bind ?x _ = _ => destruct x; cbn [bind]; auto end.
Qed.

Theorem srun_fsteps_copies n s vs : forall st, srun_fsteps n s st vs = run_fsteps (copies s n) st vs.
Proof.
  induction vs as [|v vs IH]; intros st; cbn; auto. rewrite sfstep_copies.
  destruct (fstep (copies s n) v st) as [[w s1]|e]; cbn; auto. now rewrite IH.
Qed.

(* ------------------------------------------------------------------ *)
(** ** clean_state and whole histories *)

Lemma clean_never (m : md F) : never_changes m -> clean m = m.
Proof. intros H. exact (H CClean). Qed.

Theorem sclean_good n : forall s, safe s (occurrences n) ->
  clean (copies s n) = copies (sclean n s) n /\ only (occurrences n) s (sclean n s).
Proof.
  assert (L : forall ns, Forall (fun n => forall s, safe s (occurrences n) ->
      clean (copies s n) = copies (sclean n s) n /\ only (occurrences n) s (sclean n s)) ns ->
    forall s, safe s (flat_map occurrences ns) ->
      let s' := (fix go (ns : list (sn F)) (s : list (md F)) := match ns with [] => s | n :: t => go t (sclean n s) end) ns s in
      map clean (map (copies s) ns) = map (copies s') ns /\ only (flat_map occurrences ns) s s').
  { induction ns as [|n1 t IH]; intros HF s S; cbn [flat_map map] in *; [split; [auto|apply only_refl]|].
    destruct (Forall_inv HF s (safe_l _ _ _ S)) as [E1 O1].
    destruct (IH (Forall_inv_tail HF) (sclean n1 s) (second _ _ _ _ S O1)) as [E2 O2].
    rewrite (map_copies_ext t s (sclean n1 s)) in E2 by (eapply only_other; eauto). rewrite E1, E2.
    split; [|eapply only_trans; eauto]. f_equal. symmetry. apply copies_ext. eapply only_first; eauto. }
  induction n using sn_ind'; intros s S; cbn [copies clean sclean occurrences] in *.
  - change (nth i ?l (MSeq [])) with (object l i).
    assert (K : object (set_nth s i (clean (object s i))) i = clean (object s i)).
    { destruct (le_lt_dec (length s) i) as [Lg|Lg]; [|now apply object_set_same].
      rewrite set_nth_out by auto. unfold object. now rewrite nth_overflow. }
    split; [now rewrite K|]. intros j Hj. destruct (Nat.eq_dec i j) as [<-|D].
    + rewrite K. apply clean_never, Hj. now left.
    + now apply object_set_other.
  - destruct (L ns H s S) as [E O]. split; [f_equal; exact E|exact O].
  - destruct (L ns H s S) as [E O]. split; [f_equal; exact E|exact O].
  - destruct (L ns H s S) as [E O]. split; [f_equal; exact E|exact O].
  - split; [reflexivity|apply only_refl].
Qed.

Theorem scall_good n s c : safe s (occurrences n) ->
  xcall (copies s n) c = (copies (fst (scall n s c)) n, snd (scall n s c)) /\ only (occurrences n) s (fst (scall n s c)).
Proof.
  intros S. destruct c as [v upd|v pe upd|v|]; cbn [xcall scall].
  - exact (sstep_good n upd s v S).
  - exact (ssteps_good n pe upd s v S).
  - cbn [fst snd]. rewrite sfwd_copies. split; [reflexivity|apply only_refl].
  - destruct (sclean_good n s S) as [E O]. cbn [fst snd]. rewrite E. auto.
Qed.

Lemma only_safe l s s' : safe s l -> only l s s' -> safe s' l.
Proof.
  intros S O i Hi. rewrite O; [now apply S|]. intros _. now apply S.
Qed.

Theorem srun_good n cs : forall s, safe s (occurrences n) ->
  xrun (copies s n) cs = (copies (fst (srun n s cs)) n, snd (srun n s cs)) /\
  (forall i, (In i (occurrences n) -> never_changes (object s i)) -> object (fst (srun n s cs)) i = object s i).
Proof.
  induction cs as [|c cs IH]; intros s S; cbn [xrun srun]; [split; auto|].
  destruct (scall_good n s c S) as [E O]. rewrite E. destruct (scall n s c) as [s1 r]. cbn [fst snd] in *.
  destruct (IH s1 (only_safe _ _ _ S O)) as [E2 O2]. rewrite E2. destruct (srun n s1 cs) as [s2 rs]. cbn [fst snd] in *.
  split; [reflexivity|]. intros i Hi. rewrite O2; [now apply O|]. intros Hin. rewrite (O i Hi). auto.
Qed.

(* ------------------------------------------------------------------ *)
(** ** Objects that may be shared *)

Lemma fold_Forall (P : md F -> Prop) ms : fold_right (fun m Q => P m /\ Q) True ms <-> Forall P ms.
Proof. induction ms; cbn; split; intros H; auto; [destruct H; constructor; tauto|inversion H; tauto]. Qed.

Theorem bufferless_never m : bufferless m -> never_changes m.
Proof.
  assert (H1 : bufferless m -> forall v upd, fst (xstep m v upd) = m).
  { induction m using md_ind'; intros B v upd; cbn [bufferless xstep] in *; try contradiction; try (destruct v; reflexivity);
      rewrite ?fold_Forall in B.
    - destruct B as [-> ->]. destruct v; reflexivity.
    - pose proof (xseq_step_same (fun m v => xstep m v upd) ms) as K.
      destruct (xseq_step _ ms v) as [ms' r] eqn:E. cbn. f_equal. change ms' with (fst (ms', r)). rewrite <- E. apply K.
      rewrite Forall_forall in *. intros x Hx w. apply H; auto.
    - destruct v as [| | |l]; try reflexivity. cbn. f_equal. apply xpar_same.
      rewrite Forall_forall in *. intros x Hx w. apply H; auto.
    - pose proof (xbr_same (fun m v => xstep m v upd) ms) as K.
      destruct (xbr_run _ ms v) as [ms' [vs|e]] eqn:E; cbn; f_equal; (etransitivity; [|apply (K ltac:(rewrite Forall_forall in *; intros x Hx w; apply H; auto) v)]); now rewrite E.
    - destruct B as [Ba Bb]. destruct (p v).
      + specialize (IHm Ba v upd). destruct (xstep m v upd); cbn in *; congruence.
      + destruct b as [b0|]; [|reflexivity]. specialize (H b0 eq_refl Bb v upd). destruct (xstep b0 v upd); cbn in *; congruence. }
  assert (H2 : bufferless m -> forall v pe upd, fst (xsteps m v pe upd) = m).
  { clear H1. induction m using md_ind'; intros B v pe upd; cbn [bufferless xsteps] in *; try contradiction; try (destruct v; reflexivity);
      rewrite ?fold_Forall in B.
    - destruct B as [-> ->]. destruct v; reflexivity.
    - pose proof (xseq_steps_same (fun m v => xsteps m v pe upd) ms) as K.
      destruct (xseq_steps _ ms v) as [ms' r] eqn:E. cbn. f_equal. change ms' with (fst (ms', r)). rewrite <- E. apply K.
      rewrite Forall_forall in *. intros x Hx w. apply H; auto.
    - destruct v as [| | |l]; try reflexivity. cbn. f_equal. apply xpar_same.
      rewrite Forall_forall in *. intros x Hx w. apply H; auto.
    - pose proof (xbr_same (fun m v => xsteps m v pe upd) ms) as K.
      destruct (xbr_run _ ms v) as [ms' [vs|e]] eqn:E; cbn; f_equal; (etransitivity; [|apply (K ltac:(rewrite Forall_forall in *; intros x Hx w; apply H; auto) v)]); now rewrite E.
    - destruct B as [Ba Bb]. destruct (p v).
      + specialize (IHm Ba v false true). destruct (xsteps m v false true); cbn in *; congruence.
      + destruct b as [b0|]; [|reflexivity]. specialize (H b0 eq_refl Bb v false true). destruct (xsteps b0 v false true); cbn in *; congruence. }
  intros B [v upd|v pe upd|v|]; cbn [xcall]; auto. cbn [fst]. clear H1 H2.
  assert (L : forall ms, Forall (fun m => bufferless m -> clean (F:=F) m = m) ms -> Forall bufferless ms -> map clean ms = ms).
  { intros ms H K. rewrite <- (map_id ms) at 2. apply map_ext_in. rewrite Forall_forall in *. auto. }
  induction m using md_ind'; cbn [bufferless clean] in *; try contradiction; auto; rewrite ?fold_Forall in B.
  - destruct B as [-> ->]. reflexivity.
  - f_equal. now apply L.
  - f_equal. now apply L.
  - f_equal. now apply L.
Qed.

(* ------------------------------------------------------------------ *)
(** ** Sharing that is visible *)

(** A Conditional with the same object in both branches is this object. *)
Theorem conditional_same_object p D R i s v :
  (forall upd, sstep (NCond p D R (NRef i) (Some (NRef i))) upd s v = sstep (NRef i) upd s v) /\
  ssteps (NCond p D R (NRef i) (Some (NRef i))) false true s v = ssteps (NRef i) false true s v /\
  sfwd (NCond p D R (NRef i) (Some (NRef i))) s v = sfwd (NRef i) s v.
Proof. cbn [sstep ssteps sfwd]. destruct (p v); auto. Qed.

(** Branches that are the same object: it is stepped twice with every frame. *)
Theorem branches_same_object r vs : forall (m : md F) ws m',
  run_steps m (twice vs) = Ok (ws, m') ->
  srun (NBR [NRef 0; NRef 0] r) [m] (map (fun v => CStep v true) vs)
  = ([m'], map (reduced r) (pairs ws)).
Proof.
  induction vs as [|v vs IH]; intros m ws m' E; cbn [twice run_steps map srun] in *.
  - injection E as <- <-. reflexivity.
  - destruct (step m v true) as [[w1 m1]|e] eqn:E1; cbn [bind] in E; [|discriminate].
    destruct (step m1 v true) as [[w2 m2]|e] eqn:E2; cbn [bind] in E; [|discriminate].
    destruct (run_steps m2 (twice vs)) as [[ws2 m3]|e] eqn:E3; cbn [bind] in E; [|discriminate].
    injection E as <- <-. cbn [scall sstep nbr_run]. unfold on_object, object. cbn [nth].
    assert (X1 : xstep m v true = (m1, Ok w1)) by (apply (xok m (CStep v true)); exact E1).
    assert (X2 : xstep m1 v true = (m2, Ok w2)) by (apply (xok m1 (CStep v true)); exact E2).
    rewrite X1. cbn [set_nth nth]. rewrite X2. cbn [set_nth]. rewrite (IH m2 ws2 m3 E3). reflexivity.
Qed.

(** A Delay that is followed by itself. *)
Notation dstep d f sh := (fun o x => delay_forward_step d f sh o x true).
Notation cstep := (fun x => CStep (VT x) true).

Lemma dstep_step d f sh o x y o' : delay_forward_step d f sh o x true = Ok (y, o') ->
  xstep (MDelay d f sh o) (VT x) true = (MDelay d f sh o', Ok (of_opt y)).
Proof.
  intros E. apply (xok (MDelay d f sh o) (CStep (VT x) true)). cbn [do_call step]. now rewrite E.
Qed.

(** As long as the first module returns None nothing else is called. *)
Lemma seq_silent d f sh k xs : forall o os o',
  feed (dstep d f sh) o xs = Ok (os, o') -> os = repeat None (length xs) ->
  forall s, srun (NSeq [NRef 0; k]) (MDelay d f sh o :: s) (map cstep xs)
  = (MDelay d f sh o' :: s, repeat (Ok VNone) (length xs)).
Proof.
  induction xs as [|x xs IH]; intros o os o' E N s; cbn [feed map srun length repeat] in *.
  - injection E as <- <-. reflexivity.
  - destruct (delay_forward_step d f sh o x true) as [[y o1]|e] eqn:E1; cbn [bind] in E; [|discriminate].
    destruct (feed (dstep d f sh) o1 xs) as [[ys o2]|e] eqn:E2; cbn [bind] in E; [|discriminate].
    injection E as <- <-. injection N as -> N. cbn [scall sstep nseq_step]. unfold on_object, object. cbn [nth].
    rewrite (dstep_step _ _ _ _ _ _ _ E1). cbn [of_opt is_none set_nth]. now rewrite (IH o1 ys o2 E2 N s).
Qed.

Lemma srun_app n cs : forall (s : list (md F)) cs', srun n s (cs ++ cs') =
  let '(s1, rs) := srun n s cs in let '(s2, rs') := srun n s1 cs' in (s2, rs ++ rs').
Proof.
  induction cs as [|c cs IH]; intros s cs'; cbn [app srun].
  - now destruct (srun n s cs').
  - destruct (scall n s c) as [s1 r]. rewrite IH. destruct (srun n s1 cs) as [s2 rs]. now destruct (srun n s2 cs').
Qed.

Lemma fifo_split d f sh (xs : list F) x y : sh <> ShTrue -> 1 <= d -> length xs = d ->
  exists o o1 o2,
    feed (dstep d f sh) obj_init xs = Ok (repeat None d, o) /\
    delay_forward_step d f sh o x true = Ok (nth_error (xs ++ [x]) 0, o1) /\
    delay_forward_step d f sh o1 y true = Ok (nth_error (xs ++ [x]) 1, o2).
Proof.
  intros Hsh Hd Hl. destruct (delay_fifo_thm d f sh (xs ++ [x; y]) Hsh) as [o2 E].
  rewrite feed_app in E. destruct (feed (dstep d f sh) obj_init xs) as [[os o]|e] eqn:E1; cbn [bind fst snd] in E; [|congruence].
  pose proof (feed_length _ _ _ _ _ E1) as Lo. cbn [feed] in E.
  destruct (delay_forward_step d f sh o x true) as [[a o1]|e] eqn:E2; cbn [bind fst snd] in E; [|congruence].
  destruct (delay_forward_step d f sh o1 y true) as [[b o3]|e] eqn:E3; cbn [bind fst snd] in E; [|congruence].
  injection E as E _. rewrite app_length in E. cbn [length] in E. rewrite seq_app, map_app in E. cbn [plus seq map] in E.
  change [a; b] with ([a] ++ [b]) in E.
  match type of E with _ = _ ++ [?p; ?q] => change [p; q] with ([p] ++ [q]) in E end.
  rewrite !app_assoc in E. apply app_inj_tail in E as [E Eb]. apply app_inj_tail in E as [E Ea].
  rewrite Hl in *. exists o, o1, o3. split; [|split].
  - rewrite E. f_equal. f_equal. rewrite (map_ext_in _ (fun _ => None)).
    + clear. generalize 0. induction d; intros k; cbn; f_equal; auto.
    + intros j Hj. apply in_seq in Hj. now rewrite (proj2 (Nat.ltb_lt j d)) by lia.
  - rewrite E2. f_equal. f_equal. rewrite Ea. rewrite Nat.ltb_irrefl, Nat.sub_diag.
    destruct xs; [cbn in Hl; lia|reflexivity].
  - rewrite E3. f_equal. f_equal. rewrite Eb. rewrite (proj2 (Nat.ltb_ge (S d) d)) by lia.
    replace (S d - d) with 1 by lia. destruct xs as [|p [|q xs]]; [cbn in Hl; lia|reflexivity|reflexivity].
Qed.

Theorem delay_twice d f sh (xs : list F) x : sh <> ShTrue -> 1 <= d -> length xs = d ->
  snd (srun (NSeq [NRef 0; NRef 0]) [MDelay d f sh obj_init] (map cstep (xs ++ [x])))
  = repeat (Ok VNone) d ++ [Ok (of_opt (nth_error (xs ++ [x]) 1))] /\
  snd (xrun (MSeq [MDelay d f sh obj_init; MDelay d f sh obj_init]) (map cstep (xs ++ [x])))
  = repeat (Ok VNone) (d + 1).
Proof.
  intros Hsh Hd Hl.
  destruct (fifo_split d f sh xs x (nth 0 xs x) Hsh Hd Hl) as (o & o1 & o2 & E & E1 & E2).
  assert (Hz : nth_error (xs ++ [x]) 0 = Some (nth 0 xs x)) by (destruct xs; [cbn in Hl; lia|reflexivity]).
  rewrite Hz in E1. rewrite map_app. cbn [map]. split.
  - rewrite srun_app. rewrite (seq_silent d f sh (NRef 0) xs obj_init _ o E) by now rewrite Hl.
    cbn [srun scall sstep nseq_step]. unfold on_object, object. cbn [nth].
    rewrite (dstep_step _ _ _ _ _ _ _ E1). cbn [of_opt is_none set_nth nth].
    rewrite (dstep_step _ _ _ _ _ _ _ E2). cbn [set_nth]. rewrite Hl. cbn [snd]. f_equal.
    destruct (nth_error (xs ++ [x]) 1); reflexivity.
  - set (D := MDelay d f sh obj_init).
    assert (HS : safe [D; D] (occurrences (NSeq [NRef 0; @NRef F 1]))).
    { intros [|[|i]]; cbn; lia. }
    destruct (srun_good (NSeq [NRef 0; NRef 1]) (map cstep xs ++ [cstep x]) [D; D] HS) as [K _].
    cbn [copies map nth] in K. rewrite K. cbn [snd]. rewrite srun_app. unfold D.
    rewrite (seq_silent d f sh (NRef 1) xs obj_init _ o E) by now rewrite Hl.
    cbn [srun scall sstep nseq_step]. unfold on_object, object. cbn [nth].
    rewrite (dstep_step _ _ _ _ _ _ _ E1). cbn [of_opt is_none set_nth nth].
    destruct (fifo_split d f sh (repeat (nth 0 xs x) d) x x Hsh Hd (repeat_length _ _)) as (q & q1 & q2 & Q & _ & _).
    destruct d as [|d]; [lia|]. cbn [repeat feed] in Q.
    destruct (delay_forward_step (S d) f sh obj_init (nth 0 xs x) true) as [[a p]|e] eqn:Eq; cbn [bind fst snd] in Q; [|congruence].
    destruct (feed _ p _) as [[as_ p2]|e]; cbn [bind fst snd] in Q; [|congruence]. injection Q as -> _ _.
    rewrite (dstep_step _ _ _ _ _ _ _ Eq). cbn [of_opt is_none snd]. rewrite Hl, repeat_app. reflexivity.
Qed.

End ShareProof.
