(** Network-wide refinement: the heap model against [Net.v]. *)
From Coq Require Import List ZArith Bool Arith Lia.
From Verif Require Import Base Frames CoMod Leaf Rnn Net Calls Heap HeapSpec HeapProof.
Import ListNotations.

Section HeapNet.
Context {F : Type} {FA : Frames F} {FL : FrameLaws F}.
Implicit Types h : heap F.

Lemma hmd_ind' (P : hmd F -> Prop) :
  (forall d f sh o, P (HDelay d f sh o)) ->
  (forall n o, P (HSkip n o)) ->
  (forall c tr o, P (HConv c tr o)) ->
  (forall c o, P (HPool c o)) ->
  (forall g, P (HMap g)) ->
  (forall c o, P (HRnn c o)) ->
  (forall ms, Forall P ms -> P (HSeq ms)) ->
  (forall n, P (HBroadcast n)) ->
  (forall ms, Forall P ms -> P (HPar ms)) ->
  (forall d, P (HDispatch d)) ->
  (forall r, P (HReduce r)) ->
  (forall ms r, Forall P ms -> P (HBR ms r)) ->
  (forall p D R a b, P a -> (forall b0, b = Some b0 -> P b0) -> P (HCond p D R a b)) ->
  forall m, P m.
Proof.
  intros H1 H2 H3 H4 H5 H6 H7 H8 H9 H10 H11 H12 H13.
  fix IH 1. intros m.
  assert (L : forall ms : list (hmd F), Forall P ms).
  { fix L 1. intros [|a t]; constructor; [apply IH|apply L]. }
  destruct m; [apply H1|apply H2|apply H3|apply H4|apply H5|apply H6|apply H7, L|apply H8
    |apply H9, L|apply H10|apply H11|apply H12, L|].
  apply H13; [apply IH|]. destruct b as [b1|]; [|discriminate].
  pose proof (IH b1) as P1. intros b0 E. injection E as <-. exact P1.
Qed.

(* ------------------------------------------------------------------ *)
(** ** Reference lists *)

Definition rset (R : list (nat * kind)) : nat -> Prop := fun r => In r (map fst R).
Definition sepR h (R : list (nat * kind)) : Prop :=
  NoDup (map fst R) /\
  forall r k, In (r, k) R -> exists c, nth_error h r = Some c /\ kind_of c = k.

Lemma sepR_lt h R r : sepR h R -> rset R r -> r < length h.
Proof.
  intros [_ W] I. apply in_map_iff in I. destruct I as [[r' k] [E I]]. simpl in E; subst r'.
  destruct (W _ _ I) as [c [N _]]. eapply nth_error_lt; eauto.
Qed.

Lemma sepR_app h R1 R2 : sepR h (R1 ++ R2) <->
  sepR h R1 /\ sepR h R2 /\ (forall r, rset R1 r -> rset R2 r -> False).
Proof.
  unfold sepR, rset. rewrite map_app. split.
  - intros [N W]. assert (N' := N).
    assert (D : forall r, In r (map fst R1) -> In r (map fst R2) -> False).
    { clear W N'. revert N. generalize (map fst R1) (map fst R2). intros l1 l2.
      induction l1; simpl; intros N r; [tauto|]. inversion N; subst.
      intros [->|I] I2; [apply H1, in_or_app; auto|eauto]. }
    conjs; auto.
    + revert N'. generalize (map fst R1) (map fst R2). intros l1 l2.
      induction l1; simpl; intros N'; constructor; inversion N'; subst; auto.
      intro I. apply H1, in_or_app; auto.
    + intros. apply W, in_or_app; auto.
    + revert N'. generalize (map fst R1) (map fst R2). intros l1 l2.
      induction l1; simpl; intros N'; auto. inversion N'; subst; auto.
    + intros. apply W, in_or_app; auto.
  - intros [[N1 W1] [[N2 W2] D]]. split.
    + revert N1 D. generalize (map fst R1) (map fst R2) N2. intros l1 l2 N2'.
      induction l1; simpl; intros N1 D; auto. inversion N1; subst. constructor.
      * intros I. apply in_app_or in I. destruct I; [tauto|]. apply (D a); auto.
      * apply IHl1; auto. intros r I1 I2. apply (D r); auto.
    + intros r k I. apply in_app_or in I. destruct I; auto.
Qed.

Definition agree h h' (R : list (nat * kind)) : Prop :=
  forall r, rset R r -> nth_error h' r = nth_error h r.

Lemma agree_sep h h' R : sepR h R -> agree h h' R -> sepR h' R.
Proof.
  intros [N W] A. split; auto. intros r k I. rewrite (A r); auto.
  unfold rset. change r with (fst (r, k)). apply in_map; auto.
Qed.

Lemma touch_agree T h h' R : sepR h R -> touch T h h' -> (forall r, rset R r -> ~ T r) -> agree h h' R.
Proof.
  intros [_ W] [_ T2] D r I. pose proof (D r I) as Nr.
  apply in_map_iff in I. destruct I as [[r' k] [E I]]. simpl in E; subst r'.
  destruct (W _ _ I) as [c [N _]]. rewrite N. apply T2; auto.
Qed.

(** From references [R] in [h] to references [R'] in [h']. *)
Definition moved (R R' : list (nat * kind)) h h' : Prop :=
  sepR h' R' /\ (forall r, rset R' r -> rset R r \/ length h <= r) /\ touch (rset R) h h'.

Lemma moved_refl R h : sepR h R -> moved R R h h.
Proof. intros. unfold moved. auto. Qed.

Lemma moved_rest R1 R2 R1' h h1 : sepR h (R1 ++ R2) -> moved R1 R1' h h1 -> agree h h1 R2.
Proof.
  intros S [_ [_ T]]. apply sepR_app in S. destruct S as [S1 [S2 D]].
  eapply touch_agree; eauto.
Qed.

Lemma moved_first R1 R2 R1' R2' h h1 h2 : sepR h (R1 ++ R2) ->
  moved R1 R1' h h1 -> moved R2 R2' h1 h2 -> agree h1 h2 R1'.
Proof.
  intros S M1 M2. pose proof (moved_rest _ _ _ _ _ S M1) as A.
  apply sepR_app in S. destruct S as [S1 [S2 D]].
  destruct M1 as [S1' [F1 T1]]. destruct M2 as [_ [_ T2]].
  eapply touch_agree; eauto. intros r I1 I2.
  destruct (F1 r I1) as [I|L]; [eauto|].
  pose proof (sepR_lt _ _ _ S2 I2). lia.
Qed.

Lemma moved_app R1 R2 R1' R2' h h1 h2 : sepR h (R1 ++ R2) ->
  moved R1 R1' h h1 -> moved R2 R2' h1 h2 -> moved (R1 ++ R2) (R1' ++ R2') h h2.
Proof.
  intros S M1 M2. pose proof (moved_first _ _ _ _ _ _ _ S M1 M2) as A1.
  pose proof (moved_rest _ _ _ _ _ S M1) as A.
  apply sepR_app in S. destruct S as [S1 [S2 D]].
  destruct M1 as [S1' [F1 T1]]. destruct M2 as [S2' [F2 T2]].
  unfold moved. conjs.
  - apply sepR_app. conjs; auto.
    + eapply agree_sep; eauto.
    + intros r I1 I2. pose proof (sepR_lt _ _ _ S1' I1) as L1.
      destruct (F2 r I2) as [I|L]; [|lia].
      destruct (F1 r I1) as [J|L]; [eauto|].
      pose proof (sepR_lt _ _ _ S2 I). lia.
  - unfold rset in *. rewrite !map_app. intros r I. apply in_app_or in I. destruct I as [I|I].
    + destruct (F1 r I); auto. left. apply in_or_app; auto.
    + destruct (F2 r I) as [J|L]; [left; apply in_or_app; auto|right].
      destruct T1; lia.
  - eapply touch_trans.
    + eapply touch_weak; [|exact T1]. unfold rset. intros r I. rewrite map_app. apply in_or_app; auto.
    + exact T2.
    + unfold rset. intros r _ I. rewrite map_app. apply in_or_app; auto.
Qed.

(* ------------------------------------------------------------------ *)
(** ** Views *)

Lemma view_agree m : forall h h', agree h h' (refs m) -> view h' m = view h m.
Proof.
  assert (O : forall B (BF : Buf F B) (h h' : heap F) o k, agree h h' [(h_ref o, k)] ->
    obj_of (B := B) h' o = obj_of h o).
  { intros B BF h h' o k A. unfold obj_of, buf_of, hread. rewrite (A (h_ref o)); [reflexivity|].
    left; reflexivity. }
  assert (L : forall ms : list (hmd F), Forall (fun m => forall h h', agree h h' (refs m) -> view h' m = view h m) ms ->
    forall h h', agree h h' (flat_map refs ms) -> map (view h') ms = map (view h) ms).
  { induction 1 as [|a t Hm Ht IH]; intros h h' A; simpl; auto. f_equal.
    - apply Hm. intros r I. apply A. unfold rset in *. simpl. rewrite map_app. apply in_or_app; auto.
    - apply IH. intros r I. apply A. unfold rset in *. simpl. rewrite map_app. apply in_or_app; auto. }
  induction m using hmd_ind'; intros h h' A; cbn [view refs] in *; auto;
    try (f_equal; eauto; fail).
  f_equal.
  - apply IHm. intros r I. apply A. unfold rset in *. rewrite map_app. apply in_or_app; auto.
  - destruct b as [b0|]; simpl; auto. f_equal. apply H; auto.
    intros r I. apply A. unfold rset in *. rewrite map_app. apply in_or_app; auto.
Qed.

Lemma views_agree ms h h' : agree h h' (flat_map refs ms) -> map (view h') ms = map (view h) ms.
Proof.
  revert h h'. induction ms as [|m t IH]; intros h h' A; simpl; auto. f_equal.
  - apply view_agree. intros r I. apply A. unfold rset in *. simpl. rewrite map_app. apply in_or_app; auto.
  - apply IH. intros r I. apply A. unfold rset in *. simpl. rewrite map_app. apply in_or_app; auto.
Qed.

Lemma separate_sepR h m : separate h m = sepR h (refs m).
Proof. reflexivity. Qed.

(* ------------------------------------------------------------------ *)
(** ** Refinement of calls *)

Definition net_ok {A V X : Type} (refs_of : X -> list (nat * kind)) (view_of : heap F -> X -> V)
    h (x : X) (rv : res (A * V)) (r : res (A * X * heap F)) : Prop :=
  match rv, r with
  | Err e, Err e' => e = e'
  | Ok (w, v'), Ok (w', x', h') =>
      w = w' /\ v' = view_of h' x' /\ moved (refs_of x) (refs_of x') h h'
  | _, _ => False
  end.

Definition one_ok {A} := net_ok (A := A) refs view.
Definition all_ok {A} := net_ok (A := A) (flat_map refs) (fun h => map (view h)).

(** Children: a call that refines on every child. *)
Section Children.
Variable vcall : md F -> val F -> res (val F * md F).
Variable hcall : hmd F -> val F -> heap F -> res (val F * hmd F * heap F).
Definition child_ok (m : hmd F) : Prop :=
  forall v h, separate h m -> one_ok h m (vcall (view h m) v) (hcall m v h).

Ltac first_child H v h S :=
  let K := fresh "K" in
  pose proof (H v h S) as K; unfold one_ok, net_ok in K.

Lemma hseq_step_ok ms : Forall child_ok ms -> forall v h, sepR h (flat_map refs ms) ->
  all_ok h ms (seq_step vcall (map (view h) ms) v) (hseq_step hcall ms v h).
Proof.
  induction 1 as [|m t Hm Ht IH]; intros v h S.
  - simpl. split; auto. split; auto. apply moved_refl; auto.
  - cbn [flat_map] in S. pose proof S as S0. apply sepR_app in S0. destruct S0 as [S1 [S2 D]].
    cbn [map seq_step hseq_step]. first_child Hm v h S1.
    destruct (vcall (view h m) v) as [[w mv]|e]; destruct (hcall m v h) as [[[w' m1] h1]|e'];
      simpl; try tauto.
    destruct K as [-> [-> M1]]. pose proof (moved_rest _ _ _ _ _ S M1) as A.
    destruct (is_none w').
    + split; auto. split; [cbn [map]; f_equal; symmetry; apply views_agree; auto|].
      cbn [flat_map]. eapply moved_app; eauto. apply moved_refl. eapply agree_sep; eauto.
    + rewrite <- (views_agree t h h1 A).
      specialize (IH w' h1 (agree_sep _ _ _ S2 A)). unfold all_ok, net_ok in IH.
      destruct (seq_step vcall (map (view h1) t) w') as [[w2 tv]|e];
        destruct (hseq_step hcall t w' h1) as [[[w2' t2] h2]|e']; simpl; try tauto.
      destruct IH as [-> [-> M2]]. split; auto. split.
      * cbn [map]. f_equal. symmetry. apply view_agree. eapply moved_first; eauto.
      * eapply moved_app; eauto.
Qed.

Lemma hseq_steps_ok ms : Forall child_ok ms -> forall v h, sepR h (flat_map refs ms) ->
  all_ok h ms (seq_steps vcall (map (view h) ms) v) (hseq_steps hcall ms v h).
Proof.
  induction 1 as [|m t Hm Ht IH]; intros v h S.
  - simpl. split; auto. split; auto. apply moved_refl; auto.
  - cbn [map seq_steps hseq_steps]. destruct (stops v).
    { split; auto. split; auto. apply moved_refl; auto. }
    cbn [flat_map] in S. pose proof S as S0. apply sepR_app in S0. destruct S0 as [S1 [S2 D]].
    first_child Hm v h S1.
    destruct (vcall (view h m) v) as [[w mv]|e]; destruct (hcall m v h) as [[[w' m1] h1]|e'];
      simpl; try tauto.
    destruct K as [-> [-> M1]]. pose proof (moved_rest _ _ _ _ _ S M1) as A.
    rewrite <- (views_agree t h h1 A).
    specialize (IH w' h1 (agree_sep _ _ _ S2 A)). unfold all_ok, net_ok in IH.
    destruct (seq_steps vcall (map (view h1) t) w') as [[w2 tv]|e];
      destruct (hseq_steps hcall t w' h1) as [[[w2' t2] h2]|e']; simpl; try tauto.
    destruct IH as [-> [-> M2]]. split; auto. split.
    + cbn [map]. f_equal. symmetry. apply view_agree. eapply moved_first; eauto.
    + eapply moved_app; eauto.
Qed.

Lemma hpar_run_ok ms : Forall child_ok ms -> forall l h, sepR h (flat_map refs ms) ->
  all_ok h ms (par_run vcall (map (view h) ms) l) (hpar_run hcall ms l h).
Proof.
  induction 1 as [|m t Hm Ht IH]; intros l h S.
  - simpl. split; auto. split; auto. apply moved_refl; auto.
  - cbn [map par_run hpar_run]. destruct l as [|v l]; [reflexivity|].
    cbn [flat_map] in S. pose proof S as S0. apply sepR_app in S0. destruct S0 as [S1 [S2 D]].
    first_child Hm v h S1.
    destruct (vcall (view h m) v) as [[w mv]|e]; destruct (hcall m v h) as [[[w' m1] h1]|e'];
      simpl; try tauto.
    destruct K as [-> [-> M1]]. pose proof (moved_rest _ _ _ _ _ S M1) as A.
    rewrite <- (views_agree t h h1 A).
    specialize (IH l h1 (agree_sep _ _ _ S2 A)). unfold all_ok, net_ok in IH.
    destruct (par_run vcall (map (view h1) t) l) as [[w2 tv]|e];
      destruct (hpar_run hcall t l h1) as [[[w2' t2] h2]|e']; simpl; try tauto.
    destruct IH as [-> [-> M2]]. split; auto. split.
    + cbn [map]. f_equal. symmetry. apply view_agree. eapply moved_first; eauto.
    + eapply moved_app; eauto.
Qed.

Lemma hbr_run_ok ms : Forall child_ok ms -> forall v h, sepR h (flat_map refs ms) ->
  all_ok h ms (br_run vcall (map (view h) ms) v) (hbr_run hcall ms v h).
Proof.
  induction 1 as [|m t Hm Ht IH]; intros v h S.
  - simpl. split; auto. split; auto. apply moved_refl; auto.
  - cbn [map br_run hbr_run].
    cbn [flat_map] in S. pose proof S as S0. apply sepR_app in S0. destruct S0 as [S1 [S2 D]].
    first_child Hm v h S1.
    destruct (vcall (view h m) v) as [[w mv]|e]; destruct (hcall m v h) as [[[w' m1] h1]|e'];
      simpl; try tauto.
    destruct K as [-> [-> M1]]. pose proof (moved_rest _ _ _ _ _ S M1) as A.
    rewrite <- (views_agree t h h1 A).
    specialize (IH v h1 (agree_sep _ _ _ S2 A)). unfold all_ok, net_ok in IH.
    destruct (br_run vcall (map (view h1) t) v) as [[w2 tv]|e];
      destruct (hbr_run hcall t v h1) as [[[w2' t2] h2]|e']; simpl; try tauto.
    destruct IH as [-> [-> M2]]. split; auto. split.
    + cbn [map]. f_equal. symmetry. apply view_agree. eapply moved_first; eauto.
    + eapply moved_app; eauto.
Qed.

End Children.

(** A leaf method that satisfies the contract. *)
Lemma valid_sep (B : Type) (BF : Buf F B) (BO : BufOk F B) h o k :
  (forall c, kind_of c = k <-> exists l : list B, c = wrap l) ->
  sepR h [(h_ref o, k)] <-> valid (B := B) h o.
Proof.
  intros Hk. split.
  - intros [_ W]. destruct (W _ _ (or_introl eq_refl)) as [c [N K]]. apply Hk in K.
    destruct K as [l ->]. exists l. exact N.
  - intros [l N]. split; [constructor; [simpl; tauto|constructor]|].
    intros r k' [E|[]]. inversion E; subst. exists (wrap l). split; auto. apply Hk. eauto.
Qed.

Lemma kind_frames (c : cell F) : kind_of c = KFrames <-> exists l : list F, c = wrap l.
Proof. destruct c; simpl; split; intros H; try discriminate; eauto; destruct H as [? H]; discriminate. Qed.
Lemma kind_rows (c : cell F) : kind_of c = KRows <-> exists l : list (list F), c = wrap l.
Proof. destruct c; simpl; split; intros H; try discriminate; eauto; destruct H as [? H]; discriminate. Qed.

Lemma leaf_moved (B : Type) (BF : Buf F B) (BO : BufOk F B) ip h o upd k A (rv : res (A * obj B)) r :
  (forall c, kind_of c = k <-> exists l : list B, c = wrap l) ->
  method_ok ip h o upd rv r ->
  match rv, r with
  | Err e, Err e' => e = e'
  | Ok (w, v'), Ok (w', o', h') =>
      w = w' /\ v' = obj_of h' o' /\ moved [(h_ref o, k)] [(h_ref o', k)] h h'
  | _, _ => False
  end.
Proof.
  intros Hk. unfold method_ok.
  destruct rv as [[w v]|e]; destruct r as [[[w' o'] h']|e']; try tauto.
  intros [-> [V [O [R [T U]]]]]. conjs; auto. unfold moved. conjs.
  - apply (valid_sep B BF BO); auto.
  - intros r [E|[]]. simpl in E. subst r. destruct R as [R|R]; [left; left; auto|right; auto].
  - eapply touch_weak; [|exact T]. intros r [_ [_ ->]]. left; reflexivity.
Qed.

Ltac leaf H :=
  match type of H with
  | match ?a with _ => _ end =>
      destruct a as [[? ?]|?];
      match type of H with
      | match ?b with _ => _ end => destruct b as [[[? ?] ?]|?]
      end
  end; simpl; try tauto;
  let E := fresh in destruct H as [<- [E H]]; split; [reflexivity|split; [cbn [view]; f_equal; exact E|exact H]].

Theorem hstep_ok m : forall upd v h, separate h m ->
  one_ok h m (step (view h m) v upd) (hstep m v upd h).
Proof.
  induction m using hmd_ind'; intros upd v h S; rewrite separate_sepR in S;
    cbn [view step hstep]; cbn [refs] in S.
  - destruct v as [|x|xs|l]; try reflexivity. unfold delay_forward_step, hdelay_forward_step.
    destruct (Nat.eqb d 0).
    { simpl. split; auto. split; auto. apply moved_refl; auto. }
    apply (valid_sep _ _ _ _ _ _ kind_frames) in S.
    pose proof (leaf_moved _ _ _ _ _ _ _ _ _ _ _ kind_frames
                  (forward_step_ok _ _ _ (delay_step_ok d f sh) h o x upd S)) as H.
    leaf H.
  - destruct v as [|x|xs|l]; try reflexivity.
    destruct (skip_forward_step n o x upd) as [[y o']|e]; simpl; auto.
    split; auto. split; auto. apply moved_refl; auto.
  - destruct v as [|x|xs|l]; try reflexivity. unfold conv_forward_step, hconv_forward_step.
    apply (valid_sep _ _ _ _ _ _ kind_rows) in S.
    pose proof (leaf_moved _ _ _ _ _ _ _ _ _ _ _ kind_rows
                  (forward_step_ok _ _ _ (conv_step_ok c tr) h o x upd S)) as H.
    leaf H.
  - destruct v as [|x|xs|l]; try reflexivity. unfold pool_forward_step, hpool_forward_step.
    apply (valid_sep _ _ _ _ _ _ kind_frames) in S.
    pose proof (leaf_moved _ _ _ _ _ _ _ _ _ _ _ kind_frames
                  (forward_step_ok _ _ _ (pool_step_ok c) h o x upd S)) as H.
    leaf H.
  - destruct v; try reflexivity. simpl. split; auto. split; auto. apply moved_refl; auto.
  - destruct v as [|x|xs|l]; try reflexivity.
    destruct (rnn_forward_step c o x upd) as [[y o']|e]; simpl; auto.
    split; auto. split; auto. apply moved_refl; auto.
  - assert (K := hseq_step_ok (fun m v => step m v upd) (fun m v h => hstep m v upd h) ms).
    assert (C : Forall (child_ok (fun m v => step m v upd) (fun m v h => hstep m v upd h)) ms)
      by (eapply Forall_impl; [|exact H]; intros a Ha v0 h0; apply Ha).
    specialize (K C v h S).
    unfold all_ok, net_ok in K.
    destruct (seq_step _ _ _) as [[w mv]|e]; destruct (hseq_step _ _ _ _) as [[[w' m1] h1]|e']; simpl; try tauto.
    destruct K as [-> [-> M]]. split; auto.
  - destruct (broadcast_val n v); simpl; auto. split; auto. split; auto. apply moved_refl; auto.
  - destruct v as [|x|xs|l]; try reflexivity.
    assert (K := hpar_run_ok (fun m v => step m v upd) (fun m v h => hstep m v upd h) ms).
    assert (C : Forall (child_ok (fun m v => step m v upd) (fun m v h => hstep m v upd h)) ms)
      by (eapply Forall_impl; [|exact H]; intros a Ha v0 h0; apply Ha).
    specialize (K C l h S).
    unfold all_ok, net_ok in K.
    destruct (par_run _ _ _) as [[w mv]|e]; destruct (hpar_run _ _ _ _) as [[[w' m1] h1]|e']; simpl; try tauto.
    destruct K as [-> [-> M]]. split; auto.
  - destruct (dispatch_val d v); simpl; auto. split; auto. split; auto. apply moved_refl; auto.
  - destruct (reduce_step r v); simpl; auto. split; auto. split; auto. apply moved_refl; auto.
  - assert (K := hbr_run_ok (fun m v => step m v upd) (fun m v h => hstep m v upd h) ms).
    assert (C : Forall (child_ok (fun m v => step m v upd) (fun m v h => hstep m v upd h)) ms)
      by (eapply Forall_impl; [|exact H]; intros a Ha v0 h0; apply Ha).
    specialize (K C v h S).
    unfold all_ok, net_ok in K.
    destruct (br_run _ _ _) as [[w mv]|e]; destruct (hbr_run _ _ _ _) as [[[w' m1] h1]|e']; simpl; try tauto.
    destruct K as [-> [-> M]].
    destruct (if forallb is_tensor w' then reduce_vals r w' else Ok VNone); simpl; auto.
  - pose proof S as S0. apply sepR_app in S0. destruct S0 as [S1 [S2 D']].
    destruct (p v).
    + specialize (IHm upd v h S1). unfold one_ok, net_ok in IHm.
      destruct (step (view h m) v upd) as [[w mv]|e]; destruct (hstep m v upd h) as [[[w' m1] h1]|e'];
        simpl; try tauto.
      destruct IHm as [-> [-> M]]. pose proof (moved_rest _ _ _ _ _ S M) as A.
      split; auto. split.
      * cbn [view]. f_equal. destruct b as [b0|]; simpl; auto. f_equal. symmetry. apply view_agree; auto.
      * cbn [refs]. eapply moved_app; eauto. apply moved_refl. eapply agree_sep; eauto.
    + destruct b as [b0|]; simpl.
      2:{ split; auto. split; auto. apply moved_refl; auto. }
      specialize (H b0 eq_refl upd v h S2). unfold one_ok, net_ok in H.
      destruct (step (view h b0) v upd) as [[w mv]|e]; destruct (hstep b0 v upd h) as [[[w' m1] h1]|e'];
        simpl; try tauto.
      destruct H as [-> [-> M]]. split; auto. split.
      * cbn [view option_map]. f_equal. symmetry. apply view_agree.
        eapply moved_first; [exact S|apply moved_refl; auto|exact M].
      * cbn [refs]. eapply moved_app; [exact S|apply moved_refl; auto|exact M].
Qed.

Theorem hsteps_ok m : forall pe upd v h, separate h m ->
  one_ok h m (steps (view h m) v pe upd) (hsteps m v pe upd h).
Proof.
  induction m using hmd_ind'; intros pe upd v h S; rewrite separate_sepR in S;
    cbn [view steps hsteps]; cbn [refs] in S.
  - destruct v as [|x|xs|l]; try reflexivity. unfold delay_forward_steps, hdelay_forward_steps.
    destruct (Nat.eqb d 0).
    { simpl. split; auto. split; auto. apply moved_refl; auto. }
    apply (valid_sep _ _ _ _ _ _ kind_frames) in S.
    pose proof (leaf_moved _ _ _ _ _ _ _ _ _ _ _ kind_frames
                  (forward_steps_ok _ _ _ (delay_step_ok d f sh) (make_padding f) d h o xs pe upd S)) as H.
    leaf H.
  - destruct v as [|x|xs|l]; try reflexivity.
    destruct (skip_forward_steps n o xs pe upd) as [[y o']|e]; simpl; auto.
    split; auto. split; auto. apply moved_refl; auto.
  - destruct v as [|x|xs|l]; try reflexivity. unfold conv_forward_steps, hconv_forward_steps.
    apply (valid_sep _ _ _ _ _ _ kind_rows) in S.
    pose proof (leaf_moved _ _ _ _ _ _ _ _ _ _ _ kind_rows
                  (forward_steps_ok _ _ _ (conv_step_ok c tr) (make_padding (cfill c)) (cp c) h o xs pe upd S)) as H.
    leaf H.
  - destruct v as [|x|xs|l]; try reflexivity. unfold pool_forward_steps, hpool_forward_steps.
    apply (valid_sep _ _ _ _ _ _ kind_frames) in S.
    pose proof (leaf_moved _ _ _ _ _ _ _ _ _ _ _ kind_frames
                  (forward_steps_ok _ _ _ (pool_step_ok c) (make_padding (pfill c)) (pp c) h o xs pe upd S)) as H.
    leaf H.
  - destruct v; try reflexivity. simpl. split; auto. split; auto. apply moved_refl; auto.
  - destruct v as [|x|xs|l]; try reflexivity.
    destruct (rnn_forward_steps c o xs pe upd) as [[y o']|e]; simpl; auto.
    split; auto. split; auto. apply moved_refl; auto.
  - assert (K := hseq_steps_ok (fun m v => steps m v pe upd) (fun m v h => hsteps m v pe upd h) ms).
    assert (C : Forall (child_ok (fun m v => steps m v pe upd) (fun m v h => hsteps m v pe upd h)) ms)
      by (eapply Forall_impl; [|exact H]; intros a Ha v0 h0; apply Ha).
    specialize (K C v h S).
    unfold all_ok, net_ok in K.
    destruct (seq_steps _ _ _) as [[w mv]|e]; destruct (hseq_steps _ _ _ _) as [[[w' m1] h1]|e']; simpl; try tauto.
    destruct K as [-> [-> M]]. split; auto.
  - destruct (broadcast_val n v); simpl; auto. split; auto. split; auto. apply moved_refl; auto.
  - destruct v as [|x|xs|l]; try reflexivity.
    assert (K := hpar_run_ok (fun m v => steps m v pe upd) (fun m v h => hsteps m v pe upd h) ms).
    assert (C : Forall (child_ok (fun m v => steps m v pe upd) (fun m v h => hsteps m v pe upd h)) ms)
      by (eapply Forall_impl; [|exact H]; intros a Ha v0 h0; apply Ha).
    specialize (K C l h S).
    unfold all_ok, net_ok in K.
    destruct (par_run _ _ _) as [[w mv]|e]; destruct (hpar_run _ _ _ _) as [[[w' m1] h1]|e']; simpl; try tauto.
    destruct K as [-> [-> M]]. split; auto.
  - destruct (dispatch_val d v); simpl; auto. split; auto. split; auto. apply moved_refl; auto.
  - destruct (reduce_fwd r v); simpl; auto. split; auto. split; auto. apply moved_refl; auto.
  - assert (K := hbr_run_ok (fun m v => steps m v pe upd) (fun m v h => hsteps m v pe upd h) ms).
    assert (C : Forall (child_ok (fun m v => steps m v pe upd) (fun m v h => hsteps m v pe upd h)) ms)
      by (eapply Forall_impl; [|exact H]; intros a Ha v0 h0; apply Ha).
    specialize (K C v h S).
    unfold all_ok, net_ok in K.
    destruct (br_run _ _ _) as [[w mv]|e]; destruct (hbr_run _ _ _ _) as [[[w' m1] h1]|e']; simpl; try tauto.
    destruct K as [-> [-> M]].
    destruct (reduce_vals r w'); simpl; auto.
  - pose proof S as S0. apply sepR_app in S0. destruct S0 as [S1 [S2 D']].
    destruct (p v).
    + specialize (IHm false true v h S1). unfold one_ok, net_ok in IHm.
      destruct (steps (view h m) v false true) as [[w mv]|e]; destruct (hsteps m v false true h) as [[[w' m1] h1]|e'];
        simpl; try tauto.
      destruct IHm as [-> [-> M]]. pose proof (moved_rest _ _ _ _ _ S M) as A.
      split; auto. split.
      * cbn [view]. f_equal. destruct b as [b0|]; simpl; auto. f_equal. symmetry. apply view_agree; auto.
      * cbn [refs]. eapply moved_app; eauto. apply moved_refl. eapply agree_sep; eauto.
    + destruct b as [b0|]; simpl.
      2:{ split; auto. split; auto. apply moved_refl; auto. }
      specialize (H b0 eq_refl false true v h S2). unfold one_ok, net_ok in H.
      destruct (steps (view h b0) v false true) as [[w mv]|e]; destruct (hsteps b0 v false true h) as [[[w' m1] h1]|e'];
        simpl; try tauto.
      destruct H as [-> [-> M]]. split; auto. split.
      * cbn [view option_map]. f_equal. symmetry. apply view_agree.
        eapply moved_first; [exact S|apply moved_refl; auto|exact M].
      * cbn [refs]. eapply moved_app; [exact S|apply moved_refl; auto|exact M].
Qed.

End HeapNet.
