(** Batches, superposition and equivariance from the relational theorem. *)
From Coq Require Import List ZArith Bool Arith Lia.
From Verif Require Import Base Frames CoMod Leaf Rnn Net Spec NetSpec Calls NetOk NetProps NetRel RelProof Batch.
Import ListNotations.

Section Graph.
Context {F G : Type} {FA : Frames F} {FL : FrameLaws F} {GA : Frames G} {GL : FrameLaws G} (h : F -> G).

Lemma g_list l l' : Forall2 (graph h) l l' <-> l' = map h l.
Proof.
  split.
  - induction 1 as [|x y l l' H1 H2 IH]; [reflexivity|]. simpl. rewrite <- H1, IH. reflexivity.
  - intros ->. induction l; simpl; constructor; auto. reflexivity.
Qed.

Fixpoint g_val v : rel_val (graph h) v (val_map h v).
Proof.
  destruct v as [|x|xs|l]; simpl; constructor.
  - reflexivity.
  - now apply g_list.
  - induction l as [|a l IH]; simpl; constructor; [apply g_val|exact IH].
Qed.

Lemma g_val_inv v w : rel_val (graph h) v w -> w = val_map h v.
Proof.
  revert v w. apply rv_ind'; simpl.
  - reflexivity.
  - intros x y H. f_equal. symmetry. exact H.
  - intros xs ys H. f_equal. now apply g_list.
  - intros l l' H IH. f_equal. induction IH as [|a b l l' H1 H2 IH2]; simpl; [reflexivity|]. inversion H; subst. f_equal; auto.
Qed.

Lemma g_call c : rel_call (graph h) c (call_map h c).
Proof. destruct c; simpl; constructor; apply g_val. Qed.

Theorem batch_entry M m cs : rel_frames (graph h) -> rel_md (graph h) M m ->
  outs (run_calls m (map (call_map h) cs)) = outs_map h (outs (run_calls M cs)).
Proof.
  intros Hf HM.
  assert (Hc : Forall2 (rel_call (graph h)) cs (map (call_map h) cs)).
  { induction cs; simpl; constructor; auto. apply g_call. }
  destruct (r_calls (graph h) Hf cs _ Hc M m HM) as [[ws M'] [us m'] [H1 _]|e]; [|reflexivity].
  cbn [outs outs_map bind fst] in *. f_equal. induction H1 as [|a b l l' Ha Hl IH]; simpl; [reflexivity|].
  f_equal; auto. now apply g_val_inv.
Qed.

Theorem batch_no_leak M m cs cs' : rel_frames (graph h) -> rel_md (graph h) M m ->
  map (call_map h) cs = map (call_map h) cs' ->
  outs_map h (outs (run_calls M cs)) = outs_map h (outs (run_calls M cs')).
Proof. intros Hf HM E. rewrite <- !(batch_entry M m) by auto. now rewrite E. Qed.

End Graph.

Section Two.
Context {F : Type} {FA : Frames F} {FL : FrameLaws F}.

Lemma map_two (k : F * F -> F) (Hk : forall x, k (two x) = x) l : map k (map two l) = l.
Proof. rewrite map_map. rewrite (map_ext _ (fun x => x)) by auto. apply map_id. Qed.

Lemma two_obj_rel k (Hk : forall x, k (two x) = x) o : rel_obj (graph (F:=F * F) k) (two_obj o) o.
Proof. repeat split. apply g_list. simpl. now rewrite map_two. Qed.

Lemma two_objs_rel k (Hk : forall x, k (two x) = x) o : rel_obj (Forall2 (graph (F:=F * F) k)) (two_objs o) o.
Proof.
  repeat split. simpl. induction (o_buf o) as [|r b IH]; simpl; constructor; auto. apply g_list. now rewrite map_two.
Qed.

Lemma fst_frames : rel_frames (graph (F:=F * F) fst).
Proof. constructor. reflexivity. Qed.
Lemma snd_frames : rel_frames (graph (F:=F * F) snd).
Proof. constructor. reflexivity. Qed.

Lemma combine_map {A B} (l : list A) (k : list B) : length l = length k -> map fst (combine l k) = l /\ map snd (combine l k) = k.
Proof. revert k. induction l as [|a l IH]; intros [|b k] H; simpl in *; try discriminate; auto. destruct (IH k) as [-> ->]; auto. Qed.

Section Proj.
Variable k : F * F -> F.
Hypothesis Hk : k = fst \/ k = snd.

Lemma k_two x : k (two x) = x.
Proof. destruct Hk as [-> | ->]; reflexivity. Qed.
Lemma k_fill f : rel_fill (graph k) f.
Proof. intros _. destruct Hk as [-> | ->]; reflexivity. Qed.

Lemma proj_conv c : rel_conv (graph k) (two_conv c) c.
Proof.
  constructor; try reflexivity; try apply k_fill.
  - intros i x y <-. destruct Hk as [-> | ->]; reflexivity.
  - simpl. destruct (cb c); simpl; constructor. apply k_two.
  - intros a a' b b' <- <-. destruct Hk as [-> | ->]; reflexivity.
Qed.
Lemma proj_pool c : rel_pool (graph k) (two_pool c) c.
Proof.
  constructor; try reflexivity; try apply k_fill.
  - intros x y <-. destruct Hk as [-> | ->]; reflexivity.
  - intros l l' ->%g_list. destruct Hk as [-> | ->]; reflexivity.
Qed.
Lemma proj_red r : rel_red (graph k) (two_red r) r.
Proof. constructor; try reflexivity. intros a a' b b' <- <-. destruct Hk as [-> | ->]; reflexivity. Qed.
Lemma proj_rnn c : Forall cell_len (r_cells c) -> rel_rnn (graph k) (two_rnn c) c.
Proof.
  intros H. constructor; simpl.
  - induction H as [|f l Hf Hl IH]; simpl; constructor; auto. intros s s' x y ->%g_list <-. unfold two_cell.
    pose proof (Hf (map fst s) (map snd s) (fst x) (snd x)) as L. rewrite !map_length in L. specialize (L eq_refl).
    destruct (f (map fst s) (fst x)) as [h1 y1] eqn:E1, (f (map snd s) (snd x)) as [h2 y2] eqn:E2. simpl in L.
    destruct (combine_map h1 h2 L) as [C1 C2].
    destruct Hk as [-> | ->]; rewrite ?E1, ?E2; split; simpl; try reflexivity; apply g_list; auto.
  - apply g_list. rewrite map_two; auto. apply k_two.
Qed.

Lemma two_proj m : cond_free m -> cells_len m -> rel_md (graph k) (two_md m) m.
Proof.
  assert (Hl : forall ms, Forall (fun m => cond_free m -> cells_len m -> rel_md (graph k) (two_md m) m) ms ->
    allP cond_free ms -> allP cells_len ms -> Forall2 (rel_md (graph k)) (map two_md ms) ms).
  { induction 1 as [|a t Hm HF IH]; intros Hc Hl; simpl; constructor.
    - apply Hm; [apply Hc|apply Hl].
    - apply IH; [apply Hc|apply Hl]. }
  induction m using md_ind'; cbn [two_md cond_free cells_len]; intros Hc Hcl.
  - constructor; [apply k_fill|apply two_obj_rel, k_two].
  - constructor.
  - constructor; [apply proj_conv|apply two_objs_rel, k_two].
  - constructor; [apply proj_pool|apply two_obj_rel, k_two].
  - constructor. intros x y <-. destruct Hk as [-> | ->]; reflexivity.
  - constructor; [now apply proj_rnn|]. destruct o as [hs|]; simpl; constructor.
    induction hs as [|a hs IH]; simpl; constructor; auto. apply g_list. rewrite map_two; auto. apply k_two.
  - constructor. auto.
  - constructor.
  - constructor. auto.
  - constructor.
  - constructor. apply proj_red.
  - constructor; [auto|apply proj_red].
  - destruct Hc.
Qed.
End Proj.

Theorem two_streams m CS : cond_free m -> cells_len m ->
  outs (run_calls m (map (call_map fst) CS)) = outs_map fst (outs (run_calls (two_md m) CS)) /\
  outs (run_calls m (map (call_map snd) CS)) = outs_map snd (outs (run_calls (two_md m) CS)).
Proof.
  intros Hc Hl. split; apply batch_entry.
  - apply fst_frames.
  - apply two_proj; auto.
  - apply snd_frames.
  - apply two_proj; auto.
Qed.

(* ------------------------------------------------------------------ *)
(** ** Superposition *)

Lemma add4 (a b c d : F) : fadd (fadd a b) (fadd c d) = fadd (fadd a c) (fadd b d).
Proof. rewrite <- !fadd_assoc. f_equal. rewrite !fadd_assoc. f_equal. apply fadd_comm. Qed.

Lemma plus_frames : rel_frames (graph plus).
Proof. constructor. apply fadd_0_l. Qed.
Lemma plus_sum : rel_sum (graph plus).
Proof. intros a a' b b' <- <-. unfold graph, plus. simpl. apply add4. Qed.

Lemma plus_fill f : f <> NegInf -> rel_fill (graph plus) f.
Proof. intros H E. congruence. Qed.

Lemma lin_plain m : linear m -> cond_free m /\ cells_len m.
Proof.
  assert (Hl : forall ms, Forall (fun m => linear m -> cond_free m /\ cells_len m) ms -> allP linear ms -> allP cond_free ms /\ allP cells_len ms).
  { induction 1 as [|a t Hm HF IH]; intros H; simpl; [auto|]. destruct H as [H1 H2]. destruct (Hm H1), (IH H2). auto. }
  induction m using md_ind'; cbn [linear cond_free cells_len]; intros Hm; auto; try (destruct Hm; fail).
  destruct Hm. auto.
Qed.

Lemma two_plus m : linear m -> fresh m -> rel_md (graph plus) (two_md m) m.
Proof.
  assert (Hl : forall ms, Forall (fun m => linear m -> fresh m -> rel_md (graph plus) (two_md m) m) ms ->
    allP linear ms -> allP fresh ms -> Forall2 (rel_md (graph plus)) (map two_md ms) ms).
  { induction 1 as [|a t Hm HF IH]; intros Hc Hl; simpl; constructor.
    - apply Hm; [apply Hc|apply Hl].
    - apply IH; [apply Hc|apply Hl]. }
  induction m using md_ind'; cbn [two_md linear fresh]; intros Hc Hf; subst.
  - constructor; [now apply plus_fill|repeat split; constructor].
  - constructor.
  - destruct Hc as (H1 & H2 & H3 & H4). constructor; [|repeat split; constructor]. 
    constructor; try reflexivity; try (now apply plus_fill).
    + intros i x y <-. unfold graph, plus. simpl. symmetry. apply H4.
    + simpl. rewrite H3. constructor.
    + apply plus_sum.
  - destruct Hc as (H1 & H2 & H3 & H4). constructor; [|repeat split; constructor]. 
    constructor; try reflexivity; try (now apply plus_fill).
    + intros x y <-. unfold graph, plus. simpl. symmetry. apply H3.
    + intros l l' ->%g_list. unfold graph, plus. simpl. symmetry. apply H4.
  - constructor. intros x y <-. unfold graph, plus. simpl. symmetry. apply Hc.
  - destruct Hc.
  - constructor. auto.
  - constructor.
  - constructor. auto.
  - constructor.
  - constructor. constructor; try reflexivity. intros a a' b b' <- <-. unfold graph, plus. simpl. symmetry. apply Hc.
  - destruct Hc as [Hc Hr]. constructor; [auto|].
    constructor; try reflexivity. intros a a' b b' <- <-. unfold graph, plus. simpl. symmetry. apply Hr.
  - destruct Hc.
Qed.

Theorem superposition m CS : linear m -> fresh m ->
  exists W, outs (run_calls m (map (call_map fst) CS)) = outs_map fst W /\
            outs (run_calls m (map (call_map snd) CS)) = outs_map snd W /\
            outs (run_calls m (map (call_map plus) CS)) = outs_map plus W.
Proof.
  intros Hl Hf. destruct (lin_plain m Hl) as [Hc Hn]. destruct (two_streams m CS Hc Hn) as [H1 H2].
  exists (outs (run_calls (two_md m) CS)). split; [auto|]. split; [auto|].
  apply batch_entry; [apply plus_frames|now apply two_plus].
Qed.

(* ------------------------------------------------------------------ *)
(** ** Equivariance *)

Lemma equi_md h m : additive h -> equivariant h m -> fresh m -> rel_md (graph h) m m.
Proof.
  intros Ha.
  assert (Hl : forall ms, Forall (fun m => equivariant h m -> fresh m -> rel_md (graph h) m m) ms ->
    allP (equivariant h) ms -> allP fresh ms -> Forall2 (rel_md (graph h)) ms ms).
  { induction 1 as [|a t Hm HF IH]; intros Hc Hl; simpl; constructor.
    - apply Hm; [apply Hc|apply Hl].
    - apply IH; [apply Hc|apply Hl]. }
  induction m using md_ind'; cbn [equivariant fresh]; intros Hc Hf; subst.
  - constructor; [exact Hc|repeat split; constructor].
  - constructor.
  - destruct Hc as (H1 & H2 & H3 & H4). constructor; [|repeat split; constructor].
    constructor; try reflexivity; auto.
    + intros i x y <-. red. symmetry. apply H4.
    + destruct (cb c); constructor. now apply H3.
    + intros a a' b b' <- <-. apply Ha.
  - destruct Hc as (H1 & H2 & H3 & H4). constructor; [|repeat split; constructor].
    constructor; try reflexivity; auto.
    + intros x y <-. red. symmetry. apply H3.
    + intros l l' ->%g_list. red. symmetry. apply H4.
  - constructor. intros x y <-. red. symmetry. apply Hc.
  - destruct Hc as [H1 H2]. constructor; [|constructor]. constructor.
    + induction H2 as [|f l Hf Hl2 IH]; constructor; auto. intros s s' x y ->%g_list <-. rewrite Hf.
      split; simpl; [now apply g_list|reflexivity].
    + apply g_list. auto.
  - constructor. auto.
  - constructor.
  - constructor. auto.
  - constructor.
  - constructor. constructor; try reflexivity. intros a a' b b' <- <-. red. symmetry. apply Hc.
  - destruct Hc as [Hc Hr]. constructor; [auto|].
    constructor; try reflexivity. intros a a' b b' <- <-. red. symmetry. apply Hr.
  - destruct Hc as (H1 & H2 & H3), Hf as [F1 F2]. constructor; auto.
    + intros v v' ->%g_val_inv. symmetry. apply H1.
    + destruct b; constructor. eapply H; eauto.
Qed.

Theorem equivariance h m cs : h f0 = f0 -> additive h -> equivariant h m -> fresh m ->
  outs (run_calls m (map (call_map h) cs)) = outs_map h (outs (run_calls m cs)).
Proof.
  intros H0 Ha He Hf. apply batch_entry; [|now apply equi_md].
  constructor. exact H0.
Qed.

End Two.
