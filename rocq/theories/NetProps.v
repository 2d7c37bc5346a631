(** Networks: chunking, calls with update_state=False, clean_state. *)
From Coq Require Import List ZArith Bool Arith Lia.
From Verif Require Import Base Frames CoMod Leaf Rnn Net Spec LeafSpec Ring LeafProof NetSpec NetOk Calls.
Import ListNotations.

Section NetProps.
Context {F : Type} {FA : Frames F} {FL : FrameLaws F}.

Lemma feed_ok xs : forall (m : md F), ok m -> exists ys m', feed (nstep true) m xs = Ok (ys, m') /\ ok m'.
Proof. intros m H. destruct (feed_good xs m H) as (ys & m' & E & Ho & _). eauto. Qed.

Lemma chunk_good (m : md F) c : ok m -> frames c <> [] -> exists ys m',
  feed (nstep true) m (frames c) = Ok (ys, m') /\ do_chunk m c = Ok (somes ys, m') /\ ok m'.
Proof.
  intros Ho Hn. destruct (feed_ok (frames c) m Ho) as (ys & m' & E & Ho').
  exists ys, m'. split; [auto|]. split; [|auto].
  destruct c as [x|xs]; cbn [frames do_chunk] in *.
  - cbn [feed] in E. destruct (nstep true m x) as [[y m1]|]; [|discriminate]. cbn [bind] in *.
    injection E as <- <-. destruct y; reflexivity.
  - destruct (steps_good m Ho xs Hn) as (ys2 & m2 & E1 & E2 & _).
    rewrite E in E1. injection E1 as <- <-. unfold nsteps. rewrite E2. cbn [bind].
    destruct (somes ys); reflexivity.
Qed.

Theorem chunks_thm (cs : list (chunk F)) : forall (m : md F), ok m -> (forall c, In c cs -> frames c <> []) ->
  exists ys m', feed (nstep true) m (concat (map frames cs)) = Ok (ys, m') /\
    run_chunks m cs = Ok (somes ys, m').
Proof.
  induction cs as [|c t IH]; intros m Ho Hn.
  - exists [], m. split; reflexivity.
  - destruct (chunk_good m c Ho) as (ys & m1 & E1 & E2 & Ho1); [apply Hn; left; auto|].
    destruct (IH m1 Ho1) as (zs & m2 & E3 & E4); [intros; apply Hn; right; auto|].
    exists (ys ++ zs), m2. cbn [map concat run_chunks]. rewrite feed_app, E1. cbn [bind snd fst].
    rewrite E3. cbn [bind snd fst]. rewrite E2. cbn [bind]. rewrite E4. cbn [bind].
    rewrite somes_app. split; reflexivity.
Qed.

Theorem chunks_agree (cs cs' : list (chunk F)) (m : md F) : ok m ->
  (forall c, In c cs -> frames c <> []) -> (forall c, In c cs' -> frames c <> []) ->
  concat (map frames cs) = concat (map frames cs') ->
  exists ys m', run_chunks m cs = Ok (ys, m') /\ run_chunks m cs' = Ok (ys, m') /\ ok m'.
Proof.
  intros Ho H1 H2 E.
  destruct (chunks_thm cs m Ho H1) as (ys & m1 & E1 & E2).
  destruct (chunks_thm cs' m Ho H2) as (zs & m2 & E3 & E4).
  rewrite E, E3 in E1. injection E1 as -> ->.
  exists (somes ys), m1. repeat split; auto.
  destruct (feed_ok (concat (map frames cs')) m Ho) as (? & ? & E5 & ?). rewrite E3 in E5.
  injection E5 as <- <-. auto.
Qed.

(* ------------------------------------------------------------------ *)
(** ** update_state=False *)

Lemma co_step_peek {Ob St} (g : Ob -> option St) s (fs : F -> option St -> res (option F * option St)) o x y o' :
  co_forward_step g s fs o x false = Ok (y, o') -> o' = o.
Proof.
  unfold co_forward_step. destruct (fs x (g o)) as [[z st]|]; simpl; [|discriminate].
  destruct st; congruence.
Qed.
Lemma co_steps_peek {Ob St} (g : Ob -> option St) s (fs : F -> option St -> res (option F * option St)) mk pad o xs pe y o' :
  co_forward_steps g s fs mk pad o xs pe false = Ok (y, o') -> o' = o.
Proof.
  unfold co_forward_steps. destruct (co_loop fs xs (g o)) as [[outs s1]|]; simpl; [|discriminate].
  assert (E : (match s1 with Some _ => o | None => o end) = o) by (destruct s1; auto).
  rewrite E. destruct pe; simpl; [|congruence].
  destruct (end_frames mk pad xs) as [fr|]; simpl; [|discriminate].
  destruct (co_loop fs fr _) as [[? ?]|]; simpl; congruence.
Qed.

Ltac opk H := match type of H with
  | context[bind ?e _] => destruct e as [[? ?]|] eqn:?; cbn [bind] in H; [|discriminate]
  end.

Theorem peek_step (m : md F) : forall v w m', step m v false = Ok (w, m') -> m' = m.
Proof.
  induction m using md_ind'; intros v w m' E; cbn [step] in E.
  - destruct v; try discriminate. opk E. injection E as <- <-. f_equal.
    unfold delay_forward_step in *. destruct (d =? 0); [congruence|]. eapply co_step_peek; eauto.
  - destruct v; try discriminate. opk E. injection E as <- <-. f_equal. eapply co_step_peek; eauto.
  - destruct v; try discriminate. opk E. injection E as <- <-. f_equal. eapply co_step_peek; eauto.
  - destruct v; try discriminate. opk E. injection E as <- <-. f_equal. eapply co_step_peek; eauto.
  - destruct v; try discriminate. congruence.
  - destruct v; try discriminate. opk E. injection E as <- <-. f_equal.
    unfold rnn_forward_step in *. destruct (rnn_fstep _ _ _) as [[? ?]|]; simpl in *; congruence.
  - opk E. injection E as <- <-. f_equal. revert v v0 l Heqr.
    induction H as [|m ms Hm HF IH]; intros v v0 l E; cbn [seq_step] in E; [congruence|].
    opk E. apply Hm in Heqr. subst. destruct (is_none v1); [congruence|]. opk E.
    injection E as <- <-. f_equal. eapply IH; eauto.
  - destruct n; simpl in E; congruence.
  - destruct v; try discriminate. opk E. injection E as <- <-. f_equal. rename Heqr into E1. revert l l0 l1 E1.
    induction H as [|m ms Hm HF IH]; intros l l0 l1 E; cbn [par_run] in E; [congruence|].
    destruct l; [discriminate|]. opk E. apply Hm in Heqr. subst. opk E.
    injection E as <- <-. f_equal. eapply IH; eauto.
  - destruct (dispatch_val d v); simpl in E; congruence.
  - destruct (reduce_step r v); simpl in E; congruence.
  - opk E. destruct (if forallb is_tensor l then _ else _); simpl in E; [|discriminate].
    injection E as <- <-. f_equal. revert l l0 Heqr0.
    induction H as [|m ms Hm HF IH]; intros l l0 E; cbn [br_run] in E; [congruence|].
    opk E. apply Hm in Heqr0. subst. opk E. injection E as <- <-. f_equal. eapply IH; eauto.
  - destruct (p v).
    + opk E. injection E as <- <-. f_equal. eapply IHm; eauto.
    + destruct b as [b0|]; [|congruence]. opk E. injection E as <- <-. do 2 f_equal. eapply H; eauto.
Qed.

Theorem peek_steps (m : md F) : cond_free m -> forall v pe w m', steps m v pe false = Ok (w, m') -> m' = m.
Proof.
  induction m using md_ind'; intros Hc v pe w m' E; cbn [steps] in E.
  - destruct v; try discriminate. opk E. injection E as <- <-. f_equal.
    unfold delay_forward_steps in *. destruct (d =? 0); [congruence|]. eapply co_steps_peek; eauto.
  - destruct v; try discriminate. opk E. injection E as <- <-. f_equal. eapply co_steps_peek; eauto.
  - destruct v; try discriminate. opk E. injection E as <- <-. f_equal. eapply co_steps_peek; eauto.
  - destruct v; try discriminate. opk E. injection E as <- <-. f_equal. eapply co_steps_peek; eauto.
  - destruct v; try discriminate. congruence.
  - destruct v; try discriminate. opk E. injection E as <- <-. f_equal.
    unfold rnn_forward_steps in *. destruct (torch_rnn _ _ _) as [[? ?]|]; simpl in *; congruence.
  - opk E. injection E as <- <-. f_equal. simpl in Hc. apply allP_Forall in Hc. revert v v0 l Heqr.
    induction H as [|m ms Hm HF IH]; intros v v0 l E; cbn [seq_steps] in E; [congruence|].
    inversion Hc; subst.
    destruct (stops v); [congruence|]. opk E. apply Hm in Heqr; auto. subst. opk E.
    injection E as <- <-. f_equal. eapply IH; eauto.
  - destruct n; simpl in E; congruence.
  - destruct v; try discriminate. opk E. injection E as <- <-. f_equal. rename Heqr into E1.
    simpl in Hc. apply allP_Forall in Hc. revert l l0 l1 E1.
    induction H as [|m ms Hm HF IH]; intros l l0 l1 E; cbn [par_run] in E; [congruence|].
    inversion Hc; subst.
    destruct l; [discriminate|]. opk E. apply Hm in Heqr; auto. subst. opk E.
    injection E as <- <-. f_equal. eapply IH; eauto.
  - destruct (dispatch_val d v); simpl in E; congruence.
  - destruct (reduce_fwd r v); simpl in E; congruence.
  - opk E. destruct (reduce_vals r l); simpl in E; [|discriminate].
    injection E as <- <-. f_equal. simpl in Hc. apply allP_Forall in Hc. revert l l0 Heqr0.
    induction H as [|m ms Hm HF IH]; intros l l0 E; cbn [br_run] in E; [congruence|].
    inversion Hc; subst.
    opk E. apply Hm in Heqr0; auto. subst. opk E. injection E as <- <-. f_equal. eapply IH; eauto.
  - destruct Hc.
Qed.

(** The value returned does not depend on update_state. *)
Lemma co_step_peek_val {Ob St} (g : Ob -> option St) s (fs : F -> option St -> res (option F * option St)) o x y o' :
  co_forward_step g s fs o x true = Ok (y, o') -> co_forward_step g s fs o x false = Ok (y, o).
Proof.
  unfold co_forward_step. destruct (fs x (g o)) as [[z st]|]; simpl; [|discriminate].
  destruct st; congruence.
Qed.
Lemma co_steps_peek_val {Ob St} (g : Ob -> option St) s (fs : F -> option St -> res (option F * option St)) mk pad o xs y o' :
  co_forward_steps g s fs mk pad o xs false true = Ok (y, o') -> co_forward_steps g s fs mk pad o xs false false = Ok (y, o).
Proof.
  unfold co_forward_steps. destruct (co_loop fs xs (g o)) as [[outs s1]|]; simpl; [|discriminate].
  destruct s1; congruence.
Qed.

Theorem peek_step_val (m : md F) : forall v w m', step m v true = Ok (w, m') -> step m v false = Ok (w, m).
Proof.
  induction m using md_ind'; intros v w m' E; cbn [step] in E |- *.
  - destruct v; try discriminate. opk E. injection E as <- <-.
    unfold delay_forward_step in *. destruct (d =? 0); [injection Heqr as <- <-; reflexivity|].
    erewrite co_step_peek_val by eauto. reflexivity.
  - destruct v; try discriminate. opk E. injection E as <- <-. unfold skip_forward_step in *.
    erewrite co_step_peek_val by eauto. reflexivity.
  - destruct v; try discriminate. opk E. injection E as <- <-. unfold conv_forward_step in *.
    erewrite co_step_peek_val by eauto. reflexivity.
  - destruct v; try discriminate. opk E. injection E as <- <-. unfold pool_forward_step in *.
    erewrite co_step_peek_val by eauto. reflexivity.
  - destruct v; try discriminate. congruence.
  - destruct v; try discriminate. opk E. injection E as <- <-.
    unfold rnn_forward_step in *. destruct (rnn_fstep _ _ _) as [[? ?]|]; simpl in *; congruence.
  - opk E. injection E as <- <-.
    assert (seq_step (fun m v => step m v false) ms v = Ok (v0, ms)) as ->; [|reflexivity]. revert v v0 l Heqr.
    induction H as [|m ms Hm HF IH]; intros v v0 l E; cbn [seq_step] in E |- *; [congruence|].
    opk E. apply Hm in Heqr. rewrite Heqr. cbn [bind]. destruct (is_none v1); [congruence|]. opk E.
    injection E as <- <-. erewrite IH by eauto. reflexivity.
  - destruct n; simpl in E |- *; congruence.
  - destruct v; try discriminate. opk E. injection E as <- <-.
    assert (par_run (fun m v => step m v false) ms l = Ok (l0, ms)) as ->; [|reflexivity].
    rename Heqr into E1. revert l l0 l1 E1.
    induction H as [|m ms Hm HF IH]; intros l l0 l1 E; cbn [par_run] in E |- *; [congruence|].
    destruct l; [discriminate|]. opk E. apply Hm in Heqr. rewrite Heqr. cbn [bind]. opk E.
    injection E as <- <-. erewrite IH by eauto. reflexivity.
  - destruct (dispatch_val d v); simpl in E |- *; congruence.
  - destruct (reduce_step r v); simpl in E |- *; congruence.
  - opk E.
    assert (br_run (fun m v => step m v false) ms v = Ok (l, ms)) as ->.
    { clear E. revert l l0 Heqr0.
      induction H as [|m ms Hm HF IH]; intros l l0 E; cbn [br_run] in E |- *; [congruence|].
      opk E. apply Hm in Heqr0. rewrite Heqr0. cbn [bind]. opk E. injection E as <- <-.
      erewrite IH by eauto. reflexivity. }
    cbn [bind]. destruct (if forallb is_tensor l then _ else _); simpl in E |- *; congruence.
  - destruct (p v).
    + opk E. injection E as <- <-. erewrite IHm by eauto. reflexivity.
    + destruct b as [b0|]; [|congruence]. opk E. injection E as <- <-. erewrite H by eauto. reflexivity.
Qed.

Theorem peek_steps_val (m : md F) : cond_free m -> forall v w m', steps m v false true = Ok (w, m') ->
  steps m v false false = Ok (w, m).
Proof.
  induction m using md_ind'; intros Hc v w m' E; cbn [steps] in E |- *.
  - destruct v; try discriminate. opk E. injection E as <- <-.
    unfold delay_forward_steps in *. destruct (d =? 0); [injection Heqr as <- <-; reflexivity|].
    erewrite co_steps_peek_val by eauto. reflexivity.
  - destruct v; try discriminate. opk E. injection E as <- <-. unfold skip_forward_steps in *.
    erewrite co_steps_peek_val by eauto. reflexivity.
  - destruct v; try discriminate. opk E. injection E as <- <-. unfold conv_forward_steps in *.
    erewrite co_steps_peek_val by eauto. reflexivity.
  - destruct v; try discriminate. opk E. injection E as <- <-. unfold pool_forward_steps in *.
    erewrite co_steps_peek_val by eauto. reflexivity.
  - destruct v; try discriminate. congruence.
  - destruct v; try discriminate. opk E. injection E as <- <-.
    unfold rnn_forward_steps in *. destruct (torch_rnn _ _ _) as [[? ?]|]; simpl in *; [injection Heqr as <- <-; reflexivity|discriminate].
  - opk E. injection E as <- <-. simpl in Hc. apply allP_Forall in Hc.
    assert (seq_steps (fun m v => steps m v false false) ms v = Ok (v0, ms)) as ->; [|reflexivity]. revert v v0 l Heqr.
    induction H as [|m ms Hm HF IH]; intros v v0 l E; cbn [seq_steps] in E |- *; [congruence|].
    inversion Hc; subst. destruct (stops v); [congruence|].
    opk E. apply Hm in Heqr; auto. rewrite Heqr. cbn [bind]. opk E.
    injection E as <- <-. erewrite IH by eauto. reflexivity.
  - destruct n; simpl in E |- *; congruence.
  - destruct v; try discriminate. opk E. injection E as <- <-. simpl in Hc. apply allP_Forall in Hc.
    assert (par_run (fun m v => steps m v false false) ms l = Ok (l0, ms)) as ->; [|reflexivity].
    rename Heqr into E1. revert l l0 l1 E1.
    induction H as [|m ms Hm HF IH]; intros l l0 l1 E; cbn [par_run] in E |- *; [congruence|].
    inversion Hc; subst.
    destruct l; [discriminate|]. opk E. apply Hm in Heqr; auto. rewrite Heqr. cbn [bind]. opk E.
    injection E as <- <-. erewrite IH by eauto. reflexivity.
  - destruct (dispatch_val d v); simpl in E |- *; congruence.
  - destruct (reduce_fwd r v); simpl in E |- *; congruence.
  - opk E. simpl in Hc. apply allP_Forall in Hc.
    assert (br_run (fun m v => steps m v false false) ms v = Ok (l, ms)) as ->.
    { clear E. revert l l0 Heqr0.
      induction H as [|m ms Hm HF IH]; intros l l0 E; cbn [br_run] in E |- *; [congruence|].
      inversion Hc; subst.
      opk E. apply Hm in Heqr0; auto. rewrite Heqr0. cbn [bind]. opk E. injection E as <- <-.
      erewrite IH by eauto. reflexivity. }
    cbn [bind]. destruct (reduce_vals r l); simpl in E |- *; congruence.
  - destruct Hc.
Qed.

(* ------------------------------------------------------------------ *)
(** ** clean_state *)

(** Calls change only the buffers: after [clean] nothing of them is left. *)
Theorem clean_step (m : md F) : cond_free m -> forall v upd w m', step m v upd = Ok (w, m') ->
  clean m' = clean m /\ cond_free m'.
Proof.
  induction m using md_ind'; intros Hc v upd w m' E; cbn [step] in E.
  1-4,6: destruct v; try discriminate; opk E; injection E as <- <-; split; [reflexivity|exact I].
  - destruct v; try discriminate. injection E as <- <-. auto.
  - opk E. injection E as <- <-. simpl in Hc. apply allP_Forall in Hc. cbn [clean cond_free].
    rewrite allP_Forall. rename Heqr into E.
    assert (map clean l = map clean ms /\ Forall cond_free l) as [-> ?]; [|auto]. revert v v0 l E.
    induction H as [|m ms Hm HF IH]; intros v v0 l E; cbn [seq_step] in E; [injection E as <- <-; auto|].
    inversion Hc; subst. opk E. apply Hm in Heqr as [E1 E2]; auto. destruct (is_none v1).
    + injection E as <- <-. simpl. rewrite E1. auto.
    + opk E. injection E as <- <-. apply IH in Heqr as [E3 E4]; auto. simpl. rewrite E1, E3. auto.
  - destruct n; simpl in E; [injection E as <- <-|discriminate]. auto.
  - destruct v; try discriminate. opk E. injection E as <- <-. simpl in Hc. apply allP_Forall in Hc.
    cbn [clean cond_free]. rewrite allP_Forall. rename Heqr into E.
    assert (map clean l1 = map clean ms /\ Forall cond_free l1) as [-> ?]; [|auto]. revert l l0 l1 E.
    induction H as [|m ms Hm HF IH]; intros l l0 l1 E; cbn [par_run] in E; [injection E as <- <-; auto|].
    inversion Hc; subst. destruct l; [discriminate|]. opk E. apply Hm in Heqr as [E1 E2]; auto.
    opk E. injection E as <- <-. apply IH in Heqr as [E3 E4]; auto. simpl. rewrite E1, E3. auto.
  - destruct (dispatch_val d v); simpl in E; [injection E as <- <-|discriminate]. auto.
  - destruct (reduce_step r v); simpl in E; [injection E as <- <-|discriminate]. auto.
  - opk E. destruct (if forallb is_tensor l then _ else _); simpl in E; [|discriminate].
    injection E as <- <-. simpl in Hc. apply allP_Forall in Hc. cbn [clean cond_free].
    rewrite allP_Forall. rename Heqr0 into E.
    assert (map clean l0 = map clean ms /\ Forall cond_free l0) as [-> ?]; [|auto]. revert v l l0 E.
    induction H as [|m ms Hm HF IH]; intros v l l0 E; cbn [br_run] in E; [injection E as <- <-; auto|].
    inversion Hc; subst. opk E. apply Hm in Heqr0 as [E1 E2]; auto.
    opk E. injection E as <- <-. apply IH in Heqr0 as [E3 E4]; auto. simpl. rewrite E1, E3. auto.
  - destruct Hc.
Qed.

Theorem clean_steps (m : md F) : cond_free m -> forall v pe upd w m', steps m v pe upd = Ok (w, m') ->
  clean m' = clean m /\ cond_free m'.
Proof.
  induction m using md_ind'; intros Hc v pe upd w m' E; cbn [steps] in E.
  1-4,6: destruct v; try discriminate; opk E; injection E as <- <-; split; [reflexivity|exact I].
  - destruct v; try discriminate. injection E as <- <-. auto.
  - opk E. injection E as <- <-. simpl in Hc. apply allP_Forall in Hc. cbn [clean cond_free].
    rewrite allP_Forall. rename Heqr into E.
    assert (map clean l = map clean ms /\ Forall cond_free l) as [-> ?]; [|auto]. revert v v0 l E.
    induction H as [|m ms Hm HF IH]; intros v v0 l E; cbn [seq_steps] in E; [injection E as <- <-; auto|].
    inversion Hc; subst. destruct (stops v); [injection E as <- <-; auto|].
    opk E. apply Hm in Heqr as [E1 E2]; auto.
    opk E. injection E as <- <-. apply IH in Heqr as [E3 E4]; auto. simpl. rewrite E1, E3. auto.
  - destruct n; simpl in E; [injection E as <- <-|discriminate]. auto.
  - destruct v; try discriminate. opk E. injection E as <- <-. simpl in Hc. apply allP_Forall in Hc.
    cbn [clean cond_free]. rewrite allP_Forall. rename Heqr into E.
    assert (map clean l1 = map clean ms /\ Forall cond_free l1) as [-> ?]; [|auto]. revert l l0 l1 E.
    induction H as [|m ms Hm HF IH]; intros l l0 l1 E; cbn [par_run] in E; [injection E as <- <-; auto|].
    inversion Hc; subst. destruct l; [discriminate|]. opk E. apply Hm in Heqr as [E1 E2]; auto.
    opk E. injection E as <- <-. apply IH in Heqr as [E3 E4]; auto. simpl. rewrite E1, E3. auto.
  - destruct (dispatch_val d v); simpl in E; [injection E as <- <-|discriminate]. auto.
  - destruct (reduce_fwd r v); simpl in E; [injection E as <- <-|discriminate]. auto.
  - opk E. destruct (reduce_vals r l); simpl in E; [|discriminate].
    injection E as <- <-. simpl in Hc. apply allP_Forall in Hc. cbn [clean cond_free].
    rewrite allP_Forall. rename Heqr0 into E.
    assert (map clean l0 = map clean ms /\ Forall cond_free l0) as [-> ?]; [|auto]. revert v l l0 E.
    induction H as [|m ms Hm HF IH]; intros v l l0 E; cbn [br_run] in E; [injection E as <- <-; auto|].
    inversion Hc; subst. opk E. apply Hm in Heqr0 as [E1 E2]; auto.
    opk E. injection E as <- <-. apply IH in Heqr0 as [E3 E4]; auto. simpl. rewrite E1, E3. auto.
  - destruct Hc.
Qed.

Lemma clean_clean (m : md F) : cond_free m -> clean (clean m) = clean m /\ cond_free (clean m).
Proof.
  induction m using md_ind'; intros Hc; try (split; [reflexivity|exact I]); try (destruct Hc; fail);
  simpl in Hc; apply allP_Forall in Hc; cbn [clean cond_free]; rewrite allP_Forall;
  (assert (map clean (map clean ms) = map clean ms /\ Forall cond_free (map clean ms)) as [-> ?]; [|auto]);
  (induction H as [|m ms Hm HF IH]; [auto|]); inversion Hc; subst; destruct (Hm H1) as [E1 E2];
  destruct (IH H2) as [E3 E4]; simpl; rewrite E1, E3; auto.
Qed.

Theorem clean_run cs : forall (m : md F), cond_free m -> forall ws m', run_calls m cs = Ok (ws, m') ->
  clean m' = clean m /\ cond_free m'.
Proof.
  induction cs as [|c cs IH]; intros m Hc ws m' E; cbn [run_calls] in E; [injection E as <- <-; auto|].
  opk E. opk E. injection E as <- <-.
  assert (clean m0 = clean m /\ cond_free m0) as [E1 E2].
  { clear Heqr0. destruct c; cbn [do_call] in Heqr.
    - eapply clean_step; eauto.
    - eapply clean_steps; eauto.
    - destruct (fwd m v0); simpl in Heqr; [|discriminate]. injection Heqr as <- <-. auto.
    - injection Heqr as <- <-. now apply clean_clean. }
  apply IH in Heqr0 as [E3 E4]; auto. rewrite E3. auto.
Qed.

Lemma clean_fresh (m : md F) : fresh m -> clean m = m.
Proof.
  induction m using md_ind'; simpl; intros Hf; subst; auto;
  try (f_equal; apply allP_Forall in Hf; induction H as [|m ms Hm HF IH]; [reflexivity|];
       inversion Hf; subst; simpl; f_equal; auto).
Qed.

Theorem clean_restores (m : md F) cs ws m' : cond_free m -> fresh m ->
  run_calls m cs = Ok (ws, m') -> clean m' = m.
Proof.
  intros Hc Hf E. apply clean_run in E as [E _]; auto. rewrite E. now apply clean_fresh.
Qed.

(** Deleting the pure calls of a history. *)
Theorem peek_erasure cs : forall (m : md F), cond_free m -> forall ws m', run_calls m cs = Ok (ws, m') ->
  run_calls m (filter (fun c => negb (pure_call c)) cs) = Ok (keep_outs cs ws, m').
Proof.
  induction cs as [|c cs IH]; intros m Hc ws m' E; cbn [run_calls] in E.
  - injection E as <- <-. reflexivity.
  - opk E. opk E. injection E as <- <-. cbn [filter keep_outs].
    destruct (pure_call c) eqn:Ep; cbn [negb].
    + assert (m0 = m) as ->; [|eapply IH; eauto].
      destruct c; cbn [do_call pure_call] in *; try discriminate.
      * destruct upd; [discriminate|]. eapply peek_step; eauto.
      * destruct upd; [discriminate|]. eapply peek_steps; eauto.
      * destruct (fwd m v0); simpl in Heqr; congruence.
    + cbn [run_calls]. rewrite Heqr. cbn [bind].
      assert (cond_free m0).
      { destruct (clean_run [c] m Hc [v] m0); [|auto]. cbn [run_calls]. rewrite Heqr. reflexivity. }
      erewrite IH by eauto. reflexivity.
Qed.

End NetProps.
