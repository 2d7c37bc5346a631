(** Which hooks run, and how often. *)
From Coq Require Import List ZArith Bool Arith Lia.
From Verif Require Import Base Frames CoMod Leaf Rnn Net Hooks HooksSpec HooksProof.
Import ListNotations.

Section Log.
Context {F : Type} {FA : Frames F}.
Variable hk : nat -> hooks F.

Lemma seen_app i (a b : list (event F)) : seen i (a ++ b) = seen i a ++ seen i b.
Proof. apply flat_map_app. Qed.

Definition at_ (j i : nat) (l : list (bool * nat)) : list (bool * nat) := if Nat.eqb j i then l else [].
Lemma at_same i l : at_ i i l = l.
Proof. unfold at_. rewrite Nat.eqb_refl. reflexivity. Qed.
Lemma at_other j i l : j <> i -> at_ j i l = [].
Proof. intros H. unfold at_. apply Nat.eqb_neq in H. rewrite H. reflexivity. Qed.

Lemma pre_log i j l : forall n v w, snd (pre_from (F := F) i n l v) = Ok w ->
  seen j (fst (pre_from i n l v)) = at_ j i (map (fun n => (false, n)) (seq n (length l))).
Proof.
  induction l as [|h t IH]; intros n v w H.
  { cbn. unfold at_. destruct (j =? i); reflexivity. }
  cbn [pre_from] in *. rewrite snd_mbind in H. rewrite fst_mbind. cbn [fst snd] in *. destruct (h v) as [o|e]; [|discriminate]. cbn [bind] in H.
  rewrite seen_app, (IH _ _ _ H). cbn [seen flat_map key app length seq map]. unfold at_. destruct (j =? i); reflexivity.
Qed.
Lemma post_log i j l x : forall n r w, snd (post_from (F := F) i n l x r) = Ok w ->
  seen j (fst (post_from i n l x r)) = at_ j i (map (fun n => (true, n)) (seq n (length l))).
Proof.
  induction l as [|h t IH]; intros n r w H.
  { cbn. unfold at_. destruct (j =? i); reflexivity. }
  cbn [post_from] in *. rewrite snd_mbind in H. rewrite fst_mbind. cbn [fst snd] in *. destruct (h x r) as [o|e]; [|discriminate]. cbn [bind] in H.
  rewrite seen_app, (IH _ _ _ H). cbn [seen flat_map key app length seq map]. unfold at_. destruct (j =? i); reflexivity.
Qed.
Lemma hooked_log {A} i (f : val F -> M (F := F) (val F * A)) v q : snd (hooked hk i f v) = Ok q ->
  exists w q0, snd (f w) = Ok q0 /\ snd q = snd q0 /\
    forall j, seen j (fst (hooked hk i f v)) = at_ j i (pres (hk i)) ++ seen j (fst (f w)) ++ at_ j i (posts (hk i)).
Proof.
  unfold hooked. rewrite snd_mbind. destruct (snd (pre_from i 0 (h_pre (hk i)) v)) as [w|e] eqn:E1; [|discriminate].
  cbn [bind]. rewrite snd_mbind. destruct (snd (f w)) as [[r a]|e] eqn:E2; [|discriminate]. cbn [bind]. rewrite snd_mbind.
  destruct (snd (post_from i 0 (h_post (hk i)) w r)) as [r'|e] eqn:E3; [|discriminate]. cbn [bind ret snd]. intros H. injection H as <-.
  exists w, (r, a). repeat split; [exact E2|]. intros j. rewrite fst_mbind, E1, seen_app, (pre_log _ _ _ _ _ _ E1).
  rewrite fst_mbind, E2, seen_app. rewrite fst_mbind, E3, seen_app, (post_log _ _ _ _ _ _ _ E3). cbn [ret fst seen flat_map]. rewrite app_nil_r. reflexivity.
Qed.

(** The children that a loop calls. *)
Inductive visits (call : hmd F -> val F -> M (F := F) (val F * hmd F)) (full : bool) : list (hmd F) -> list (event F) -> Prop :=
| v_done : visits call full [] []
| v_stop ms : full = false -> visits call full ms []
| v_next m t v q l : snd (call m v) = Ok q -> visits call full t l -> visits call full (m :: t) (fst (call m v) ++ l).

Section Loops.
Variable call : hmd F -> val F -> M (F := F) (val F * hmd F).
Lemma seq_fwd_visits ms : forall v q, snd (hseq_fwd call ms v) = Ok q -> visits call true ms (fst (hseq_fwd call ms v)).
Proof.
  induction ms as [|m t IH]; intros v q H; [constructor|]. cbn [hseq_fwd] in *. rewrite snd_mbind in H. rewrite fst_mbind.
  destruct (snd (call m v)) as [[w m']|e] eqn:E; [|discriminate]. cbn [bind] in H. rewrite snd_mbind in H. rewrite fst_mbind.
  destruct (snd (hseq_fwd call t w)) as [[w2 t2]|e] eqn:E2; [|discriminate]. cbn [ret fst]. rewrite app_nil_r. econstructor; eauto.
Qed.
Lemma seq_step_visits ms : forall v q, snd (hseq_step call ms v) = Ok q -> visits call false ms (fst (hseq_step call ms v)).
Proof.
  induction ms as [|m t IH]; intros v q H; [constructor|]. cbn [hseq_step] in *. rewrite snd_mbind in H. rewrite fst_mbind.
  destruct (snd (call m v)) as [[w m']|e] eqn:E; [|discriminate]. cbn [bind] in H.
  destruct (is_none w). { econstructor; [eauto|]. apply v_stop. reflexivity. }
  rewrite snd_mbind in H. rewrite fst_mbind.
  destruct (snd (hseq_step call t w)) as [[w2 t2]|e] eqn:E2; [|discriminate]. cbn [ret fst]. rewrite app_nil_r. econstructor; eauto.
Qed.
Lemma seq_steps_visits ms : forall v q, snd (hseq_steps call ms v) = Ok q -> visits call false ms (fst (hseq_steps call ms v)).
Proof.
  induction ms as [|m t IH]; intros v q H; [constructor|]. cbn [hseq_steps] in *.
  destruct (stops v). { apply v_stop. reflexivity. }
  rewrite snd_mbind in H. rewrite fst_mbind.
  destruct (snd (call m v)) as [[w m']|e] eqn:E; [|discriminate]. cbn [bind] in H.
  rewrite snd_mbind in H. rewrite fst_mbind.
  destruct (snd (hseq_steps call t w)) as [[w2 t2]|e] eqn:E2; [|discriminate]. cbn [ret fst]. rewrite app_nil_r. econstructor; eauto.
Qed.
Lemma par_visits ms : forall l q, snd (hpar call ms l) = Ok q -> visits call true ms (fst (hpar call ms l)).
Proof.
  induction ms as [|m t IH]; intros [|v l] q H; [constructor..|discriminate|]. cbn [hpar] in *. rewrite snd_mbind in H. rewrite fst_mbind.
  destruct (snd (call m v)) as [[w m']|e] eqn:E; [|discriminate]. cbn [bind] in H. rewrite snd_mbind in H. rewrite fst_mbind.
  destruct (snd (hpar call t l)) as [[w2 t2]|e] eqn:E2; [|discriminate]. cbn [ret fst]. rewrite app_nil_r. econstructor; eauto.
Qed.
Lemma br_visits ms : forall v q, snd (hbr call ms v) = Ok q -> visits call true ms (fst (hbr call ms v)).
Proof.
  induction ms as [|m t IH]; intros v q H; [constructor|]. cbn [hbr] in *. rewrite snd_mbind in H. rewrite fst_mbind.
  destruct (snd (call m v)) as [[w m']|e] eqn:E; [|discriminate]. cbn [bind] in H. rewrite snd_mbind in H. rewrite fst_mbind.
  destruct (snd (hbr call t v)) as [[w2 t2]|e] eqn:E2; [|discriminate]. cbn [ret fst]. rewrite app_nil_r. econstructor; eauto.
Qed.
End Loops.
Lemma visits_weak call ms l : visits call true ms l -> visits call false ms l.
Proof. induction 1; [apply v_done|discriminate|]. eapply v_next; eauto. Qed.

(** *** At most once *)
Definition stepb (me : mode) : bool := match me with Fwd => false | _ => true end.
(** What one visit to module [j] records. *)
Definition shot (me : mode) (L : list nat) (j : nat) : list (bool * nat) :=
  if stepb me && existsb (Nat.eqb j) L then two (hk j) else one (hk j).

Lemma shot_same me L L' j : (In j L <-> In j L') -> shot me L j = shot me L' j.
Proof.
  intros H. unfold shot. enough (existsb (Nat.eqb j) L = existsb (Nat.eqb j) L') as -> by reflexivity.
  apply eq_iff_eq_true. rewrite !existsb_exists.
  split; intros (x & Hx & E); apply Nat.eqb_eq in E; subst x; exists j; (split; [apply H, Hx|apply Nat.eqb_refl]).
Qed.

Definition below (m : hmd F) : list nat := tl (ids m).
Lemma ids_hid (m : hmd F) : ids m = hid m :: below m.
Proof. destruct m; reflexivity. Qed.
Lemma converted_ids (m : hmd F) j : In j (converted m) -> In j (ids m).
Proof.
  revert j. induction m as [i fs lf|i ms IH|i ms IH|i ms r IH|i p D R a b IHa IHb] using hmd_ind'; intros j H.
  - cbn in *. destruct fs; [exact H|destruct H].
  - cbn [converted ids] in *. right. apply in_flat_map in H as (x & Hx & H). apply in_flat_map. exists x. split; [exact Hx|]. rewrite Forall_forall in IH. apply IH; assumption.
  - cbn [converted ids] in *. right. apply in_flat_map in H as (x & Hx & H). apply in_flat_map. exists x. split; [exact Hx|]. rewrite Forall_forall in IH. apply IH; assumption.
  - cbn [converted ids] in *. right. apply in_flat_map in H as (x & Hx & H). apply in_flat_map. exists x. split; [exact Hx|]. rewrite Forall_forall in IH. apply IH; assumption.
  - cbn [converted ids] in *. right. apply in_app_iff in H. apply in_app_iff. destruct H as [H|H]; [left; apply IHa, H|right]. destruct b; [apply IHb, H|exact H].
Qed.
Lemma rnns_ids (m : hmd F) j : In j (rnns m) -> In j (ids m).
Proof.
  revert j. induction m as [i fs lf|i ms IH|i ms IH|i ms r IH|i p D R a b IHa IHb] using hmd_ind'; intros j H.
  - cbn in *. destruct lf; solve [exact H|destruct H].
  - cbn [rnns ids] in *. right. apply in_flat_map in H as (x & Hx & H). apply in_flat_map. exists x. split; [exact Hx|]. rewrite Forall_forall in IH. apply IH; assumption.
  - cbn [rnns ids] in *. right. apply in_flat_map in H as (x & Hx & H). apply in_flat_map. exists x. split; [exact Hx|]. rewrite Forall_forall in IH. apply IH; assumption.
  - cbn [rnns ids] in *. right. apply in_flat_map in H as (x & Hx & H). apply in_flat_map. exists x. split; [exact Hx|]. rewrite Forall_forall in IH. apply IH; assumption.
  - cbn [rnns ids] in *. right. apply in_app_iff in H. apply in_app_iff. destruct H as [H|H]; [left; apply IHa, H|right]. destruct b; [apply IHb, H|exact H].
Qed.

Lemma NoDup_app_iff {A} (a b : list A) : NoDup (a ++ b) -> NoDup a /\ NoDup b /\ forall x, In x a -> ~ In x b.
Proof.
  induction a as [|x a IH]; cbn; intros H.
  - split; [constructor|]. split; [exact H|]. intros x [].
  - inversion H as [|? ? H1 H2]; subst. destruct (IH H2) as (Ha & Hb & Hd). split.
    + constructor; [|exact Ha]. intros Hx. apply H1, in_app_iff. left; exact Hx.
    + split; [exact Hb|]. intros y [<-|Hy]; [|apply Hd, Hy]. intros Hx. apply H1, in_app_iff. right; exact Hx.
Qed.

Definition quiet (me : mode) (L : list nat) (I : list nat) (l : list (event F)) : Prop :=
  forall j, (~ In j I -> seen j l = []) /\ (In j I -> seen j l = [] \/ seen j l = shot me L j).
Definition run_ok (me : mode) (m : hmd F) : Prop := forall v q, snd (hrun hk me m v) = Ok q ->
  quiet me (converted m) (below m) (fst (hrun hk me m v)).
Definition call_ok (me : mode) (m : hmd F) (call : val F -> M (F := F) (val F * hmd F)) : Prop := forall v q, snd (call v) = Ok q ->
  quiet me (converted m) (ids m) (fst (call v)).

Lemma below_converted (m : hmd F) j : j = hid m -> ~ In j (below m) -> In j (converted m) -> exists i lf, m = HLeaf i true lf.
Proof.
  intros -> Hb H. destruct m as [i fs lf|i ms|i ms|i ms r|i p D R a b]; cbn [converted below ids tl hid] in *.
  - destruct fs; [eauto|destruct H].
  - exfalso. apply Hb. apply in_flat_map in H as (x & Hx & H). apply in_flat_map. exists x. split; [exact Hx|]. apply converted_ids, H.
  - exfalso. apply Hb. apply in_flat_map in H as (x & Hx & H). apply in_flat_map. exists x. split; [exact Hx|]. apply converted_ids, H.
  - exfalso. apply Hb. apply in_flat_map in H as (x & Hx & H). apply in_flat_map. exists x. split; [exact Hx|]. apply converted_ids, H.
  - exfalso. apply Hb. apply in_app_iff in H. apply in_app_iff. destruct H as [H|H]; [left; apply converted_ids, H|right]. destruct b; [apply converted_ids, H|exact H].
Qed.

(** One call records the module's own hooks, and what its method records. *)
Lemma call_parts me (m : hmd F) v q : snd (call_with hk (hrun hk me) me m v) = Ok q ->
  exists w q0, snd (hrun hk me m w) = Ok q0 /\
  forall j, seen j (fst (call_with hk (hrun hk me) me m v)) =
    (if stepb me && match m with HLeaf _ true _ => true | _ => false end
     then at_ j (hid m) (pres (hk (hid m))) ++ at_ j (hid m) (pres (hk (hid m))) else at_ j (hid m) (pres (hk (hid m))))
    ++ seen j (fst (hrun hk me m w)) ++
    (if stepb me && match m with HLeaf _ true _ => true | _ => false end
     then at_ j (hid m) (posts (hk (hid m))) ++ at_ j (hid m) (posts (hk (hid m))) else at_ j (hid m) (posts (hk (hid m)))).
Proof.
  intros H.
  assert (ONE : forall i, snd (hooked hk i (hrun hk me m) v) = Ok q -> exists w q0, snd (hrun hk me m w) = Ok q0 /\
    forall j, seen j (fst (hooked hk i (hrun hk me m) v)) = at_ j i (pres (hk i)) ++ seen j (fst (hrun hk me m w)) ++ at_ j i (posts (hk i))).
  { intros i E. destruct (hooked_log _ _ _ _ E) as (w & q0 & H1 & _ & H2). exists w, q0. split; assumption. }
  destruct m as [i [|] lf|i ms|i ms|i ms r|i p D R a b]; destruct me as [|pe u|u]; cbn [stepb andb hid]; try (apply ONE, H).
  - cbn [call_with] in *. destruct (hooked_log _ _ _ _ H) as (w & q0 & H1 & _ & H2). destruct (hooked_log _ _ _ _ H1) as (w' & q1 & H3 & _ & H4).
    exists w', q1. split; [exact H3|]. intros j. rewrite H2, H4, <- !app_assoc. reflexivity.
  - cbn [call_with] in *. destruct (hooked_log _ _ _ _ H) as (w & q0 & H1 & _ & H2). destruct (hooked_log _ _ _ _ H1) as (w' & q1 & H3 & _ & H4).
    exists w', q1. split; [exact H3|]. intros j. rewrite H2, H4, <- !app_assoc. reflexivity.
Qed.

Lemma call_self me (m : hmd F) v q : NoDup (ids m) -> run_ok me m -> snd (call_with hk (hrun hk me) me m v) = Ok q ->
  seen (hid m) (fst (call_with hk (hrun hk me) me m v)) = shot me (converted m) (hid m).
Proof.
  intros ND HR H. destruct (call_parts _ _ _ _ H) as (w & q0 & E & Hs). rewrite Hs, !at_same.
  rewrite ids_hid in ND. inversion ND as [|? ? N1 N2]; subst.
  destruct (HR _ _ E (hid m)) as [Hq _]. rewrite (Hq N1). cbn [app].
  unfold shot, one, two.
  replace (existsb (Nat.eqb (hid m)) (converted m)) with (match m with HLeaf _ true _ => true | _ => false end).
  - destruct (stepb me && _); [|reflexivity]. unfold one. rewrite <- !app_assoc. reflexivity.
  - symmetry. destruct (existsb _ _) eqn:Ex.
    + apply existsb_exists in Ex as (x & Hx & Ee). apply Nat.eqb_eq in Ee. subst x.
      destruct (below_converted m _ eq_refl N1 Hx) as (i & lf & ->). reflexivity.
    + destruct m as [i [|] lf| | | |]; try reflexivity. cbn in Ex. rewrite Nat.eqb_refl in Ex. discriminate.
Qed.
Lemma call_other me (m : hmd F) v q j : j <> hid m -> snd (call_with hk (hrun hk me) me m v) = Ok q ->
  exists w q0, snd (hrun hk me m w) = Ok q0 /\ seen j (fst (call_with hk (hrun hk me) me m v)) = seen j (fst (hrun hk me m w)).
Proof.
  intros Hj H. destruct (call_parts _ _ _ _ H) as (w & q0 & E & Hs). exists w, q0. split; [exact E|]. rewrite Hs, !at_other by exact Hj.
  destruct (stepb me && _); cbn [app]; rewrite app_nil_r; reflexivity.
Qed.
Lemma call_run_ok me (m : hmd F) : NoDup (ids m) -> run_ok me m -> call_ok me m (call_with hk (hrun hk me) me m).
Proof.
  intros ND HR v q H j. destruct (Nat.eq_dec j (hid m)) as [->|Hj].
  - split; [intros N; exfalso; apply N; rewrite ids_hid; left; reflexivity|]. intros _. right. eapply call_self; eauto.
  - destruct (call_other _ _ _ _ _ Hj H) as (w & q0 & E & ->). destruct (HR _ _ E j) as [H1 H2]. rewrite ids_hid. split.
    + intros N. apply H1. intros Hb. apply N. right; exact Hb.
    + intros [<-|Hb]; [contradiction|]. apply H2, Hb.
Qed.
Lemma child_run_ok me (m : hmd F) : NoDup (ids m) -> run_ok me m -> call_ok me m (child_with hk (hrun hk me) me m).
Proof.
  intros ND HR v q H. unfold child_with in *.
  assert (D : (me = Fwd /\ is_rnn m = true) \/ (match me with Fwd => if is_rnn m then hrun hk me m v else call_with hk (hrun hk me) me m v | _ => call_with hk (hrun hk me) me m v end) = call_with hk (hrun hk me) me m v).
  { destruct me; [|right; reflexivity..]. destruct (is_rnn m); [left; split; reflexivity|right; reflexivity]. }
  destruct D as [[-> D]|D].
  - rewrite D in *. intros j. destruct (HR _ _ H j) as [H1 H2]. rewrite ids_hid. split.
    + intros N. apply H1. intros Hb. apply N. right; exact Hb.
    + intros [<-|Hb]; [|apply H2, Hb]. left. apply H1. rewrite ids_hid in ND. inversion ND; assumption.
  - rewrite D in *. eapply call_run_ok; eauto.
Qed.

Lemma visits_quiet me ms l : NoDup (flat_map ids ms) -> Forall (fun m => call_ok me m (child_with hk (hrun hk me) me m)) ms ->
  visits (child_with hk (hrun hk me) me) false ms l -> quiet me (flat_map converted ms) (flat_map ids ms) l.
Proof.
  intros ND HF HV. revert ND HF. induction HV as [|ms _|m t v q l E HV IH]; intros ND HF.
  - intros j. split; [reflexivity|intros []].
  - intros j. split; [reflexivity|]. intros _. left. reflexivity.
  - cbn [flat_map] in *. apply NoDup_app_iff in ND as (N1 & N2 & N3). inversion HF as [|? ? F1 F2]; subst.
    specialize (IH N2 F2). intros j. rewrite seen_app. destruct (F1 _ _ E j) as [A1 A2]. destruct (IH j) as [B1 B2]. split.
    + intros N. rewrite A1, B1; [reflexivity|..]; intros Hx; apply N, in_app_iff; [right|left]; exact Hx.
    + intros Hj. apply in_app_iff in Hj as [Hj|Hj].
      * rewrite B1 by (apply N3, Hj). rewrite app_nil_r. destruct (A2 Hj) as [-> | ->]; [left; reflexivity|right].
        apply shot_same. split; intros Hc; [apply in_app_iff; left; exact Hc|]. apply in_app_iff in Hc as [Hc|Hc]; [exact Hc|].
        exfalso. apply (N3 j Hj). apply in_flat_map in Hc as (x & Hx & Hc). apply in_flat_map. exists x. split; [exact Hx|]. apply converted_ids, Hc.
      * rewrite A1 by (intros Hx; apply (N3 j Hx Hj)). cbn [app]. destruct (B2 Hj) as [-> | ->]; [left; reflexivity|right].
        apply shot_same. split; intros Hc; [apply in_app_iff; right; exact Hc|]. apply in_app_iff in Hc as [Hc|Hc]; [|exact Hc].
        exfalso. apply (N3 j); [apply converted_ids, Hc|exact Hj].
Qed.

Lemma NoDup_child ms (m : hmd F) : NoDup (flat_map ids ms) -> In m ms -> NoDup (ids m).
Proof.
  induction ms as [|x t IH]; intros ND []; cbn [flat_map] in ND; apply NoDup_app_iff in ND as (N1 & N2 & _); [subst; exact N1|apply IH; assumption].
Qed.
Lemma quiet_sub me (m : hmd F) L I I' l : quiet me (converted m) I l -> (forall j, In j I -> (In j L <-> In j (converted m))) ->
  (forall j, In j I -> In j I') -> quiet me L I' l.
Proof.
  intros Q HL HI j. destruct (Q j) as [Q1 Q2]. split.
  - intros N. apply Q1. intros H. apply N, HI, H.
  - intros H. destruct (in_dec Nat.eq_dec j I) as [Hi|Hi].
    + destruct (Q2 Hi) as [-> | ->]; [left; reflexivity|right]. apply shot_same. symmetry. apply HL, Hi.
    + left. apply Q1, Hi.
Qed.

Theorem run_log (m : hmd F) : NoDup (ids m) -> forall me, run_ok me m.
Proof.
  induction m as [i fs lf|i ms IH|i ms IH|i ms r IH|i p D R a b IHa IHb] using hmd_ind'; intros ND me v q H.
  - cbn [hrun ret fst]. intros j. split; [reflexivity|]. intros [].
  - assert (HF : forall me, Forall (fun m => call_ok me m (child_with hk (hrun hk me) me m)) ms).
    { intros me'. apply Forall_forall. intros x Hx. rewrite Forall_forall in IH. cbn [ids] in ND. inversion ND as [|? ? _ N2]; subst.
      assert (Nx := NoDup_child _ _ N2 Hx). apply child_run_ok; [exact Nx|]. apply IH; assumption. }
    cbn [ids] in ND. inversion ND as [|? ? _ N2]; subst.
    cbn [hrun] in *. rewrite snd_mbind in H. rewrite fst_mbind. match type of H with context [bind ?x _] => destruct x as [[w l]|e] eqn:E; [|discriminate] end. cbn [ret fst].
    rewrite app_nil_r. cbn [converted below ids tl]. apply visits_quiet; [exact N2|apply HF|].
    destruct me; [apply visits_weak; eapply seq_fwd_visits; eauto|eapply seq_steps_visits; eauto|eapply seq_step_visits; eauto].
  - assert (HF : forall me, Forall (fun m => call_ok me m (child_with hk (hrun hk me) me m)) ms).
    { intros me'. apply Forall_forall. intros x Hx. rewrite Forall_forall in IH. cbn [ids] in ND. inversion ND as [|? ? _ N2]; subst.
      assert (Nx := NoDup_child _ _ N2 Hx). apply child_run_ok; [exact Nx|]. apply IH; assumption. }
    cbn [ids] in ND. inversion ND as [|? ? _ N2]; subst.
    cbn [hrun] in *. destruct v as [|x|xs|vs]; try discriminate. rewrite snd_mbind in H. rewrite fst_mbind. match type of H with context [bind ?x _] => destruct x as [[w l]|e] eqn:E; [|discriminate] end. cbn [ret fst].
    rewrite app_nil_r. cbn [converted below ids tl]. apply visits_quiet; [exact N2|apply HF|]. apply visits_weak. eapply par_visits; eauto.
  - assert (HF : forall me, Forall (fun m => call_ok me m (child_with hk (hrun hk me) me m)) ms).
    { intros me'. apply Forall_forall. intros x Hx. rewrite Forall_forall in IH. cbn [ids] in ND. inversion ND as [|? ? _ N2]; subst.
      assert (Nx := NoDup_child _ _ N2 Hx). apply child_run_ok; [exact Nx|]. apply IH; assumption. }
    cbn [ids] in ND. inversion ND as [|? ? _ N2]; subst.
    cbn [hrun] in *. rewrite snd_mbind in H. rewrite fst_mbind. match type of H with context [bind ?x _] => destruct x as [[w l]|e] eqn:E; [|discriminate] end. cbn [ret fst].
    rewrite app_nil_r. cbn [converted below ids tl]. apply visits_quiet; [exact N2|apply HF|]. apply visits_weak. eapply br_visits; eauto.
  - cbn [ids] in ND. inversion ND as [|? ? _ N2]; subst. apply NoDup_app_iff in N2 as (Na & Nb & Nd).
    specialize (IHa Na). cbn [hrun] in *. destruct (p v).
    + rewrite snd_mbind in H. rewrite fst_mbind. match type of H with context [bind ?x _] => destruct x as [[w l]|e] eqn:E; [|discriminate] end. cbn [ret fst]. rewrite app_nil_r.
      apply (quiet_sub me a _ (ids a)).
      * destruct me.
        -- eapply child_run_ok; eauto.
        -- intros j. destruct (IHa (Steps false true) _ _ E j) as [H1 H2]. rewrite ids_hid in Na |- *. inversion Na as [|? ? A1 A2]; subst. split.
           ++ intros N. apply H1. intros Hb. apply N. right; exact Hb.
           ++ intros [<-|Hb]; [left; apply H1, A1|apply H2, Hb].
        -- intros j. destruct (IHa (Step upd) _ _ E j) as [H1 H2]. rewrite ids_hid in Na |- *. inversion Na as [|? ? A1 A2]; subst. split.
           ++ intros N. apply H1. intros Hb. apply N. right; exact Hb.
           ++ intros [<-|Hb]; [left; apply H1, A1|apply H2, Hb].
      * intros j Hj. cbn [converted]. rewrite in_app_iff. split; [|intros Hc; left; exact Hc]. intros [Hc|Hc]; [exact Hc|].
        exfalso. apply (Nd j Hj). destruct b; [apply converted_ids, Hc|exact Hc].
      * intros j Hj. cbn [below ids tl]. apply in_app_iff. left; exact Hj.
    + destruct b as [c|]. 2:{ cbn [ret fst]. intros j. split; [reflexivity|]. intros _. left; reflexivity. }
      specialize (IHb Nb). rewrite snd_mbind in H. rewrite fst_mbind. match type of H with context [bind ?x _] => destruct x as [[w l]|e] eqn:E; [|discriminate] end. cbn [ret fst]. rewrite app_nil_r.
      apply (quiet_sub me c _ (ids c)).
      * destruct me.
        -- eapply child_run_ok; eauto.
        -- intros j. destruct (IHb (Steps false true) _ _ E j) as [H1 H2]. rewrite ids_hid in Nb |- *. inversion Nb as [|? ? A1 A2]; subst. split.
           ++ intros N. apply H1. intros Hb. apply N. right; exact Hb.
           ++ intros [<-|Hb]; [left; apply H1, A1|apply H2, Hb].
        -- intros j. destruct (IHb (Step upd) _ _ E j) as [H1 H2]. rewrite ids_hid in Nb |- *. inversion Nb as [|? ? A1 A2]; subst. split.
           ++ intros N. apply H1. intros Hb. apply N. right; exact Hb.
           ++ intros [<-|Hb]; [left; apply H1, A1|apply H2, Hb].
      * intros j Hj. cbn [converted]. rewrite in_app_iff. split; [|intros Hc; right; exact Hc]. intros [Hc|Hc]; [|exact Hc].
        exfalso. apply (Nd j); [apply converted_ids, Hc|exact Hj].
      * intros j Hj. cbn [below ids tl]. apply in_app_iff. right; exact Hj.
Qed.

Theorem call_log (m : hmd F) me v q : NoDup (ids m) -> snd (hcall hk me m v) = Ok q ->
  forall j, (~ In j (ids m) -> seen j (fst (hcall hk me m v)) = []) /\
            (In j (ids m) -> ~ (me <> Fwd /\ In j (converted m)) ->
               seen j (fst (hcall hk me m v)) = one (hk j) \/ (j <> hid m /\ seen j (fst (hcall hk me m v)) = [])) /\
            (me <> Fwd -> In j (converted m) ->
               seen j (fst (hcall hk me m v)) = two (hk j) \/ (j <> hid m /\ seen j (fst (hcall hk me m v)) = [])).
Proof.
  intros ND H j. unfold hcall in *. destruct (call_run_ok me m ND (run_log m ND me) v q H j) as [H1 H2].
  assert (S1 : ~ (me <> Fwd /\ In j (converted m)) -> shot me (converted m) j = one (hk j)).
  { intros N. unfold shot. destruct (stepb me && existsb _ _) eqn:E; [|reflexivity]. exfalso. apply N. apply andb_true_iff in E as [E1 E2].
    split; [intros ->; discriminate|]. apply existsb_exists in E2 as (x & Hx & E2). apply Nat.eqb_eq in E2. subst x. exact Hx. }
  assert (S2 : me <> Fwd -> In j (converted m) -> shot me (converted m) j = two (hk j)).
  { intros N1 N2. unfold shot. replace (stepb me && existsb (Nat.eqb j) (converted m)) with true; [reflexivity|]. symmetry. apply andb_true_iff. split.
    - destruct me; [contradiction|reflexivity..].
    - apply existsb_exists. exists j. split; [exact N2|apply Nat.eqb_refl]. }
  assert (S3 : j = hid m -> seen j (fst (call_with hk (hrun hk me) me m v)) = shot me (converted m) j).
  { intros ->. eapply call_self; eauto. apply run_log, ND. }
  split; [exact H1|split].
  - intros Hj N. rewrite <- (S1 N). destruct (Nat.eq_dec j (hid m)) as [Ej|Ej]; [left; apply S3, Ej|]. destruct (H2 Hj) as [E|E]; [right; split; assumption|left; exact E].
  - intros N Hc. rewrite <- (S2 N Hc). destruct (Nat.eq_dec j (hid m)) as [Ej|Ej]; [left; apply S3, Ej|].
    destruct (H2 (converted_ids _ _ Hc)) as [E|E]; [right; split; assumption|left; exact E].
Qed.

(** *** forward runs them all *)
Definition full (m : hmd F) (j : nat) (l : list (bool * nat)) : Prop :=
  (In j (rnns m) -> l = []) /\ (~ In j (rnns m) -> l = one (hk j)).
Definition fwd_ok (m : hmd F) : Prop := forall v q, snd (hrun hk Fwd m v) = Ok q -> forall j, In j (below m) ->
  full m j (seen j (fst (hrun hk Fwd m v))).

Lemma child_full (m : hmd F) : NoDup (ids m) -> fwd_ok m -> forall v q, snd (child_with hk (hrun hk Fwd) Fwd m v) = Ok q ->
  forall j, In j (ids m) -> full m j (seen j (fst (child_with hk (hrun hk Fwd) Fwd m v))).
Proof.
  intros ND HF v q H j Hj. unfold child_with in *. destruct (is_rnn m) eqn:ER.
  - destruct m as [i fs lf| | | |]; try discriminate. destruct lf; try discriminate. cbn [ids In] in Hj. destruct Hj as [<-|[]].
    cbn [hrun ret fst]. split; [reflexivity|]. intros N. exfalso. apply N. left; reflexivity.
  - destruct (Nat.eq_dec j (hid m)) as [->|Hn].
    + rewrite (call_self Fwd m v q ND (run_log m ND Fwd) H). split; [|intros _; reflexivity].
      intros Hr. exfalso. rewrite ids_hid in ND. inversion ND as [|? ? N1 N2]; subst.
      destruct m as [i fs lf|i ms|i ms|i ms r|i p D R a b]; cbn [rnns below ids tl hid] in *.
      * destruct lf; solve [discriminate|destruct Hr].
      * apply N1. apply in_flat_map in Hr as (x & Hx & Hr). apply in_flat_map. exists x. split; [exact Hx|]. apply rnns_ids, Hr.
      * apply N1. apply in_flat_map in Hr as (x & Hx & Hr). apply in_flat_map. exists x. split; [exact Hx|]. apply rnns_ids, Hr.
      * apply N1. apply in_flat_map in Hr as (x & Hx & Hr). apply in_flat_map. exists x. split; [exact Hx|]. apply rnns_ids, Hr.
      * apply N1. apply in_app_iff in Hr. apply in_app_iff. destruct Hr as [Hr|Hr]; [left; apply rnns_ids, Hr|right]. destruct b; [apply rnns_ids, Hr|exact Hr].
    + destruct (call_other _ _ _ _ _ Hn H) as (w & q0 & E & ->). apply (HF _ _ E). rewrite ids_hid in Hj. destruct Hj as [Hj|Hj]; [congruence|exact Hj].
Qed.
Lemma visits_full ms l : NoDup (flat_map ids ms) ->
  Forall (fun m => NoDup (ids m) -> fwd_ok m) ms ->
  visits (child_with hk (hrun hk Fwd) Fwd) true ms l -> forall j, In j (flat_map ids ms) ->
  (In j (flat_map rnns ms) -> seen j l = []) /\ (~ In j (flat_map rnns ms) -> seen j l = one (hk j)).
Proof.
  intros ND HF HV. revert ND HF. induction HV as [|ms HD|m t v q l E HV IH]; intros ND HF j Hj; [destruct Hj|discriminate|].
  cbn [flat_map] in *. assert (ND' := ND). apply NoDup_app_iff in ND as (N1 & N2 & N3). inversion HF as [|? ? F1 F2]; subst. specialize (IH N2 F2 j). rewrite seen_app.
  assert (QF : call_ok Fwd m (child_with hk (hrun hk Fwd) Fwd m)) by (apply child_run_ok; [exact N1|apply run_log, N1]).
  assert (QT : quiet Fwd (flat_map converted t) (flat_map ids t) l).
  { apply visits_quiet; [exact N2| |apply visits_weak, HV]. apply Forall_forall. intros x Hx. apply child_run_ok; [|apply run_log]; eapply NoDup_child; eauto. }
  apply in_app_iff in Hj as [Hj|Hj].
  - destruct (QT j) as [Q1 _]. rewrite Q1 by (apply N3, Hj). rewrite app_nil_r. destruct (child_full m N1 (F1 N1) _ _ E j Hj) as [A B]. split.
    + intros Hr. apply A. apply in_app_iff in Hr as [Hr|Hr]; [exact Hr|]. exfalso. apply (N3 j Hj). apply in_flat_map in Hr as (x & Hx & Hr). apply in_flat_map. exists x. split; [exact Hx|]. apply rnns_ids, Hr.
    + intros Hr. apply B. intros Hc. apply Hr, in_app_iff. left; exact Hc.
  - destruct (QF _ _ E j) as [Q1 _]. rewrite Q1 by (intros Hx; apply (N3 j Hx Hj)). cbn [app]. destruct (IH Hj) as [A B]. split.
    + intros Hr. apply A. apply in_app_iff in Hr as [Hr|Hr]; [|exact Hr]. exfalso. apply (N3 j); [apply rnns_ids, Hr|exact Hj].
    + intros Hr. apply B. intros Hc. apply Hr, in_app_iff. right; exact Hc.
Qed.
Theorem run_full (m : hmd F) : no_cond m = true -> NoDup (ids m) -> fwd_ok m.
Proof.
  induction m as [i fs lf|i ms IH|i ms IH|i ms r IH|i p D R a b IHa IHb] using hmd_ind'; intros NC ND v q H j Hj; [destruct Hj|..|discriminate].
  - cbn [ids no_cond below tl] in *. inversion ND as [|? ? _ N2]; subst.
    cbn [hrun] in *. rewrite snd_mbind in H. rewrite fst_mbind. match type of H with context [bind ?x _] => destruct x as [[w l]|e] eqn:E; [|discriminate] end. cbn [ret fst]. rewrite app_nil_r.
    refine (visits_full ms _ N2 _ (seq_fwd_visits _ _ _ _ E) j Hj). rewrite forallb_forall in NC. rewrite Forall_forall in IH. apply Forall_forall. intros x Hx. apply IH; [exact Hx|apply NC, Hx].
  - cbn [ids no_cond below tl] in *. inversion ND as [|? ? _ N2]; subst.
    cbn [hrun] in *. destruct v as [|x|xs|vs]; try discriminate. rewrite snd_mbind in H. rewrite fst_mbind. match type of H with context [bind ?x _] => destruct x as [[w l]|e] eqn:E; [|discriminate] end. cbn [ret fst]. rewrite app_nil_r.
    refine (visits_full ms _ N2 _ (par_visits _ _ _ _ E) j Hj). rewrite forallb_forall in NC. rewrite Forall_forall in IH. apply Forall_forall. intros x Hx. apply IH; [exact Hx|apply NC, Hx].
  - cbn [ids no_cond below tl] in *. inversion ND as [|? ? _ N2]; subst.
    cbn [hrun] in *. rewrite snd_mbind in H. rewrite fst_mbind. match type of H with context [bind ?x _] => destruct x as [[w l]|e] eqn:E; [|discriminate] end. cbn [ret fst]. rewrite app_nil_r.
    refine (visits_full ms _ N2 _ (br_visits _ _ _ _ E) j Hj). rewrite forallb_forall in NC. rewrite Forall_forall in IH. apply Forall_forall. intros x Hx. apply IH; [exact Hx|apply NC, Hx].
Qed.
Theorem call_full (m : hmd F) v q : no_cond m = true -> NoDup (ids m) -> snd (hcall hk Fwd m v) = Ok q -> forall j, In j (ids m) ->
  (j = hid m \/ ~ In j (rnns m) -> seen j (fst (hcall hk Fwd m v)) = one (hk j)) /\
  (j <> hid m -> In j (rnns m) -> seen j (fst (hcall hk Fwd m v)) = []).
Proof.
  intros NC ND H j Hj. unfold hcall in *. destruct (Nat.eq_dec j (hid m)) as [Ej|Ej].
  - split; [|intros N; contradiction]. intros _. subst j. rewrite (call_self Fwd m v q ND (run_log m ND Fwd) H). reflexivity.
  - destruct (call_other _ _ _ _ _ Ej H) as (w & q0 & E & ->).
    destruct (run_full m NC ND _ _ E j) as [A B]. { rewrite ids_hid in Hj. destruct Hj as [Hj|Hj]; [congruence|exact Hj]. }
    split; [|intros _; exact A]. intros [N|N]; [contradiction|apply B, N].
Qed.
End Log.
