(** Call histories, peeking, snapshots and mode switches on the heap. *)
From Coq Require Import List ZArith Bool Arith Lia.
From Verif Require Import Base Frames CoMod Leaf Rnn Net Spec NetSpec Calls Heap HeapSpec HeapProof HeapNet.
Import ListNotations.

Section HeapThm.
Context {F : Type} {FA : Frames F} {FL : FrameLaws F}.
Implicit Types h : heap F.

Lemma moved_trans R R1 R2 h h1 h2 : moved R R1 h h1 -> moved R1 R2 h1 h2 -> moved R R2 h h2.
Proof.
  intros [S1 [F1 T1]] [S2 [F2 T2]]. unfold moved. conjs; auto.
  - intros r I. destruct (F2 r I) as [J|L]; [apply F1; auto|]. destruct T1. right. lia.
  - eapply touch_trans; eauto. intros r L I. destruct (F1 r I); auto. lia.
Qed.

(* ------------------------------------------------------------------ *)
(** ** clean_state, train, construction *)

Lemma new_moved (B : Type) (BF : Buf F B) (BO : BufOk F B) k R h h1 o :
  (forall c, kind_of c = k <-> exists l : list B, c = wrap l) ->
  h_ref o = length h -> valid (B := B) h1 o -> touch none h h1 ->
  moved R [(h_ref o, k)] h h1.
Proof.
  intros Hk E V T. unfold moved. conjs.
  - apply (valid_sep B BF BO); auto.
  - intros r [<-|[]]. simpl. right. lia.
  - apply touch_none_any, T.
Qed.

Lemma clean_obj (B : Type) (BF : Buf F B) (BO : BufOk F B) h o h1 :
  hobj_clean (B := B) h = (o, h1) ->
  h_ref o = length h /\ valid (B := B) h1 o /\ obj_of (B := B) h1 o = Obj [] 0 0 /\ touch none h h1.
Proof.
  intros E. destruct (hobj_new_ok (B := B) h (Obj [] 0 0) o h1) as [A1 [A2 [A3 [A4 _]]]].
  - exact E.
  - auto.
Qed.

Lemma hmap_ok (f : hmd F -> heap F -> hmd F * heap F) (g : md F -> md F) ms :
  Forall (fun m => forall h m' h', separate h m -> f m h = (m', h') ->
            view h' m' = g (view h m) /\ moved (refs m) (refs m') h h') ms ->
  forall h ms' h', sepR h (flat_map refs ms) -> hmap f ms h = (ms', h') ->
  map (view h') ms' = map g (map (view h) ms) /\ moved (flat_map refs ms) (flat_map refs ms') h h'.
Proof.
  induction 1 as [|m t Hm Ht IH]; intros h ms' h' S E; simpl in E.
  - inversion E; subst. split; auto. apply moved_refl; auto.
  - destruct (f m h) as [m1 h1] eqn:E1. destruct (hmap f t h1) as [t2 h2] eqn:E2.
    inversion E; subst. cbn [flat_map] in S. pose proof S as S0.
    apply sepR_app in S0. destruct S0 as [S1 [S2 D]].
    destruct (Hm h m1 h1 S1 E1) as [V1 M1]. pose proof (moved_rest _ _ _ _ _ S M1) as A.
    destruct (IH h1 t2 h' (agree_sep _ _ _ S2 A) E2) as [V2 M2].
    split.
    + cbn [map]. f_equal.
      * rewrite <- V1. apply view_agree. eapply moved_first; eauto.
      * rewrite V2. f_equal. apply views_agree; auto.
    + cbn [flat_map]. eapply moved_app; eauto.
Qed.

Lemma hclean_ok m : forall h m' h', separate h m -> hclean m h = (m', h') ->
  view h' m' = clean (view h m) /\ moved (refs m) (refs m') h h'.
Proof.
  induction m using hmd_ind'; intros h m' h' S E; rewrite separate_sepR in S;
    cbn [hclean] in E; cbn [refs] in S.
  - destruct (hobj_clean h) as [o' h1] eqn:E1. inversion E; subst.
    apply clean_obj in E1; [|exact _]. destruct E1 as [A1 [A2 [A3 A4]]].
    split; [cbn [view clean]; rewrite A3; reflexivity|]. eapply (new_moved _ _ _ _ _ _ _ _ kind_frames); eauto.
  - inversion E; subst. split; auto. apply moved_refl; auto.
  - destruct (hobj_clean h) as [o' h1] eqn:E1. inversion E; subst.
    apply clean_obj in E1; [|exact _]. destruct E1 as [A1 [A2 [A3 A4]]].
    split; [cbn [view clean]; rewrite A3; reflexivity|]. eapply (new_moved _ _ _ _ _ _ _ _ kind_rows); eauto.
  - destruct (hobj_clean h) as [o' h1] eqn:E1. inversion E; subst.
    apply clean_obj in E1; [|exact _]. destruct E1 as [A1 [A2 [A3 A4]]].
    split; [cbn [view clean]; rewrite A3; reflexivity|]. eapply (new_moved _ _ _ _ _ _ _ _ kind_frames); eauto.
  - inversion E; subst. split; auto. apply moved_refl; auto.
  - inversion E; subst. split; auto. apply moved_refl; auto.
  - destruct (hmap hclean ms h) as [ms' h1] eqn:E1. inversion E; subst.
    destruct (hmap_ok _ clean _ H _ _ _ S E1) as [V M]. split; auto. cbn [view clean]. f_equal; auto.
  - inversion E; subst. split; auto. apply moved_refl; auto.
  - destruct (hmap hclean ms h) as [ms' h1] eqn:E1. inversion E; subst.
    destruct (hmap_ok _ clean _ H _ _ _ S E1) as [V M]. split; auto. cbn [view clean]. f_equal; auto.
  - inversion E; subst. split; auto. apply moved_refl; auto.
  - inversion E; subst. split; auto. apply moved_refl; auto.
  - destruct (hmap hclean ms h) as [ms' h1] eqn:E1. inversion E; subst.
    destruct (hmap_ok _ clean _ H _ _ _ S E1) as [V M]. split; auto. cbn [view clean]. f_equal; auto.
  - inversion E; subst. split; auto. apply moved_refl; auto.
Qed.

Lemma htrain_ok b m : (forall h, view h (htrain b m) = view h m) /\ refs (htrain b m) = refs m.
Proof.
  assert (L : forall ms, Forall (fun m => (forall h, view h (htrain b m) = view h m) /\ refs (htrain b m) = refs m) ms ->
    (forall h, map (view h) (map (htrain b) ms) = map (view h) ms) /\
    flat_map refs (map (htrain b) ms) = flat_map refs ms).
  { induction 1 as [|a t [V R] Ht [IV IR]]; simpl; auto. split; [intros h; f_equal; auto|].
    rewrite R, IR. reflexivity. }
  induction m using hmd_ind'; cbn [htrain view refs]; auto;
    try (destruct (L ms H) as [V R]; split; [intros h; f_equal; auto|auto]).
  destruct IHm as [V R']. split.
  - intros h. rewrite V. f_equal. destruct b0 as [b1|]; simpl; auto. f_equal. apply (H b1); auto.
  - rewrite R'. f_equal. destruct b0 as [b1|]; simpl; auto. apply (H b1); auto.
Qed.

Lemma htrain_flags b (m : hmd F) : conv_flags (htrain b m) = map (fun _ => b) (conv_flags m).
Proof.
  assert (L : forall ms : list (hmd F), Forall (fun m => conv_flags (htrain b m) = map (fun _ => b) (conv_flags m)) ms ->
    flat_map conv_flags (map (htrain b) ms) = map (fun _ => b) (flat_map conv_flags ms)).
  { induction 1 as [|a t V Ht IH]; simpl; auto. rewrite map_app, V, IH. reflexivity. }
  induction m using hmd_ind'; cbn [htrain conv_flags]; auto.
  rewrite map_app, IHm. f_equal. destruct b0 as [b1|]; simpl; auto.
Qed.
Lemma train_reaches b (m : hmd F) : conv_flags (htrain b m) = map (fun _ => b) (conv_flags m) /\ forall h, view h (htrain b m) = view h m.
Proof. split; [apply htrain_flags|apply htrain_ok]. Qed.

Lemma place_ok tr m : forall h m' h', place tr m h = (m', h') ->
  view h' m' = m /\ moved [] (refs m') h h'.
Proof.
  assert (N : forall h, sepR h ([] : list (nat * kind))).
  { intros h. split; [constructor|]. simpl; tauto. }
  assert (App : forall R1 R2 h h1 h2, moved [] R1 h h1 -> moved [] R2 h1 h2 ->
                agree h1 h2 R1 /\ moved [] (R1 ++ R2) h h2).
  { intros R1 R2 h h1 h2 M1 M2. split.
    - eapply (moved_first [] []); eauto.
    - apply (moved_app [] [] R1 R2 h h1 h2); auto. }
  assert (L : forall ms, (forall m, In m ms -> forall h m' h', place tr m h = (m', h') ->
                 view h' m' = m /\ moved [] (refs m') h h') ->
     forall h ms' h', hmap2 (place tr) ms h = (ms', h') ->
     map (view h') ms' = ms /\ moved [] (flat_map refs ms') h h').
  { induction ms as [|m0 t IH]; intros Hm h ms' h' E; simpl in E.
    - inversion E; subst. split; auto. apply moved_refl; auto.
    - destruct (place tr m0 h) as [m1 h1] eqn:E1. destruct (hmap2 (place tr) t h1) as [t2 h2] eqn:E2.
      inversion E; subst.
      destruct (Hm m0 (or_introl eq_refl) _ _ _ E1) as [V1 M1].
      destruct (IH (fun m I => Hm m (or_intror I)) _ _ _ E2) as [V2 M2].
      destruct (App _ _ _ _ _ M1 M2) as [A M]. split; auto.
      cbn [map]. f_equal; auto. transitivity (view h1 m1); [apply view_agree; auto|exact V1]. }
  revert m. fix IH 1. intros m.
  assert (LL : forall ms : list (md F), (forall m, In m ms -> forall h m' h', place tr m h = (m', h') ->
                 view h' m' = m /\ moved [] (refs m') h h') -> True) by auto.
  assert (I : forall ms : list (md F), Forall (fun m => forall h m' h', place tr m h = (m', h') ->
                 view h' m' = m /\ moved [] (refs m') h h') ms).
  { fix I 1. intros [|a t]; constructor; [apply IH|apply I]. }
  destruct m; intros h m' h' E; cbn [place] in E.
  - destruct (hobj_new o h) as [o' h1] eqn:E1. inversion E; subst.
    apply hobj_new_ok in E1. destruct E1 as [A1 [A2 [A3 [A4 _]]]].
    split; [cbn [view]; rewrite A3; reflexivity|]. eapply (new_moved _ _ _ _ _ _ _ _ kind_frames); eauto.
  - inversion E; subst. split; auto. apply moved_refl; auto.
  - destruct (hobj_new o h) as [o' h1] eqn:E1. inversion E; subst.
    apply hobj_new_ok in E1. destruct E1 as [A1 [A2 [A3 [A4 _]]]].
    split; [cbn [view]; rewrite A3; reflexivity|]. eapply (new_moved _ _ _ _ _ _ _ _ kind_rows); eauto.
  - destruct (hobj_new o h) as [o' h1] eqn:E1. inversion E; subst.
    apply hobj_new_ok in E1. destruct E1 as [A1 [A2 [A3 [A4 _]]]].
    split; [cbn [view]; rewrite A3; reflexivity|]. eapply (new_moved _ _ _ _ _ _ _ _ kind_frames); eauto.
  - inversion E; subst. split; auto. apply moved_refl; auto.
  - inversion E; subst. split; auto. apply moved_refl; auto.
  - destruct (hmap2 (place tr) ms h) as [ms' h1] eqn:E1. inversion E; subst.
    destruct (L ms (proj1 (Forall_forall _ _) (I ms)) _ _ _ E1) as [V M]. split; auto. cbn [view]. f_equal; auto.
  - inversion E; subst. split; auto. apply moved_refl; auto.
  - destruct (hmap2 (place tr) ms h) as [ms' h1] eqn:E1. inversion E; subst.
    destruct (L ms (proj1 (Forall_forall _ _) (I ms)) _ _ _ E1) as [V M]. split; auto. cbn [view]. f_equal; auto.
  - inversion E; subst. split; auto. apply moved_refl; auto.
  - inversion E; subst. split; auto. apply moved_refl; auto.
  - destruct (hmap2 (place tr) ms h) as [ms' h1] eqn:E1. inversion E; subst.
    destruct (L ms (proj1 (Forall_forall _ _) (I ms)) _ _ _ E1) as [V M]. split; auto. cbn [view]. f_equal; auto.
  - destruct (place tr m h) as [a' h1] eqn:E1. pose proof (IH m _ _ _ E1) as [V1 M1].
    destruct b as [b0|].
    + destruct (place tr b0 h1) as [b' h2] eqn:E2. pose proof (IH b0 _ _ _ E2) as [V2 M2].
      inversion E; subst. destruct (App _ _ _ _ _ M1 M2) as [A M]. split; auto.
      cbn [view option_map]. f_equal. apply view_agree; auto.
    + inversion E; subst. cbn [view refs option_map]. rewrite app_nil_r. auto.
Qed.

(* ------------------------------------------------------------------ *)
(** ** Histories *)

Lemma hdo_ok m c h : separate h m ->
  match c with
  | HTrain b => hdo m c h = Ok (VNone, htrain b m, h)
  | HCall c' => one_ok h m (do_call (view h m) c') (hdo m c h)
  end.
Proof.
  intros S. destruct c as [[v upd|v pe upd|v|]|b]; cbn [hdo do_call]; auto.
  - apply hstep_ok; auto.
  - apply hsteps_ok; auto.
  - destruct (fwd (view h m) v); simpl; auto. split; auto. split; auto. apply moved_refl; auto.
  - destruct (hclean m h) as [m' h'] eqn:E. destruct (hclean_ok m h m' h' S E) as [V M].
    simpl. auto.
Qed.

Theorem hrun_ok cs : forall m h, separate h m ->
  one_ok h m (run_calls (view h m) (calls_of cs)) (hrun m cs h).
Proof.
  induction cs as [|c t IH]; intros m h S.
  - simpl. split; auto. split; auto. apply moved_refl; auto.
  - pose proof (hdo_ok m c h S) as K. cbn [hrun]. destruct c as [c|b].
    + cbn [calls_of run_calls]. unfold one_ok, net_ok in K.
      destruct (do_call (view h m) c) as [[w mv]|e]; destruct (hdo m (HCall c) h) as [[[w' m1] h1]|e'];
        simpl; try tauto.
      destruct K as [-> [-> M]]. specialize (IH m1 h1 (proj1 M)). unfold one_ok, net_ok in IH.
      destruct (run_calls (view h1 m1) (calls_of t)) as [[ws mv]|e]; destruct (hrun m1 t h1) as [[[ws' m2] h2]|e'];
        simpl; try tauto.
      destruct IH as [-> [-> M2]]. split; auto. split; auto. eapply moved_trans; eauto.
    + rewrite K. cbn [bind calls_of]. destruct (htrain_ok b m) as [V R].
      assert (S' : separate h (htrain b m)) by (rewrite separate_sepR, R; exact S).
      specialize (IH (htrain b m) h S'). rewrite V in IH. unfold one_ok, net_ok in *.
      destruct (run_calls (view h m) (calls_of t)) as [[ws mv]|e]; destruct (hrun (htrain b m) t h) as [[[ws' m2] h2]|e'];
        simpl; try tauto.
      destruct IH as [-> [-> M2]]. split; auto. split; auto. rewrite R in M2. exact M2.
Qed.

Theorem heap_refines m h cs : separate h m ->
  (forall ws m' h', hrun m cs h = Ok (ws, m', h') ->
     run_calls (view h m) (calls_of cs) = Ok (ws, view h' m') /\ separate h' m' /\
     others_preserved m h h') /\
  (forall e, hrun m cs h = Err e <-> run_calls (view h m) (calls_of cs) = Err e).
Proof.
  intros S. pose proof (hrun_ok cs m h S) as K. unfold one_ok, net_ok in K.
  destruct (run_calls (view h m) (calls_of cs)) as [[ws mv]|e]; destruct (hrun m cs h) as [[[ws' m2] h2]|e'];
    try tauto.
  - destruct K as [-> [-> M]]. split; [|intros e; split; discriminate].
    intros ws m' h' E. inversion E; subst. split; auto. split; [apply M|].
    intros r c N D. destruct M as [_ [_ [_ T]]]. apply T; auto.
  - subst. split; [discriminate|]. intros e. split; congruence.
Qed.

Theorem place_separate tr m h m' h' : place tr m h = (m', h') ->
  separate h' m' /\ view h' m' = m /\ preserved h h' /\
  (forall n, separate h n -> separate h' n /\ view h' n = view h n /\
             forall r, In r (own n) -> ~ In r (own m')).
Proof.
  intros E. destruct (place_ok tr m h m' h' E) as [V M]. pose proof M as [S [Fr T]].
  split; auto. split; auto. split.
  - intros r c N. apply T; auto.
  - intros n Sn.
    assert (A : agree h h' (refs n)) by (eapply touch_agree; eauto).
    split; [eapply agree_sep; eauto|]. split; [apply view_agree; auto|].
    intros r I1 I2. destruct (Fr r I2) as [[]|L]. pose proof (sepR_lt _ _ _ Sn I1). lia.
Qed.

(** Two networks without common tensors do not see each other. *)
Theorem no_interference m n h cs ws m' h' : separate h m -> separate h n ->
  (forall r, In r (own n) -> ~ In r (own m)) ->
  hrun m cs h = Ok (ws, m', h') ->
  separate h' n /\ view h' n = view h n /\ (forall r, In r (own n) -> ~ In r (own m')).
Proof.
  intros S Sn D E. pose proof (hrun_ok cs m h S) as K. unfold one_ok, net_ok in K. rewrite E in K.
  destruct (run_calls (view h m) (calls_of cs)) as [[ws' mv]|e]; [|tauto].
  destruct K as [_ [_ [S' [Fr T]]]].
  assert (A : agree h h' (refs n)) by (eapply touch_agree; eauto).
  split; [eapply agree_sep; eauto|]. split; [apply view_agree; auto|].
  intros r I1 I2. destruct (Fr r I2) as [I|L]; [eapply D; eauto|].
  pose proof (sepR_lt _ _ _ Sn I1). lia.
Qed.

Theorem mode_switches m h cs cs' : separate h m -> calls_of cs = calls_of cs' ->
  match hrun m cs h, hrun m cs' h with
  | Ok (ws, m1, h1), Ok (ws', m2, h2) => ws = ws' /\ view h1 m1 = view h2 m2
  | Err e, Err e' => e = e'
  | _, _ => False
  end.
Proof.
  intros S E. pose proof (hrun_ok cs m h S) as K1. pose proof (hrun_ok cs' m h S) as K2.
  rewrite <- E in K2. unfold one_ok, net_ok in *.
  destruct (run_calls (view h m) (calls_of cs)) as [[ws mv]|e];
    destruct (hrun m cs h) as [[[ws1 m1] h1]|e1]; try tauto;
    destruct (hrun m cs' h) as [[[ws2 m2] h2]|e2]; try tauto.
  - destruct K1 as [-> [E1 _]]. destruct K2 as [-> [E2 _]]. split; congruence.
  - congruence.
Qed.

(* ------------------------------------------------------------------ *)
(** ** Peeking *)

Definition still (m : hmd F) h {A} (r : res (A * hmd F * heap F)) : Prop :=
  match r with Ok (_, m', h') => m' = m /\ touch none h h' | Err _ => True end.
Definition stills (ms : list (hmd F)) h {A} (r : res (A * list (hmd F) * heap F)) : Prop :=
  match r with Ok (_, ms', h') => ms' = ms /\ touch none h h' | Err _ => True end.

Lemma touch_none_trans h h1 h2 : touch none h h1 -> touch none h1 h2 -> touch none h h2.
Proof. intros. eapply touch_trans; eauto. Qed.

Lemma touch_none_sep h h1 R : touch none h h1 -> sepR h R -> sepR h1 R.
Proof. intros T S. eapply agree_sep; eauto. eapply touch_agree; eauto. Qed.

Section Peek.
Variable hcall : hmd F -> val F -> heap F -> res (val F * hmd F * heap F).
Definition child_still (m : hmd F) : Prop :=
  forall v h, separate h m -> still m h (hcall m v h).

Ltac child Hm v h S1 v0 h0 :=
  let m0 := fresh in
  pose proof (Hm v h S1) as K; unfold still in K;
  destruct (hcall _ v h) as [[[v0 m0] h0]|?]; cbn [bind]; [|exact I]; destruct K as [-> K].

Lemma hseq_step_still ms : Forall child_still ms -> forall v h, sepR h (flat_map refs ms) ->
  stills ms h (hseq_step hcall ms v h).
Proof.
  induction 1 as [|m t Hm Ht IH]; intros v h S; cbn [hseq_step].
  - simpl; auto.
  - cbn [flat_map] in S. apply sepR_app in S. destruct S as [S1 [S2 D]].
    child Hm v h S1 v0 h0. destruct (is_none v0); [simpl; auto|].
    specialize (IH v0 h0 (touch_none_sep _ _ _ K S2)). unfold stills in *.
    destruct (hseq_step hcall t v0 h0) as [[[? ?] ?]|?]; simpl; auto.
    destruct IH as [-> T]. split; auto. eapply touch_none_trans; eauto.
Qed.

Lemma hseq_steps_still ms : Forall child_still ms -> forall v h, sepR h (flat_map refs ms) ->
  stills ms h (hseq_steps hcall ms v h).
Proof.
  induction 1 as [|m t Hm Ht IH]; intros v h S; cbn [hseq_steps].
  - simpl; auto.
  - destruct (stops v); [simpl; auto|].
    cbn [flat_map] in S. apply sepR_app in S. destruct S as [S1 [S2 D]].
    child Hm v h S1 v0 h0.
    specialize (IH v0 h0 (touch_none_sep _ _ _ K S2)). unfold stills in *.
    destruct (hseq_steps hcall t v0 h0) as [[[? ?] ?]|?]; simpl; auto.
    destruct IH as [-> T]. split; auto. eapply touch_none_trans; eauto.
Qed.

Lemma hpar_run_still ms : Forall child_still ms -> forall l h, sepR h (flat_map refs ms) ->
  stills ms h (hpar_run hcall ms l h).
Proof.
  induction 1 as [|m t Hm Ht IH]; intros l h S; cbn [hpar_run].
  - simpl; auto.
  - destruct l as [|v l]; [exact I|].
    cbn [flat_map] in S. apply sepR_app in S. destruct S as [S1 [S2 D]].
    child Hm v h S1 v0 h0.
    specialize (IH l h0 (touch_none_sep _ _ _ K S2)). unfold stills in *.
    destruct (hpar_run hcall t l h0) as [[[? ?] ?]|?]; simpl; auto.
    destruct IH as [-> T]. split; auto. eapply touch_none_trans; eauto.
Qed.

Lemma hbr_run_still ms : Forall child_still ms -> forall v h, sepR h (flat_map refs ms) ->
  stills ms h (hbr_run hcall ms v h).
Proof.
  induction 1 as [|m t Hm Ht IH]; intros v h S; cbn [hbr_run].
  - simpl; auto.
  - cbn [flat_map] in S. apply sepR_app in S. destruct S as [S1 [S2 D]].
    child Hm v h S1 v0 h0.
    specialize (IH v h0 (touch_none_sep _ _ _ K S2)). unfold stills in *.
    destruct (hbr_run hcall t v h0) as [[[? ?] ?]|?]; simpl; auto.
    destruct IH as [-> T]. split; auto. eapply touch_none_trans; eauto.
Qed.
End Peek.

Lemma method_still (B : Type) (BF : Buf F B) (BO : BufOk F B) ip h o A (rv : res (A * obj B)) y o' h' :
  method_ok ip h o false rv (Ok (y, o', h')) -> o' = o /\ touch none h h'.
Proof.
  unfold method_ok. destruct rv as [[w v]|e]; [|tauto].
  intros [_ [_ [_ [_ [T U]]]]]. split; auto. eapply touch_weak; [|exact T].
  intros r [E _]; discriminate.
Qed.

(** The convolution in training mode. *)
Lemma method_training (B : Type) (BF : Buf F B) (BO : BufOk F B) h o upd A (rv : res (A * obj B)) y o' h' :
  method_ok false h o upd rv (Ok (y, o', h')) -> touch none h h'.
Proof.
  unfold method_ok. destruct rv as [[w v]|e]; [|tauto].
  intros [_ [_ [_ [_ [T U]]]]]. eapply touch_weak; [|exact T].
  intros r [_ [E _]]; discriminate.
Qed.

Ltac leaf_still H :=
  match goal with |- still _ _ (bind ?b _) => destruct b as [[[? ?] ?]|?]; cbn [bind]; [|exact I] end;
  apply method_still in H; [|exact _]; destruct H as [-> H]; split; [reflexivity|exact H].

Theorem hstep_still m : forall v h, separate h m -> still m h (hstep m v false h).
Proof.
  induction m using hmd_ind'; intros v h S; rewrite separate_sepR in S;
    cbn [hstep]; cbn [refs] in S.
  - destruct v as [|x|xs|l]; try exact I. unfold hdelay_forward_step.
    destruct (Nat.eqb d 0); [simpl; auto|].
    apply (valid_sep _ _ _ _ _ _ kind_frames) in S.
    pose proof (forward_step_ok _ _ _ (delay_step_ok d f sh) h o x false S) as H. leaf_still H.
  - destruct v as [|x|xs|l]; try exact I. unfold skip_forward_step, co_forward_step, still.
    destruct (skip_fstep n x (skip_get o)) as [[y [s|]]|e]; simpl; auto.
  - destruct v as [|x|xs|l]; try exact I. unfold hconv_forward_step.
    apply (valid_sep _ _ _ _ _ _ kind_rows) in S.
    pose proof (forward_step_ok _ _ _ (conv_step_ok c tr) h o x false S) as H. leaf_still H.
  - destruct v as [|x|xs|l]; try exact I. unfold hpool_forward_step.
    apply (valid_sep _ _ _ _ _ _ kind_frames) in S.
    pose proof (forward_step_ok _ _ _ (pool_step_ok c) h o x false S) as H. leaf_still H.
  - destruct v; simpl; auto.
  - destruct v as [|x|xs|l]; try exact I.
    unfold still. destruct (rnn_forward_step c o x false) as [[y o']|e] eqn:E; simpl; auto.
    split; auto. f_equal. clear - E. unfold rnn_forward_step in E.
    destruct (rnn_fstep c x o) as [[y1 o1]|e]; simpl in E; [|discriminate].
    inversion E; auto.
  - assert (K := hseq_step_still (fun m v h => hstep m v false h) ms H v h S). unfold stills in K. unfold still.
    destruct (hseq_step _ _ _ _) as [[[? ?] ?]|?]; simpl; auto. destruct K as [-> K]; auto.
  - unfold still. destruct (broadcast_val n v); simpl; auto.
  - destruct v as [|x|xs|l]; try exact I.
    assert (K := hpar_run_still (fun m v h => hstep m v false h) ms H l h S). unfold stills in K. unfold still.
    destruct (hpar_run _ _ _ _) as [[[? ?] ?]|?]; simpl; auto. destruct K as [-> K]; auto.
  - unfold still. destruct (dispatch_val d v); simpl; auto.
  - unfold still. destruct (reduce_step r v); simpl; auto.
  - assert (K := hbr_run_still (fun m v h => hstep m v false h) ms H v h S). unfold stills in K. unfold still.
    destruct (hbr_run _ _ _ _) as [[[? ?] ?]|?]; simpl; auto. destruct K as [-> K].
    destruct (if forallb is_tensor l then _ else _); simpl; auto.
  - apply sepR_app in S. destruct S as [S1 [S2 _]]. unfold still. destruct (p v).
    + specialize (IHm v h S1). unfold still in IHm.
      destruct (hstep m v false h) as [[[? ?] ?]|?]; simpl; auto. destruct IHm as [-> K]; auto.
    + destruct b as [b0|]; simpl; auto. specialize (H b0 eq_refl v h S2). unfold still in H.
      destruct (hstep b0 v false h) as [[[? ?] ?]|?]; simpl; auto. destruct H as [-> K]; auto.
Qed.

Lemma hcond_all h ms : allP cond_free (map (view h) ms) -> forall m, In m ms -> cond_free (view h m).
Proof. induction ms as [|a t IH]; simpl; [tauto|]. intros [A B] m [<-|I]; auto. Qed.

Lemma cond_free_any h h' m : cond_free (view h m) -> cond_free (view h' m).
Proof.
  assert (L : forall ms, Forall (fun m => cond_free (view h m) -> cond_free (view h' m)) ms ->
    allP cond_free (map (view h) ms) -> allP cond_free (map (view h') ms)).
  { induction 1 as [|a t Ha Ht IH]; simpl; auto. intros [A B]. split; auto. }
  induction m using hmd_ind'; cbn [view cond_free]; auto.
Qed.

Theorem hsteps_still m : forall pe v h, separate h m -> cond_free (view h m) ->
  still m h (hsteps m v pe false h).
Proof.
  assert (L : forall pe ms h0, Forall (fun m => forall pe v h, separate h m -> cond_free (view h m) ->
      still m h (hsteps m v pe false h)) ms -> allP cond_free (map (view h0) ms) ->
      Forall (child_still (fun m v h => hsteps m v pe false h)) ms).
  { intros pe ms h0 H C. apply Forall_forall. intros a Ia v h S. rewrite Forall_forall in H.
    apply H; auto. eapply cond_free_any. eapply hcond_all; eauto. }
  induction m using hmd_ind'; intros pe v h S C; rewrite separate_sepR in S;
    cbn [hsteps]; cbn [refs] in S; cbn [view cond_free] in C.
  - destruct v as [|x|xs|l]; try exact I. unfold hdelay_forward_steps.
    destruct (Nat.eqb d 0); [simpl; auto|].
    apply (valid_sep _ _ _ _ _ _ kind_frames) in S.
    pose proof (forward_steps_ok _ _ _ (delay_step_ok d f sh) (make_padding f) d h o xs pe false S) as H.
    leaf_still H.
  - destruct v as [|x|xs|l]; try exact I. unfold skip_forward_steps, co_forward_steps, still.
    destruct (co_loop (skip_fstep n) xs (skip_get o)) as [[y [s|]]|e]; simpl; auto;
    destruct (if pe then _ else _); simpl; auto.
  - destruct v as [|x|xs|l]; try exact I. unfold hconv_forward_steps.
    apply (valid_sep _ _ _ _ _ _ kind_rows) in S.
    pose proof (forward_steps_ok _ _ _ (conv_step_ok c tr) (make_padding (cfill c)) (cp c) h o xs pe false S) as H.
    leaf_still H.
  - destruct v as [|x|xs|l]; try exact I. unfold hpool_forward_steps.
    apply (valid_sep _ _ _ _ _ _ kind_frames) in S.
    pose proof (forward_steps_ok _ _ _ (pool_step_ok c) (make_padding (pfill c)) (pp c) h o xs pe false S) as H.
    leaf_still H.
  - destruct v; simpl; auto.
  - destruct v as [|x|xs|l]; try exact I.
    unfold still. destruct (rnn_forward_steps c o xs pe false) as [[y o']|e] eqn:E; simpl; auto.
    split; auto. f_equal. clear - E. unfold rnn_forward_steps in E.
    match type of E with bind ?b _ = _ => destruct b as [[? ?]|?]; simpl in E; [|discriminate] end.
    inversion E; auto.
  - assert (K := hseq_steps_still (fun m v h => hsteps m v pe false h) ms (L pe ms h H C) v h S).
    unfold stills in K. unfold still.
    destruct (hseq_steps _ _ _ _) as [[[? ?] ?]|?]; simpl; auto. destruct K as [-> K]; auto.
  - unfold still. destruct (broadcast_val n v); simpl; auto.
  - destruct v as [|x|xs|l]; try exact I.
    assert (K := hpar_run_still (fun m v h => hsteps m v pe false h) ms (L pe ms h H C) l h S).
    unfold stills in K. unfold still.
    destruct (hpar_run _ _ _ _) as [[[? ?] ?]|?]; simpl; auto. destruct K as [-> K]; auto.
  - unfold still. destruct (dispatch_val d v); simpl; auto.
  - unfold still. destruct (reduce_fwd r v); simpl; auto.
  - assert (K := hbr_run_still (fun m v h => hsteps m v pe false h) ms (L pe ms h H C) v h S).
    unfold stills in K. unfold still.
    destruct (hbr_run _ _ _ _) as [[[? ?] ?]|?]; simpl; auto. destruct K as [-> K].
    destruct (reduce_vals r l); simpl; auto.
  - tauto.
Qed.

Lemma still_pres m h A (r : res (A * hmd F * heap F)) w m' h' : still m h r -> r = Ok (w, m', h') ->
  m' = m /\ preserved h h'.
Proof. intros K ->. destruct K as [-> T]. split; auto. apply touch_pres in T. tauto. Qed.

Theorem hpeek_step m h v w m' h' : separate h m -> hstep m v false h = Ok (w, m', h') ->
  m' = m /\ preserved h h'.
Proof. intros S E. eapply still_pres; [apply hstep_still; eauto|eauto]. Qed.

Theorem hpeek_steps m h v pe w m' h' : separate h m -> hcond_free h m ->
  hsteps m v pe false h = Ok (w, m', h') -> m' = m /\ preserved h h'.
Proof. intros S C E. eapply still_pres; [apply hsteps_still; eauto|eauto]. Qed.

(* ------------------------------------------------------------------ *)
(** ** Snapshots *)

(** What a leaf keeps through any history: its configuration. *)
Definition same_leaf (m m' : hmd F) : Prop :=
  is_leaf m /\ is_leaf m' /\
  (forall h s, view h (hset_state m' s) = view h (hset_state m s)) /\
  (forall s, refs (hset_state m' s) = refs (hset_state m s)).

Lemma same_leaf_refl m : is_leaf m -> same_leaf m m.
Proof. unfold same_leaf. auto. Qed.

Lemma hdo_leaf m c h w m' h' : is_leaf m -> hdo m c h = Ok (w, m', h') -> same_leaf m m'.
Proof.
  intros L E. destruct m as [d f sh o|n o|c0 tr o|c0 o| | | | | | | | | ]; try contradiction;
    destruct c as [[v upd|v pe upd|v|]|b]; cbn [hdo hstep hsteps hclean htrain] in E;
    try (destruct v; try discriminate);
    try match type of E with bind ?b _ = _ => destruct b as [[[? ?] ?]|?]; cbn [bind] in E; [|discriminate] end;
    try match type of E with bind ?b _ = _ => destruct b as [?|?]; cbn [bind] in E; [|discriminate] end;
    try match type of E with (let '(_, _) := ?b in _) = _ => destruct b as [? ?] eqn:? end;
    inversion E; subst;
    try match goal with H : (let '(_, _) := ?b in _) = _ |- _ => destruct b; inversion H; subst end;
    unfold same_leaf; simpl; auto.
Qed.

Lemma hrun_leaf cs : forall m h ws m' h', is_leaf m -> hrun m cs h = Ok (ws, m', h') -> same_leaf m m'.
Proof.
  induction cs as [|c t IH]; intros m h ws m' h' L E; cbn [hrun] in E.
  - inversion E; subst. apply same_leaf_refl; auto.
  - destruct (hdo m c h) as [[[w m1] h1]|e] eqn:E1; cbn [bind] in E; [|discriminate].
    destruct (hrun m1 t h1) as [[[ws1 m2] h2]|e] eqn:E2; cbn [bind] in E; [|discriminate].
    inversion E; subst. apply hdo_leaf in E1; auto.
    destruct E1 as [_ [L1 [V1 R1]]]. apply IH in E2; auto.
    destruct E2 as [_ [L2 [V2 R2]]]. unfold same_leaf.
    conjs; auto; intros; [rewrite V2; auto|rewrite R2; auto].
Qed.

Lemma leaf_copy m h s : is_leaf m -> separate h m -> hget_state m h = Ok (Some s) ->
  exists t h1, hcopy_state m s h = Ok (t, h1) /\ h_ref t = length h /\ touch none h h1 /\
    separate h1 (hset_state m t) /\ view h1 (hset_state m t) = view h m /\ view h (hset_state m s) = view h m.
Proof.
  intros L S G. rewrite separate_sepR in S.
  destruct m as [d f sh o|n o|c tr o|c o| | | | | | | | | ]; try contradiction;
    cbn [hget_state hcopy_state hset_state view refs] in *.
  - apply (valid_sep _ _ _ _ _ _ kind_frames) in S.
    destruct (hobj_get_ok _ _ S) as [s' [E [_ D]]]. rewrite E in G. inversion G; subst s'.
    destruct D as [[Es _]|[Es _]]; [|discriminate]. inversion Es; subst s.
    destruct (clone_first_ok _ _ S) as [t [h' [E1 [R [V [O [T _]]]]]]].
    exists t, h'. conjs; auto; [|congruence].
    rewrite separate_sepR. cbn [refs]. apply (valid_sep _ _ _ _ _ _ kind_frames); auto.
  - apply (valid_sep _ _ _ _ _ _ kind_rows) in S.
    destruct (hobj_get_ok _ _ S) as [s' [E [_ D]]]. rewrite E in G. inversion G; subst s'.
    destruct D as [[Es _]|[Es _]]; [|discriminate]. inversion Es; subst s.
    destruct (clone_first_ok _ _ S) as [t [h' [E1 [R [V [O [T _]]]]]]].
    exists t, h'. conjs; auto; [|congruence].
    rewrite separate_sepR. cbn [refs]. apply (valid_sep _ _ _ _ _ _ kind_rows); auto.
  - apply (valid_sep _ _ _ _ _ _ kind_frames) in S.
    destruct (hobj_get_ok _ _ S) as [s' [E [_ D]]]. rewrite E in G. inversion G; subst s'.
    destruct D as [[Es _]|[Es _]]; [|discriminate]. inversion Es; subst s.
    destruct (clone_first_ok _ _ S) as [t [h' [E1 [R [V [O [T _]]]]]]].
    exists t, h'. conjs; auto; [|congruence].
    rewrite separate_sepR. cbn [refs]. apply (valid_sep _ _ _ _ _ _ kind_frames); auto.
Qed.

Lemma set_own (m : hmd F) t : is_leaf m -> forall r, rset (refs (hset_state m t)) r <-> r = h_ref t.
Proof. destruct m; try contradiction; intros _ r; unfold rset; simpl; intuition. Qed.

Theorem copied_snapshot m h s t h1 cs ws m' h2 :
  is_leaf m -> separate h m -> hget_state m h = Ok (Some s) -> hcopy_state m s h = Ok (t, h1) ->
  hrun m cs h1 = Ok (ws, m', h2) ->
  separate h2 (hset_state m' t) /\ view h2 (hset_state m' t) = view h m.
Proof.
  intros L S G C E. destruct (leaf_copy m h s L S G) as [t' [h' [E' [R [T [S1 [V1 _]]]]]]].
  rewrite C in E'. inversion E'; subst t' h'. clear E'.
  assert (Sm : separate h1 m) by (eapply touch_none_sep; eauto).
  pose proof (hrun_ok cs m h1 Sm) as K. unfold one_ok, net_ok in K. rewrite E in K.
  destruct (run_calls (view h1 m) (calls_of cs)) as [[ws' mv]|e]; [|tauto].
  destruct K as [_ [_ [S' [Fr T2]]]].
  assert (A : agree h1 h2 (refs (hset_state m t))).
  { eapply touch_agree; eauto. intros r I J. apply set_own in I; auto. subst r.
    rewrite R in J. pose proof (sepR_lt _ _ _ S J). lia. }
  destruct (hrun_leaf _ _ _ _ _ _ L E) as [_ [_ [V R']]].
  split.
  - rewrite separate_sepR, R'. eapply agree_sep; eauto.
  - rewrite V. rewrite <- V1. apply view_agree; auto.
Qed.

Lemma hdo_training m c h w m' h' : training_conv m -> separate h m -> c <> HTrain false ->
  hdo m c h = Ok (w, m', h') -> training_conv m' /\ touch none h h'.
Proof.
  intros L S N E. destruct m as [d f sh o|n o|c0 tr o|c0 o| | | | | | | | | ]; try contradiction.
  destruct tr; try contradiction. rewrite separate_sepR in S. cbn [refs] in S.
  apply (valid_sep _ _ _ _ _ _ kind_rows) in S.
  destruct c as [[v upd|v pe upd|v|]|b]; cbn [hdo hstep hsteps hclean htrain] in E.
  - destruct v as [|x|xs|l]; try discriminate. unfold hconv_forward_step in E.
    pose proof (forward_step_ok _ _ _ (conv_step_ok c0 true) h o x upd S) as H.
    destruct (hco_forward_step _ _ _ _ _) as [[[y o'] h1]|e]; simpl in E; [|discriminate].
    inversion E; subst. split; [exact I|]. eapply method_training; eauto. exact _.
  - destruct v as [|x|xs|l]; try discriminate. unfold hconv_forward_steps in E.
    pose proof (forward_steps_ok _ _ _ (conv_step_ok c0 true) (make_padding (cfill c0)) (cp c0) h o xs pe upd S) as H.
    destruct (hco_forward_steps _ _ _ _ _ _ _ _) as [[[y o'] h1]|e]; simpl in E; [|discriminate].
    inversion E; subst. split; [exact I|]. eapply method_training; eauto. exact _.
  - destruct (fwd _ _); simpl in E; [|discriminate]. inversion E; subst. split; simpl; auto.
  - destruct (hobj_clean h) as [o' h1] eqn:E1. inversion E; subst.
    apply clean_obj in E1; [|exact _]. split; [exact I|tauto].
  - inversion E; subst. destruct b; [|congruence]. split; simpl; auto.
Qed.

Theorem training_preserves cs : forall m h ws m' h',
  training_conv m -> separate h m -> stays_training cs ->
  hrun m cs h = Ok (ws, m', h') -> preserved h h'.
Proof.
  induction cs as [|c t IH]; intros m h ws m' h' L S N E; cbn [hrun] in E.
  - inversion E; subst. intros r c; auto.
  - destruct (hdo m c h) as [[[w m1] h1]|e] eqn:E1; cbn [bind] in E; [|discriminate].
    destruct (hrun m1 t h1) as [[[ws1 m2] h2]|e] eqn:E2; cbn [bind] in E; [|discriminate].
    inversion E; subst.
    assert (Nc : c <> HTrain false) by (intros ->; apply N; left; auto).
    assert (Nt : stays_training t) by (intros I; apply N; right; auto).
    pose proof (hdo_training m c h w m1 h1 L S Nc E1) as [L1 T1].
    assert (S1 : separate h1 m1).
    { pose proof (hdo_ok m c h S) as K. destruct c as [c|b].
      - unfold one_ok, net_ok in K. rewrite E1 in K.
        destruct (do_call (view h m) c) as [[? ?]|?]; [|tauto]. apply K.
      - rewrite K in E1. inversion E1; subst. destruct (htrain_ok b m) as [_ R].
        rewrite separate_sepR, R. exact S. }
    pose proof (IH _ _ _ _ _ L1 S1 Nt E2) as P2.
    intros r c0 Nr. apply P2. apply T1; auto.
Qed.

Theorem training_snapshot m h s cs ws m' h' :
  training_conv m -> separate h m -> hget_state m h = Ok (Some s) -> stays_training cs ->
  hrun m cs h = Ok (ws, m', h') ->
  separate h' (hset_state m' s) /\ view h' (hset_state m' s) = view h m.
Proof.
  intros L S G N E. pose proof (training_preserves cs m h ws m' h' L S N E) as P.
  assert (Lf : is_leaf m) by (destruct m; try contradiction; exact I).
  destruct (hrun_leaf _ _ _ _ _ _ Lf E) as [_ [_ [V R]]].
  destruct m as [d f sh o|n o|c tr o|c o| | | | | | | | | ]; try contradiction.
  cbn [hget_state] in G. rewrite separate_sepR in S. cbn [refs] in S.
  pose proof S as S0. apply (valid_sep _ _ _ _ _ _ kind_rows) in S.
  destruct (hobj_get_ok _ _ S) as [s' [E' [_ D]]]. rewrite E' in G. inversion G; subst s'.
  destruct D as [[Es _]|[Es _]]; [|discriminate]. inversion Es; subst s.
  assert (A : agree h h' [(h_ref o, KRows)]).
  { intros r [<-|[]]. simpl. destruct S as [l El]. rewrite El. apply P; auto. }
  split.
  - rewrite separate_sepR, R. cbn [hset_state refs]. eapply agree_sep; eauto.
  - rewrite V. cbn [hset_state]. apply (view_agree (HConv c tr o)). exact A.
Qed.

End HeapThm.

(** Further consequences that use the value-level peeking lemmas. *)
From Verif Require Import NetProps.

Section HeapPeek.
Context {F : Type} {FA : Frames F} {FL : FrameLaws F}.

Lemma peek_agrees_step (m : hmd F) (h : heap F) v w m' h' : separate h m ->
  hstep m v true h = Ok (w, m', h') ->
  exists h'', hstep m v false h = Ok (w, m, h'') /\ preserved h h''.
Proof.
  intros S E. pose proof (hstep_ok m true v h S) as K1. pose proof (hstep_ok m false v h S) as K2.
  unfold one_ok, net_ok in *. rewrite E in K1.
  destruct (step (view h m) v true) as [[w1 m1]|e] eqn:E1; [|tauto]. destruct K1 as [-> _].
  rewrite (peek_step_val _ _ _ _ E1) in K2.
  destruct (hstep m v false h) as [[[w2 m2] h2]|e] eqn:E2; [|tauto]. destruct K2 as [-> _].
  destruct (hpeek_step _ _ _ _ _ _ S E2) as [-> P]. eauto.
Qed.

Lemma peek_agrees_steps (m : hmd F) (h : heap F) v w m' h' : separate h m -> hcond_free h m ->
  hsteps m v false true h = Ok (w, m', h') ->
  exists h'', hsteps m v false false h = Ok (w, m, h'') /\ preserved h h''.
Proof.
  intros S C E. pose proof (hsteps_ok m false true v h S) as K1. pose proof (hsteps_ok m false false v h S) as K2.
  unfold one_ok, net_ok in *. rewrite E in K1.
  destruct (steps (view h m) v false true) as [[w1 m1]|e] eqn:E1; [|tauto]. destruct K1 as [-> _].
  rewrite (peek_steps_val _ C _ _ _ E1) in K2.
  destruct (hsteps m v false false h) as [[[w2 m2] h2]|e] eqn:E2; [|tauto]. destruct K2 as [-> _].
  destruct (hpeek_steps _ _ _ _ _ _ _ S C E2) as [-> P]. eauto.
Qed.

Lemma calls_of_filter (cs : list (hcall F)) :
  calls_of (filter (fun c => match c with HCall c => negb (pure_call c) | HTrain _ => true end) cs)
  = filter (fun c => negb (pure_call c)) (calls_of cs).
Proof.
  induction cs as [|[c|b] t IH]; cbn [filter calls_of]; auto.
  destruct (negb (pure_call c)); cbn [calls_of]; congruence.
Qed.

Lemma heap_peek_erasure (m : hmd F) (h : heap F) cs ws m' h' : separate h m -> hcond_free h m ->
  hrun m cs h = Ok (ws, m', h') ->
  exists m'' h'',
    hrun m (filter (fun c => match c with HCall c => negb (pure_call c) | HTrain _ => true end) cs) h
      = Ok (keep_outs (calls_of cs) ws, m'', h'') /\ view h'' m'' = view h' m'.
Proof.
  intros S C E. destruct (heap_refines m h cs S) as [R _].
  destruct (R _ _ _ E) as [E1 _]. apply peek_erasure in E1; auto.
  rewrite <- calls_of_filter in E1.
  set (fs := filter _ cs) in *. pose proof (hrun_ok fs m h S) as K. unfold one_ok, net_ok in K.
  rewrite E1 in K. destruct (hrun m fs h) as [[[w2 m2] h2]|e]; [|tauto].
  destruct K as [<- [V _]]. exists m2, h2. split; congruence.
Qed.

End HeapPeek.
