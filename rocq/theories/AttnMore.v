(** Attention modules: chunks, peeking, snapshots, explicit state, and
    configurations whose steps raise. *)
From Coq Require Import List ZArith Bool Arith Lia.
From Coq Require Import ZifyBool ZifyNat.
From Verif Require Import Base Attn AttnSpec AttnProof AttnThm.
Import ListNotations.

Section More.
Context {K : Type} {NK : Num K} {NL : NumLaws K}.
Variable c : cfg K.
Variable p : sdpa K.

(** *** Chunks *)

Lemma m_step_true o t h :
  m_forward_step c p o t true h
  = ('(out, s, h') <- m_fstep c p t o h ;; Ok (out, Some s, h')).
Proof. unfold m_forward_step. destruct o; reflexivity. Qed.

Lemma m_loop_run ts : forall o h,
  m_loop c p ts o h
  = ('(outs, o', h') <- m_run c p o ts h ;; Ok (somes outs, o', h')).
Proof.
  induction ts as [|t ts IH]; intros o h; [reflexivity|].
  cbn [m_loop m_run]. rewrite m_step_true.
  destruct (m_fstep c p t o h) as [[[out s] h1]|e]; [|reflexivity].
  cbn [bind]. rewrite IH. destruct (m_run c p (Some s) ts h1) as [[[outs o'] h2]|e];
    [|reflexivity].
  cbn [bind]. destruct out; reflexivity.
Qed.

Lemma m_run_some ts : forall o h outs o' h', ts <> [] ->
  m_run c p o ts h = Ok (outs, o', h') -> exists s, o' = Some s.
Proof.
  induction ts as [|t ts IH]; intros o h outs o' h' Hn E; [congruence|].
  cbn [m_run] in E. rewrite m_step_true in E.
  destruct (m_fstep c p t o h) as [[[out s] h1]|e]; [|discriminate]. cbn [bind] in E.
  destruct (m_run c p (Some s) ts h1) as [[[outs2 o2] h2]|e] eqn:E2; [|discriminate].
  cbn [bind] in E. injection E as <- <- <-.
  destruct ts as [|t' ts]; [cbn in E2; injection E2 as <- <- <-; eauto|].
  eapply IH; [|exact E2]. discriminate.
Qed.

Lemma m_run_len ts : forall o h outs o' h',
  m_run c p o ts h = Ok (outs, o', h') -> length outs = length ts.
Proof.
  induction ts as [|t ts IH]; intros o h outs o' h' E; cbn [m_run] in E.
  - injection E as <- <- <-. reflexivity.
  - destruct (m_forward_step c p o t true h) as [[[a b] h1]|]; [|discriminate].
    cbn [bind] in E. destruct (m_run c p b ts h1) as [[[outs2 o2] h2]|] eqn:E2; [|discriminate].
    injection E as <- <- <-. cbn. f_equal. eauto.
Qed.

Lemma m_steps_run o ts h : ts <> [] ->
  m_do c p o (MSteps ts true) h
  = ('(outs, o', h') <- m_run c p o ts h ;; Ok (somes outs, o', h')).
Proof.
  intros Hn. cbn [m_do]. unfold m_forward_steps.
  replace (match o with Some _ => (@None (mstate p), h) | None => (None, h) end)
    with (@None (mstate p), h) by (destruct o; reflexivity).
  rewrite m_loop_run.
  destruct (m_run c p o ts h) as [[[outs o'] h']|e] eqn:E; [|reflexivity].
  cbn [bind]. destruct (m_run_some _ _ _ _ _ _ Hn E) as [s ->]. cbn [bind].
  destruct (somes outs) eqn:Es; [|reflexivity].
  destruct ts; [congruence|]. reflexivity.
Qed.

Lemma m_run_app ts1 ts2 : forall o h,
  m_run c p o (ts1 ++ ts2) h
  = ('(a, o, h) <- m_run c p o ts1 h ;;
     '(b, o, h) <- m_run c p o ts2 h ;; Ok (a ++ b, o, h)).
Proof.
  induction ts1 as [|t ts IH]; intros o h.
  - cbn. destruct (m_run c p o ts2 h) as [[[? ?] ?]|]; reflexivity.
  - cbn [app m_run]. destruct (m_forward_step c p o t true h) as [[[a o1] h1]|]; [|reflexivity].
    cbn [bind]. rewrite IH.
    destruct (m_run c p o1 ts h1) as [[[a2 o2] h2]|]; [|reflexivity]. cbn [bind].
    destruct (m_run c p o2 ts2 h2) as [[[a3 o3] h3]|]; reflexivity.
Qed.

Lemma somes_app {A} (l m : list (option A)) : somes (l ++ m) = somes l ++ somes m.
Proof. induction l as [|[a|] l IH]; cbn; congruence. Qed.

Lemma m_chunks chunks : Forall (fun ts => ts <> []) chunks -> forall o h,
  ('(outs, o', h') <- m_calls c p o (map (fun ts => MSteps ts true) chunks) h ;;
   Ok (concat outs, o', h'))
  = ('(outs, o', h') <- m_run c p o (concat chunks) h ;; Ok (somes outs, o', h')).
Proof.
  induction 1 as [|ts chunks Hn _ IH]; intros o h; [reflexivity|].
  cbn [map m_calls concat]. rewrite m_steps_run by auto. rewrite m_run_app.
  destruct (m_run c p o ts h) as [[[a o1] h1]|]; [|reflexivity]. cbn [bind].
  specialize (IH o1 h1).
  destruct (m_calls c p o1 _ h1) as [[[b o2] h2]|];
  destruct (m_run c p o1 (concat chunks) h1) as [[[b' o2'] h2']|];
    cbn [bind] in *; try discriminate; try congruence.
  injection IH as E1 -> ->. cbn [concat]. rewrite somes_app. congruence.
Qed.

(** *** Only the observation matters *)

Definition rel {A} (o1 : option (mstate p)) (h1 : cells) (o2 : option (mstate p)) (h2 : cells) (R1 R2 : res (A * option (mstate p) * cells))
  : Prop :=
  match R1, R2 with
  | Ok (a1, s1, g1), Ok (a2, s2, g2) =>
      a1 = a2 /\ observe s1 g1 = observe s2 g2 /\ stored s1 g1 /\ stored s2 g2
      /\ length h1 <= length g1 /\ length h2 <= length g2
  | Err e1, Err e2 => e1 = e2
  | _, _ => False
  end.

Definition lift {A} (R : res (A * mstate p * cells)) : res (A * option (mstate p) * cells) :=
  '(a, s, h) <- R ;; Ok (a, Some s, h).

Lemma m_fstep_obs t o1 o2 h1 h2 : observe o1 h1 = observe o2 h2 ->
  stored o1 h1 -> stored o2 h2 ->
  rel o1 h1 o2 h2 (lift (m_fstep c p t o1 h1)) (lift (m_fstep c p t o2 h2)).
Proof.
  intros Ho S1 S2. unfold m_fstep.
  assert (exists mem r1 r2 g1 g2,
    match o1 with
    | Some s => (s, h1)
    | None => let '(r, h) := cell_new h1 (- Z.of_nat (c_N c)) in
        ((repeat (p_default p) (c_H c), r), h)
    end = ((mem, r1), g1)
    /\ match o2 with
    | Some s => (s, h2)
    | None => let '(r, h) := cell_new h2 (- Z.of_nat (c_N c)) in
        ((repeat (p_default p) (c_H c), r), h)
    end = ((mem, r2), g2)
    /\ r1 < length g1 /\ r2 < length g2 /\ cell_get g1 r1 = cell_get g2 r2
    /\ length h1 <= length g1 /\ length h2 <= length g2)
    as (mem & r1 & r2 & g1 & g2 & -> & -> & L1 & L2 & Eg & L3 & L4).
  { destruct o1 as [[m1 r1]|], o2 as [[m2 r2]|]; cbn in Ho; try discriminate.
    - injection Ho as -> Eg. exists m2, r1, r2, h1, h2. cbn in S1, S2. auto 10.
    - cbn [cell_new]. eexists _, _, _, _, _. split; [reflexivity|]. split; [reflexivity|].
      rewrite !app_length; cbn [length]. repeat split; try lia.
      unfold cell_get. rewrite !app_nth2, !Nat.sub_diag by lia. reflexivity. }
  destruct (mh_forward_step c p mem t) as [[o mem']|e]; [|reflexivity].
  cbn [bind lift rel].
  rewrite Eg. destruct (cell_get g2 r2 <? 0)%Z eqn:E.
  - rewrite !cell_get_set by auto. cbn [observe stored]. rewrite !cell_get_set by auto.
    rewrite !set_nth_len. auto 10.
  - rewrite Eg, E. cbn [observe stored]. rewrite Eg. auto 10.
Qed.

Lemma m_loop_obs ts : forall o1 o2 h1 h2, observe o1 h1 = observe o2 h2 ->
  stored o1 h1 -> stored o2 h2 ->
  rel o1 h1 o2 h2 (m_loop c p ts o1 h1) (m_loop c p ts o2 h2).
Proof.
  induction ts as [|t ts IH]; intros o1 o2 h1 h2 Ho S1 S2.
  - cbn. auto 10.
  - cbn [m_loop]. pose proof (m_fstep_obs t o1 o2 h1 h2 Ho S1 S2) as H.
    destruct (m_fstep c p t o1 h1) as [[[a1 s1] g1]|e1];
    destruct (m_fstep c p t o2 h2) as [[[a2 s2] g2]|e2];
      cbn [lift bind rel] in *; try tauto; try (exact H).
    destruct H as (-> & H1 & H2 & H3 & H4 & H5).
    specialize (IH (Some s1) (Some s2) g1 g2 H1 H2 H3).
    destruct (m_loop c p ts (Some s1) g1) as [[[b1 u1] k1]|];
    destruct (m_loop c p ts (Some s2) g2) as [[[b2 u2] k2]|];
      cbn [bind rel] in *; try tauto.
    destruct IH as (-> & J1 & J2 & J3 & J4 & J5). repeat split; auto; lia.
Qed.

Lemma clone_obs s h : stored (Some s) h ->
  let '(b, h') := @m_clone K p s h in
  observe (Some b) h' = observe (Some s) h /\ stored (Some b) h'
  /\ observe (Some s) h' = observe (Some s) h /\ stored (Some s) h'
  /\ length h < length h' /\ snd b = length h /\ snd s <> snd b.
Proof.
  destruct s as [mem r]. cbn [stored m_clone cell_new observe snd]. intros H.
  rewrite app_length; cbn [length]. rewrite (cell_get_app h r) by auto.
  unfold cell_get at 1. rewrite app_nth2, Nat.sub_diag by lia. cbn [nth].
  repeat split; lia.
Qed.

(** Cells other than the module's own keep their value. *)
Lemma m_fstep_frame t o h out s h' r : m_fstep c p t o h = Ok (out, s, h') ->
  r < length h -> (forall mem r', o = Some (mem, r') -> r <> r') ->
  cell_get h' r = cell_get h r /\ length h <= length h' /\ r <> snd s
  /\ (forall mem r', o = Some (mem, r') -> snd s = r').
Proof.
  unfold m_fstep. intros E Hr Hn.
  destruct o as [[mem r']|].
  - specialize (Hn _ _ eq_refl).
    destruct (mh_forward_step c p mem t) as [[o m']|]; [|discriminate]. cbn [bind] in E.
    injection E as <- <- <-. cbn [snd].
    destruct (cell_get h r' <? 0)%Z; rewrite ?set_nth_len, ?cell_get_other by auto;
      repeat split; auto; intros ? ? EE; congruence.
  - cbn [cell_new] in E.
    destruct (mh_forward_step c p _ t) as [[o m']|]; [|discriminate]. cbn [bind] in E.
    injection E as <- <- <-. cbn [snd].
    destruct (_ <? 0)%Z; rewrite ?set_nth_len, ?app_length;
      rewrite ?cell_get_other by lia; rewrite ?cell_get_app by auto; cbn [length];
      repeat split; try lia; discriminate.
Qed.

Lemma m_loop_frame ts : forall o h outs o' h' r,
  m_loop c p ts o h = Ok (outs, o', h') ->
  r < length h -> (forall mem r', o = Some (mem, r') -> r <> r') ->
  cell_get h' r = cell_get h r /\ length h <= length h'
  /\ (forall mem r', o' = Some (mem, r') -> r <> r').
Proof.
  induction ts as [|t ts IH]; intros o h outs o' h' r E Hr Hn; cbn [m_loop] in E.
  - injection E as <- <- <-. auto.
  - destruct (m_fstep c p t o h) as [[[a s] g]|] eqn:E1; [|discriminate]. cbn [bind] in E.
    destruct (m_loop c p ts (Some s) g) as [[[b u] k]|] eqn:E2; [|discriminate].
    cbn [bind] in E. injection E as <- <- <-.
    destruct (m_fstep_frame _ _ _ _ _ _ _ E1 Hr Hn) as (F1 & F2 & F3 & _).
    destruct (IH _ _ _ _ _ r E2 ltac:(lia)) as (G1 & G2 & G3).
    { intros mem r' [= ->]. exact F3. }
    repeat split; [congruence|lia|exact G3].
Qed.

(** *** Peeking *)

Lemma peek_step s t h : stored (Some s) h ->
  match m_forward_step c p (Some s) t false h, m_forward_step c p (Some s) t true h with
  | Ok (out1, o1, h1), Ok (out2, o2, h2) =>
      out1 = out2 /\ observe o1 h1 = observe (Some s) h /\ stored o1 h1
      /\ length h <= length h1
  | Err e1, Err e2 => e1 = e2
  | _, _ => False
  end.
Proof.
  intros Hs. rewrite m_step_true. unfold m_forward_step.
  pose proof (clone_obs s h Hs) as Hcl.
  destruct (m_clone s h) as [b g]. destruct Hcl as (C1 & C2 & C3 & C4 & C5 & C6 & C7).
  pose proof (m_fstep_obs t (Some s) (Some s) g h C3 C4 Hs) as Ho.
  destruct (m_fstep c p t (Some s) g) as [[[a1 s1] g1]|e1] eqn:E1;
  destruct (m_fstep c p t (Some s) h) as [[[a2 s2] g2]|e2]; cbn [lift bind rel] in *;
    try tauto.
  destruct Ho as (-> & _). split; [reflexivity|].
  destruct b as [mb rb]. cbn [snd] in C6, C7.
  assert (Hrb : rb < length g) by exact C2.
  destruct (m_fstep_frame _ _ _ _ _ _ rb E1 Hrb) as (F1 & F2 & _).
  { intros mem r' [= ->]. cbn in C7. auto. }
  rewrite <- C1. cbn [observe stored]. rewrite F1. repeat split; lia.
Qed.

Lemma peek_steps s ts h : stored (Some s) h ->
  match m_forward_steps c p (Some s) ts false h, m_forward_steps c p (Some s) ts true h with
  | Ok (out1, o1, h1), Ok (out2, o2, h2) =>
      out1 = out2 /\ observe o1 h1 = observe (Some s) h /\ stored o1 h1
      /\ length h <= length h1
  | Err e1, Err e2 => e1 = e2
  | _, _ => False
  end.
Proof.
  intros Hs. unfold m_forward_steps.
  pose proof (clone_obs s h Hs) as Hcl.
  destruct (m_clone s h) as [b g]. destruct Hcl as (C1 & C2 & C3 & C4 & C5 & C6 & C7).
  pose proof (m_loop_obs ts (Some s) (Some s) g h C3 C4 Hs) as Ho.
  destruct (m_loop c p ts (Some s) g) as [[[a1 u1] g1]|e1] eqn:E1;
  destruct (m_loop c p ts (Some s) h) as [[[a2 u2] g2]|e2] eqn:E2; cbn [bind rel] in *;
    try tauto.
  destruct Ho as (-> & Ho & _).
  assert (exists s2, u2 = Some s2) as [s2 ->].
  { rewrite m_loop_run in E2.
    destruct (m_run c p (Some s) ts h) as [[[x y] z]|] eqn:E3; [|discriminate].
    cbn [bind] in E2. injection E2 as <- <- <-. destruct ts as [|t ts].
    - cbn in E3. injection E3 as <- <- <-. eauto.
    - eapply m_run_some; [|exact E3]. discriminate. }
  cbn [bind]. destruct b as [mb rb]. cbn [snd] in C6, C7.
  destruct (m_loop_frame _ _ _ _ _ _ rb E1 C2) as (F1 & F2 & _).
  { intros mem r' [= ->]. cbn in C7. auto. }
  assert (observe (Some (mb, rb)) g1 = observe (Some s) h).
  { rewrite <- C1. cbn [observe]. rewrite F1. reflexivity. }
  assert (stored (Some (mb, rb)) g1) by (cbn in *; lia).
  destruct a2; [destruct ts|]; cbn; repeat split; auto; lia.
Qed.

Lemma m_steps_obs ts o1 o2 h1 h2 : observe o1 h1 = observe o2 h2 ->
  stored o1 h1 -> stored o2 h2 ->
  rel o1 h1 o2 h2 (m_forward_steps c p o1 ts true h1) (m_forward_steps c p o2 ts true h2).
Proof.
  intros Ho S1 S2. unfold m_forward_steps.
  replace (match o1 with Some _ => (@None (mstate p), h1) | None => (None, h1) end)
    with (@None (mstate p), h1) by (destruct o1; reflexivity).
  replace (match o2 with Some _ => (@None (mstate p), h2) | None => (None, h2) end)
    with (@None (mstate p), h2) by (destruct o2; reflexivity).
  pose proof (m_loop_obs ts o1 o2 h1 h2 Ho S1 S2) as H.
  destruct (m_loop c p ts o1 h1) as [[[a1 u1] g1]|e1];
  destruct (m_loop c p ts o2 h2) as [[[a2 u2] g2]|e2]; cbn [bind rel] in *; try tauto.
  destruct H as (-> & J1 & J2 & J3 & J4 & J5).
  destruct u1 as [[m1 r1]|], u2 as [[m2 r2]|]; cbn in J1; try discriminate; [|reflexivity].
  cbn [bind]. destruct a2; [destruct ts|]; cbn [rel]; auto 10.
Qed.

Lemma m_step_obs t o1 o2 h1 h2 : observe o1 h1 = observe o2 h2 ->
  stored o1 h1 -> stored o2 h2 ->
  rel o1 h1 o2 h2 (m_forward_step c p o1 t true h1) (m_forward_step c p o2 t true h2).
Proof.
  intros Ho S1 S2. rewrite !m_step_true. apply m_fstep_obs; auto.
Qed.

Lemma m_do_obs m o1 o2 h1 h2 : committed m = true -> observe o1 h1 = observe o2 h2 ->
  stored o1 h1 -> stored o2 h2 ->
  rel o1 h1 o2 h2 (m_do c p o1 m h1) (m_do c p o2 m h2).
Proof.
  intros Hm Ho S1 S2. destruct m as [t u|ts u]; cbn in Hm; subst u; cbn [m_do].
  - pose proof (m_step_obs t o1 o2 h1 h2 Ho S1 S2) as H.
    destruct (m_forward_step c p o1 t true h1) as [[[a1 u1] g1]|e1];
    destruct (m_forward_step c p o2 t true h2) as [[[a2 u2] g2]|e2];
      cbn [bind rel] in *; try tauto. destruct H as (-> & H). auto.
  - pose proof (m_steps_obs ts o1 o2 h1 h2 Ho S1 S2) as H.
    destruct (m_forward_steps c p o1 ts true h1) as [[[a1 u1] g1]|e1];
    destruct (m_forward_steps c p o2 ts true h2) as [[[a2 u2] g2]|e2];
      cbn [bind rel] in *; try tauto. destruct H as (-> & H). auto.
Qed.

Lemma m_do_obs_all m o1 o2 h1 h2 : observe o1 h1 = observe o2 h2 ->
  stored o1 h1 -> stored o2 h2 ->
  rel o1 h1 o2 h2 (m_do c p o1 m h1) (m_do c p o2 m h2).
Proof.
  intros Ho S1 S2. destruct (committed m) eqn:Hm; [now apply m_do_obs|].
  destruct m as [t u|ts u]; cbn in Hm; subst u; cbn [m_do].
  - pose proof (m_step_obs t o1 o2 h1 h2 Ho S1 S2) as H.
    destruct o1 as [s1|], o2 as [s2|]; [|destruct s1; discriminate|destruct s2; discriminate|].
    + pose proof (peek_step s1 t h1 S1) as P1. pose proof (peek_step s2 t h2 S2) as P2.
      destruct (m_forward_step c p (Some s1) t true h1) as [[[a1 u1] g1]|e1];
      destruct (m_forward_step c p (Some s2) t true h2) as [[[a2 u2] g2]|e2];
      destruct (m_forward_step c p (Some s1) t false h1) as [[[b1 v1] k1]|f1];
      destruct (m_forward_step c p (Some s2) t false h2) as [[[b2 v2] k2]|f2];
        cbn [bind rel] in *; try tauto; try congruence.
      destruct H as (-> & _), P1 as (-> & Q1 & Q2 & Q3), P2 as (-> & R1 & R2 & R3).
      repeat split; auto; congruence.
    + rewrite !m_step_true in H. unfold m_forward_step.
      destruct (m_fstep c p t None h1) as [[[a1 u1] g1]|e1];
      destruct (m_fstep c p t None h2) as [[[a2 u2] g2]|e2]; cbn [bind rel] in *; try tauto.
  - pose proof (m_steps_obs ts o1 o2 h1 h2 Ho S1 S2) as H.
    destruct o1 as [s1|], o2 as [s2|]; [|destruct s1; discriminate|destruct s2; discriminate|].
    + pose proof (peek_steps s1 ts h1 S1) as P1. pose proof (peek_steps s2 ts h2 S2) as P2.
      destruct (m_forward_steps c p (Some s1) ts true h1) as [[[a1 u1] g1]|e1];
      destruct (m_forward_steps c p (Some s2) ts true h2) as [[[a2 u2] g2]|e2];
      destruct (m_forward_steps c p (Some s1) ts false h1) as [[[b1 v1] k1]|f1];
      destruct (m_forward_steps c p (Some s2) ts false h2) as [[[b2 v2] k2]|f2];
        cbn [bind rel] in *; try tauto; try congruence.
      destruct H as (-> & _), P1 as (-> & Q1 & Q2 & Q3), P2 as (-> & R1 & R2 & R3).
      repeat split; auto; congruence.
    + unfold m_forward_steps. pose proof (m_loop_obs ts None None h1 h2 eq_refl I I) as L.
      destruct (m_loop c p ts None h1) as [[[a1 u1] g1]|e1];
      destruct (m_loop c p ts None h2) as [[[a2 u2] g2]|e2]; cbn [bind rel] in *; try tauto.
Qed.

Lemma m_calls_obs ms : forall o1 o2 h1 h2, observe o1 h1 = observe o2 h2 ->
  stored o1 h1 -> stored o2 h2 ->
  rel o1 h1 o2 h2 (m_calls c p o1 ms h1) (m_calls c p o2 ms h2).
Proof.
  induction ms as [|m ms IH]; intros o1 o2 h1 h2 Ho S1 S2.
  - cbn. auto 10.
  - cbn [m_calls]. pose proof (m_do_obs_all m o1 o2 h1 h2 Ho S1 S2) as H.
    destruct (m_do c p o1 m h1) as [[[a1 u1] g1]|e1];
    destruct (m_do c p o2 m h2) as [[[a2 u2] g2]|e2]; cbn [bind rel] in *; try tauto.
    destruct H as (-> & H1 & H2 & H3 & H4 & H5). specialize (IH u1 u2 g1 g2 H1 H2 H3).
    destruct (m_calls c p u1 ms g1) as [[[b1 v1] k1]|];
    destruct (m_calls c p u2 ms g2) as [[[b2 v2] k2]|]; cbn [bind rel] in *; try tauto.
    destruct IH as (-> & J1 & J2 & J3 & J4 & J5). repeat split; auto; lia.
Qed.

Lemma clean_restarts ms o h :
  match m_calls c p (m_clean o) ms h, m_calls c p None ms [] with
  | Ok (outs, o1, h1), Ok (outs', o2, h2) => outs = outs' /\ observe o1 h1 = observe o2 h2
  | Err e, Err e' => e = e'
  | _, _ => False
  end.
Proof.
  pose proof (m_calls_obs ms (m_clean o) None h [] eq_refl I I) as H.
  destruct (m_calls c p (m_clean o) ms h) as [[[b1 v1] k1]|];
  destruct (m_calls c p None ms []) as [[[b2 v2] k2]|]; cbn [rel] in *; tauto.
Qed.

Lemma m_do_peek m s h out o h' : committed m = false -> stored (Some s) h ->
  m_do c p (Some s) m h = Ok (out, o, h') ->
  observe o h' = observe (Some s) h /\ stored o h' /\ length h <= length h'.
Proof.
  intros Hm Hs E. destruct m as [t u|ts u]; cbn in Hm; subst u; cbn [m_do] in E.
  - pose proof (peek_step s t h Hs) as H.
    destruct (m_forward_step c p (Some s) t false h) as [[[a1 u1] g1]|e1]; [|discriminate].
    cbn [bind] in E. injection E as <- <- <-.
    destruct (m_forward_step c p (Some s) t true h) as [[[a2 u2] g2]|e2]; tauto.
  - pose proof (peek_steps s ts h Hs) as H.
    destruct (m_forward_steps c p (Some s) ts false h) as [[[a1 u1] g1]|e1]; [|discriminate].
    cbn [bind] in E. injection E as <- <- <-.
    destruct (m_forward_steps c p (Some s) ts true h) as [[[a2 u2] g2]|e2]; tauto.
Qed.

Lemma m_erase ms : forall o1 h1 o2 h2 outs o' h',
  observe o1 h1 = observe o2 h2 -> stored o1 h1 -> stored o2 h2 -> started o1 ->
  m_calls c p o1 ms h1 = Ok (outs, o', h') ->
  exists o2' h2', m_calls c p o2 (filter committed ms) h2
                  = Ok (keep_committed ms outs, o2', h2')
    /\ observe o' h' = observe o2' h2'.
Proof.
  induction ms as [|m ms IH]; intros o1 h1 o2 h2 outs o' h' Ho S1 S2 Hst E.
  - cbn in E. injection E as <- <- <-. exists o2, h2. auto.
  - cbn [m_calls] in E. destruct (m_do c p o1 m h1) as [[[a u] g]|] eqn:E1; [|discriminate].
    cbn [bind] in E. destruct (m_calls c p u ms g) as [[[b v] k]|] eqn:E2; [|discriminate].
    cbn [bind] in E. injection E as <- <- <-.
    cbn [filter keep_committed]. destruct (committed m) eqn:Hm.
    + pose proof (m_do_obs m o1 o2 h1 h2 Hm Ho S1 S2) as H. rewrite E1 in H.
      cbn [m_calls]. destruct (m_do c p o2 m h2) as [[[a2 u2] g2]|]; cbn [rel] in H; [|tauto].
      destruct H as (-> & H1 & H2 & H3 & _).
      destruct (IH u g u2 g2 b v k H1 H2 H3) as (o2' & h2' & F1 & F2); [|exact E2|].
      { destruct m as [t x|ts x]; cbn in Hm; subst x; cbn [m_do] in E1.
        - rewrite m_step_true in E1.
          destruct (m_fstep c p t o1 h1) as [[[? ?] ?]|]; [|discriminate]. cbn in E1.
          injection E1 as <- <- <-. discriminate.
        - destruct (m_forward_steps c p o1 ts true h1) as [[[aa bb] cc]|] eqn:E3;
            [|discriminate]. cbn in E1. injection E1 as <- <- <-.
          unfold m_forward_steps in E3.
          destruct o1 as [s1|]; [|congruence].
          destruct (m_loop c p ts (Some s1) h1) as [[[x y] z]|]; [|discriminate].
          cbn [bind] in E3. destruct y; [|discriminate]. cbn [bind] in E3.
          destruct x; [destruct ts; [discriminate|]|]; injection E3 as <- <- <-; discriminate. }
      cbn [bind]. rewrite F1. cbn [bind]. eauto.
    + destruct o1 as [s1|]; [|congruence].
      destruct (m_do_peek m s1 h1 _ _ _ Hm S1 E1) as (P1 & P2 & P3).
      apply (IH u g o2 h2); auto; [congruence|].
      destruct u; [discriminate|]. destruct s1; discriminate P1.
Qed.

(** *** Snapshots and explicit state after start-up *)

Lemma m_fstep_keep t o h out s h' r : m_fstep c p t o h = Ok (out, s, h') ->
  r < length h -> (0 <= cell_get h r)%Z ->
  cell_get h' r = cell_get h r /\ length h <= length h'.
Proof.
  unfold m_fstep. intros E Hr H0. destruct o as [[mem r']|].
  - destruct (mh_forward_step c p mem t) as [[o m']|]; [|discriminate]. cbn [bind] in E.
    injection E as <- <- <-. destruct (Z.ltb_spec (cell_get h r') 0).
    + rewrite set_nth_len. split; [|lia]. apply cell_get_other. intros ->. lia.
    + auto.
  - cbn [cell_new] in E. destruct (mh_forward_step c p _ t) as [[o m']|]; [|discriminate].
    cbn [bind] in E. injection E as <- <- <-.
    destruct (_ <? 0)%Z; rewrite ?set_nth_len, ?app_length; cbn [length];
      rewrite ?cell_get_other by lia; rewrite cell_get_app by auto; split; lia.
Qed.

Lemma m_loop_keep ts : forall o h outs o' h' r,
  m_loop c p ts o h = Ok (outs, o', h') ->
  r < length h -> (0 <= cell_get h r)%Z ->
  cell_get h' r = cell_get h r /\ length h <= length h'.
Proof.
  induction ts as [|t ts IH]; intros o h outs o' h' r E Hr H0; cbn [m_loop] in E.
  - injection E as <- <- <-. auto.
  - destruct (m_fstep c p t o h) as [[[a s] g]|] eqn:E1; [|discriminate]. cbn [bind] in E.
    destruct (m_loop c p ts (Some s) g) as [[[b u] k]|] eqn:E2; [|discriminate].
    cbn [bind] in E. injection E as <- <- <-.
    destruct (m_fstep_keep _ _ _ _ _ _ _ E1 Hr H0) as (F1 & F2).
    destruct (IH _ _ _ _ _ r E2 ltac:(lia) ltac:(lia)). split; [congruence|lia].
Qed.

Lemma clone_keep (s : mstate p) h r : r < length h ->
  cell_get (snd (m_clone s h)) r = cell_get h r /\ length h <= length (snd (m_clone s h)).
Proof.
  intros. destruct s as [mem r0]. cbn [m_clone cell_new snd]. rewrite cell_get_app by auto.
  rewrite app_length. split; [reflexivity|lia].
Qed.

Lemma m_do_keep m o h out o' h' r : m_do c p o m h = Ok (out, o', h') ->
  r < length h -> (0 <= cell_get h r)%Z ->
  cell_get h' r = cell_get h r /\ length h <= length h'.
Proof.
  intros E Hr H0.
  assert (Hb : forall (A : Type) (u : bool) (k : option (mstate p) -> cells -> A),
    exists b g, (let '(backup, h) :=
      match o with
      | Some s => if u then (None, h) else let '(b, h) := m_clone s h in (Some b, h)
      | None => (None, h)
      end in k backup h) = k b g
      /\ cell_get g r = cell_get h r /\ length h <= length g).
  { intros A u k. destruct o as [s|]; [destruct u|]; [eauto| |eauto].
    destruct (clone_keep s h r Hr) as [C1 C2]. destruct (m_clone s h) as [b g].
    exists (Some b), g. auto. }
  destruct m as [t u|ts u]; cbn [m_do] in E.
  - unfold m_forward_step in E.
    match type of E with bind ?X _ = _ => destruct X as [[[a b] g]|] eqn:E0; [|discriminate] end.
    cbn [bind] in E. injection E as <- <- <-.
    destruct (Hb _ u (fun backup h => '(out, s, h) <- m_fstep c p t o h ;;
      if u then Ok (out, Some s, h)
      else match backup with Some b => Ok (out, Some b, h) | None => Err UnboundLocalError end))
      as (bk & g0 & Eb & B1 & B2).
    rewrite Eb in E0.
    destruct (m_fstep c p t o g0) as [[[x y] z]|] eqn:E1; [|discriminate].
    destruct (m_fstep_keep _ _ _ _ _ _ r E1 ltac:(lia) ltac:(lia)) as [F1 F2].
    cbn [bind] in E0. destruct u; [|destruct bk; [|discriminate]];
      injection E0 as <- <- <-; split; [congruence|lia|congruence|lia].
  - unfold m_forward_steps in E.
    match type of E with bind ?X _ = _ => destruct X as [[[a b] g]|] eqn:E0; [|discriminate] end.
    cbn [bind] in E. injection E as <- <- <-.
    destruct (Hb _ u (fun backup h => '(outs, s, h) <- m_loop c p ts o h ;;
      o' <- (if u
         then match s with Some s => Ok (Some s) | None => Err TypeError end
         else match backup with
              | Some b => Ok (Some b) | None => Err UnboundLocalError
              end) ;;
      match outs, ts with
      | [], [] => Err UnboundLocalError
      | [], _ => Ok (None, o', h)
      | _, _ => Ok (Some outs, o', h)
      end)) as (bk & g0 & Eb & B1 & B2).
    rewrite Eb in E0.
    destruct (m_loop c p ts o g0) as [[[x y] z]|] eqn:E1; [|discriminate].
    destruct (m_loop_keep _ _ _ _ _ _ r E1 ltac:(lia) ltac:(lia)) as [F1 F2].
    cbn [bind] in E0.
    match type of E0 with bind ?X _ = _ => destruct X as [o1|]; [|discriminate] end.
    cbn [bind] in E0. destruct x; [destruct ts; [discriminate|]|];
      injection E0 as <- <- <-; split; [congruence|lia|congruence|lia].
Qed.

Lemma m_calls_keep ms : forall o h outs o' h' r,
  m_calls c p o ms h = Ok (outs, o', h') ->
  r < length h -> (0 <= cell_get h r)%Z ->
  cell_get h' r = cell_get h r /\ length h <= length h'.
Proof.
  induction ms as [|m ms IH]; intros o h outs o' h' r E Hr H0; cbn [m_calls] in E.
  - injection E as <- <- <-. auto.
  - destruct (m_do c p o m h) as [[[a s] g]|] eqn:E1; [|discriminate]. cbn [bind] in E.
    destruct (m_calls c p s ms g) as [[[b u] k]|] eqn:E2; [|discriminate].
    cbn [bind] in E. injection E as <- <- <-.
    destruct (m_do_keep _ _ _ _ _ _ _ E1 Hr H0) as (F1 & F2).
    destruct (IH _ _ _ _ _ r E2 ltac:(lia) ltac:(lia)). split; [congruence|lia].
Qed.

Lemma snapshot_kept (s : mstate p) h o ms outs o' h' : stored (Some s) h ->
  (0 <= cell_get h (snd s))%Z -> m_calls c p o ms h = Ok (outs, o', h') ->
  observe (m_set s) h' = observe (m_set s) h.
Proof.
  destruct s as [mem r]. cbn [stored snd m_set observe]. intros Hs H0 E.
  destruct (m_calls_keep _ _ _ _ _ _ r E Hs H0) as [-> _]. reflexivity.
Qed.

Lemma explicit_pure (s : mstate p) t h out s' h' : (0 <= cell_get h (snd s))%Z ->
  m_fstep c p t (Some s) h = Ok (out, s', h') -> h' = h.
Proof.
  destruct s as [mem r]. unfold m_fstep. cbn [snd]. intros H0 E.
  destruct (mh_forward_step c p mem t) as [[o m']|]; [|discriminate].
  cbn [bind] in E. injection E as <- <- <-. destruct (Z.ltb_spec (cell_get h r) 0); [lia|].
  reflexivity.
Qed.

(** *** Failures *)

Lemma fresh_peek_step t h : exists e, m_forward_step c p None t false h = Err e.
Proof.
  unfold m_forward_step. destruct (m_fstep c p t None h) as [[[? ?] ?]|e]; eexists; reflexivity.
Qed.

Lemma fresh_peek_steps ts h : exists e, m_forward_steps c p None ts false h = Err e.
Proof.
  unfold m_forward_steps.
  destruct (m_loop c p ts None h) as [[[? ?] ?]|e]; eexists; reflexivity.
Qed.

Lemma empty_clip o u h : exists e, m_forward_steps c p o [] u h = Err e.
Proof.
  unfold m_forward_steps. destruct o as [s|]; destruct u; try (eexists; reflexivity).
  destruct (m_clone s h); eexists; reflexivity.
Qed.

Lemma unsupported_step o t u h :
  c_zero_attn c = true \/ c_packed c = false \/ c_bias c <> None ->
  exists e, m_forward_step c p o t u h = Err e.
Proof.
  intros H. assert (Hm : forall mem, exists e, mh_forward_step c p mem t = Err e).
  { intros mem. destruct t as [[q k] v]. unfold mh_forward_step.
    destruct (c_zero_attn c); [eexists; reflexivity|].
    destruct (c_packed c); [|eexists; reflexivity].
    destruct (c_bias c); [eexists; reflexivity|].
    exfalso. destruct H as [H|[H|H]]; congruence. }
  assert (Hf : forall o h, exists e, m_fstep c p t o h = Err e).
  { intros o0 h0. unfold m_fstep. destruct o0 as [[mem r]|]; cbn [cell_new];
      match goal with |- context [mh_forward_step c p ?m t] =>
        destruct (Hm m) as [e ->] end; eexists; reflexivity. }
  unfold m_forward_step. destruct o as [s|]; [destruct u; [|destruct (m_clone s h)]|];
    match goal with |- context [m_fstep c p t ?o ?h] =>
      destruct (Hf o h) as [e ->] end; eexists; reflexivity.
Qed.

End More.

Section One.
Context {K : Type} {NK : Num K} {NL : NumLaws K}.

Lemma re_one_raises (c : cfg K) t u h : supported c -> c_N c = 1 ->
  m_forward_step c (re_sdpa c) None t u h = Err IndexError.
Proof.
  intros (HH & Hb & Hp & Hz & Lq & Lk & Lv) HN.
  unfold m_forward_step, m_fstep. cbn [cell_new]. destruct t as [[q k] v].
  unfold mh_forward_step. rewrite Hb, Hp, Hz. cbn [negb].
  specialize (Lq q). specialize (Lk k). specialize (Lv v).
  destruct (c_H c) as [|n]; [lia|].
  destruct (c_q c q) as [|q1 qs]; [discriminate|].
  destruct (c_k c k) as [|k1 ks]; [discriminate|].
  destruct (c_v c v) as [|v1 vs]; [discriminate|].
  cbn [repeat heads_step re_sdpa p_step p_default p_state].
  unfold re_step, re_default. rewrite HN. reflexivity.
Qed.

End One.

Section Forward.
Context {K : Type} {NK : Num K} {NL : NumLaws K}.

Lemma so_step_forward (c : cfg K) qi ts h : supported c -> 0 < c_N c ->
  (- Z.of_nat (c_N c) <= qi < Z.of_nat (c_N c))%Z ->
  exists outs o' h', m_run c (so_sdpa c qi) None ts h = Ok (outs, o', h')
    /\ length outs = length ts
    /\ (forall n d, n < length ts ->
        if n + 1 <? c_N c then nth n outs d = None
        else exists r, nth n outs d = Some r
          /\ so_forward c true qi (window (c_N c) n (qs_of ts))
               (window (c_N c) n (ks_of ts)) (window (c_N c) n (vs_of ts)) = Ok r).
Proof.
  intros Hc HN Hq. destruct (so_stream1 c qi ts h Hc HN Hq) as (outs & o' & h' & E1 & E2 & E3).
  exists outs, o', h'. split; [exact E1|]. split; [exact E2|]. intros n d Hn.
  specialize (E3 n d Hn). destruct (n + 1 <? c_N c); [exact E3|].
  destruct E3 as (q & F1 & F2). eexists. split; [exact F2|].
  unfold so_forward. rewrite F1. cbn [bind]. rewrite mha_forward_attn1 by auto.
  reflexivity.
Qed.

Lemma re_step_forward (c : cfg K) ts h : supported c -> 2 <= c_N c ->
  exists outs o' h', m_run c (re_sdpa c) None ts h = Ok (outs, o', h')
    /\ length outs = length ts
    /\ (forall n d, n < length ts ->
        nth n outs d =
        if n + 1 <? c_N c then None
        else Some (mha_forward c (window (c_N c) n (qs_of ts))
               (window (c_N c) n (ks_of ts)) (window (c_N c) n (vs_of ts)))).
Proof.
  intros Hc HN. destruct (re_stream c ts h Hc HN) as (outs & o' & h' & E1 & E2 & E3).
  exists outs, o', h'. split; [exact E1|]. split; [exact E2|]. intros n d Hn.
  rewrite E3 by auto. rewrite mha_forward_attention by auto. reflexivity.
Qed.

End Forward.
