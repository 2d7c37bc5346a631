(** Proofs about calls that raise. *)
From Coq Require Import List ZArith Bool Arith Lia.
From Verif Require Import Base Frames CoMod Leaf Rnn Net Spec LeafSpec NetSpec NetOk Calls NetProps NetDef NetThm NetExn NetExnSpec.
Import ListNotations.

Section NetExnProof.
Context {F : Type} {FA : Frames F} {FL : FrameLaws F}.

(** The two interpreters give the same answer. *)
Definition agree {A B} (x : A * res B) (r : res (B * A)) : Prop :=
  match r with Ok (w, m) => x = (m, Ok w) | Err e => snd x = Err e end.

Lemma xco_step_agree {Ob St} (g : Ob -> option St) s (fs : F -> option St -> res (option F * option St)) o x upd :
  agree (xco_forward_step g s fs o x upd) (co_forward_step g s fs o x upd).
Proof.
  unfold xco_forward_step, co_forward_step. destruct (fs x (g o)) as [[y st]|e]; reflexivity.
Qed.

Lemma xco_steps_agree {Ob St} (g : Ob -> option St) s (fs : F -> option St -> res (option F * option St)) mk p o xs pe upd :
  agree (xco_forward_steps g s fs mk p o xs pe upd) (co_forward_steps g s fs mk p o xs pe upd).
Proof.
  unfold xco_forward_steps, co_forward_steps. destruct (co_loop fs xs (g o)) as [[ys st]|e]; [|reflexivity].
  cbn [bind]. destruct pe; cbn [bind]; [|now rewrite app_nil_r].
  destruct (end_frames mk p xs) as [l|e]; [|reflexivity]. cbn [bind].
  destruct (co_loop fs l _) as [[zs st']|e]; reflexivity.
Qed.

Lemma xmap_agree {A B C D} (f : A -> B) (g : C -> D) x r : agree x r ->
  agree (xmap f g x) (bind r (fun p => Ok (g (fst p), f (snd p)))).
Proof. destruct r as [[c a]|e]; cbn [agree bind fst snd]; intros E; unfold xmap; [subst; reflexivity|now rewrite E]. Qed.

Lemma agree_bind {A B D} (x : A * res B) r (k : B * A -> res D) (k' : B * A -> res D) :
  agree x r -> (forall p, k p = k' p) -> bind r k = bind r k'.
Proof. intros _ H. destruct r; simpl; auto. Qed.

Section L.
Variable xc : md F -> val F -> md F * res (val F).
Variable c : md F -> val F -> res (val F * md F).

Lemma xseq_step_agree ms : Forall (fun m => forall v, agree (xc m v) (c m v)) ms ->
  forall v, agree (xseq_step xc ms v) (seq_step c ms v).
Proof.
  induction 1 as [|m ms Hm HF IH]; intros v; cbn [xseq_step seq_step]; [reflexivity|].
  specialize (Hm v). destruct (c m v) as [[v1 m1]|e]; cbn [agree bind] in *.
  - rewrite Hm. destruct (is_none v1); [reflexivity|]. specialize (IH v1).
    destruct (seq_step c ms v1) as [[v2 t2]|e]; cbn [agree bind] in *; [now rewrite IH|].
    destruct (xseq_step xc ms v1). exact IH.
  - destruct (xc m v) as [m1 r]. simpl in Hm. subst r. reflexivity.
Qed.

Lemma xseq_steps_agree ms : Forall (fun m => forall v, agree (xc m v) (c m v)) ms ->
  forall v, agree (xseq_steps xc ms v) (seq_steps c ms v).
Proof.
  induction 1 as [|m ms Hm HF IH]; intros v; cbn [xseq_steps seq_steps]; [reflexivity|].
  destruct (stops v); [reflexivity|].
  specialize (Hm v). destruct (c m v) as [[v1 m1]|e]; cbn [agree bind] in *.
  - rewrite Hm. specialize (IH v1).
    destruct (seq_steps c ms v1) as [[v2 t2]|e]; cbn [agree bind] in *; [now rewrite IH|].
    destruct (xseq_steps xc ms v1). exact IH.
  - destruct (xc m v) as [m1 r]. simpl in Hm. subst r. reflexivity.
Qed.

Lemma xpar_agree ms : Forall (fun m => forall v, agree (xc m v) (c m v)) ms ->
  forall l, agree (xpar_run xc ms l) (par_run c ms l).
Proof.
  induction 1 as [|m ms Hm HF IH]; intros l; cbn [xpar_run par_run]; [reflexivity|].
  destruct l as [|v l]; [reflexivity|].
  specialize (Hm v). destruct (c m v) as [[v1 m1]|e]; cbn [agree bind] in *.
  - rewrite Hm. specialize (IH l).
    destruct (par_run c ms l) as [[v2 t2]|e]; cbn [agree bind] in *; [now rewrite IH|].
    destruct (xpar_run xc ms l). simpl in *. now subst.
  - destruct (xc m v) as [m1 r]. simpl in Hm. subst r. reflexivity.
Qed.

Lemma xbr_agree ms : Forall (fun m => forall v, agree (xc m v) (c m v)) ms ->
  forall v, agree (xbr_run xc ms v) (br_run c ms v).
Proof.
  induction 1 as [|m ms Hm HF IH]; intros v; cbn [xbr_run br_run]; [reflexivity|].
  specialize (Hm v). destruct (c m v) as [[v1 m1]|e]; cbn [agree bind] in *.
  - rewrite Hm. specialize (IH v).
    destruct (br_run c ms v) as [[v2 t2]|e]; cbn [agree bind] in *; [now rewrite IH|].
    destruct (xbr_run xc ms v). simpl in *. now subst.
  - destruct (xc m v) as [m1 r]. simpl in Hm. subst r. reflexivity.
Qed.
End L.

Lemma agree_ext {A B} (x : A * res B) r r' : r = r' -> agree x r -> agree x r'.
Proof. now intros ->. Qed.

Lemma xdelay_step_agree d f sh o x upd :
  agree (xdelay_forward_step d f sh o x upd) (delay_forward_step d f sh o x upd).
Proof.
  unfold xdelay_forward_step, delay_forward_step. destruct (Nat.eqb d 0); [reflexivity|apply xco_step_agree].
Qed.
Lemma xdelay_steps_agree d f sh o x pe upd :
  agree (xdelay_forward_steps d f sh o x pe upd) (delay_forward_steps d f sh o x pe upd).
Proof.
  unfold xdelay_forward_steps, delay_forward_steps. destruct (Nat.eqb d 0); [reflexivity|apply xco_steps_agree].
Qed.
Lemma xrnn_step_agree (c : rnn_cfg F) o x upd : agree (xrnn_forward_step c o x upd) (rnn_forward_step c o x upd).
Proof. unfold xrnn_forward_step, rnn_forward_step. destruct (rnn_fstep c x o) as [[? ?]|?]; reflexivity. Qed.
Lemma xrnn_steps_agree (c : rnn_cfg F) o x pe upd : agree (xrnn_forward_steps c o x upd) (rnn_forward_steps c o x pe upd).
Proof. unfold xrnn_forward_steps, rnn_forward_steps. destruct (torch_rnn c x o) as [[? ?]|?]; reflexivity. Qed.

Ltac leaf_agree H :=
  eapply agree_ext; [|apply xmap_agree, H];
  match goal with |- bind ?r _ = bind ?r' _ => change r with r'; destruct r' as [[? ?]|?]; reflexivity end.

Theorem xstep_agree m : forall v upd, agree (xstep m v upd) (step m v upd).
Proof.
  induction m using md_ind'; intros v upd; cbn [xstep step].
  - destruct v; try reflexivity. leaf_agree xdelay_step_agree.
  - destruct v; try reflexivity. leaf_agree (xco_step_agree skip_get skip_set (skip_fstep n)).
  - destruct v; try reflexivity. leaf_agree (xco_step_agree obj_get obj_set (conv_fstep c)).
  - destruct v; try reflexivity. leaf_agree (xco_step_agree obj_get obj_set (pool_fstep c)).
  - destruct v; reflexivity.
  - destruct v; try reflexivity. leaf_agree xrnn_step_agree.
  - assert (G := xseq_step_agree (fun m v => xstep m v upd) (fun m v => step m v upd) ms
                   ltac:(eapply Forall_impl; [|exact H]; cbn beta; auto) v).
    destruct (seq_step _ ms v) as [[w ms']|e]; cbn [agree bind] in *; [now rewrite G|].
    destruct (xseq_step _ ms v). exact G.
  - destruct (broadcast_val n v); reflexivity.
  - destruct v; try reflexivity.
    assert (G := xpar_agree (fun m v => xstep m v upd) (fun m v => step m v upd) ms
                   ltac:(eapply Forall_impl; [|exact H]; cbn beta; auto) l).
    destruct (par_run _ ms l) as [[w ms']|e]; cbn [agree bind] in *; unfold xmap; now rewrite G.
  - destruct (dispatch_val d v); reflexivity.
  - destruct (reduce_step r v); reflexivity.
  - assert (G := xbr_agree (fun m v => xstep m v upd) (fun m v => step m v upd) ms
                   ltac:(eapply Forall_impl; [|exact H]; cbn beta; auto) v).
    destruct (br_run _ ms v) as [[w ms']|e]; cbn [agree bind] in *.
    + rewrite G. destruct (if forallb is_tensor w then _ else _); reflexivity.
    + destruct (xbr_run _ ms v) as [ms' rr]. simpl in G. now subst.
  - destruct (p v).
    + specialize (IHm v upd). destruct (step m v upd) as [[w a']|e]; cbn [agree bind] in *; [now rewrite IHm|].
      destruct (xstep m v upd). exact IHm.
    + destruct b as [b0|]; [|reflexivity]. specialize (H b0 eq_refl v upd).
      destruct (step b0 v upd) as [[w a']|e]; cbn [agree bind] in *; [now rewrite H|].
      destruct (xstep b0 v upd). exact H.
Qed.

Theorem xsteps_agree m : forall v pe upd, agree (xsteps m v pe upd) (steps m v pe upd).
Proof.
  induction m using md_ind'; intros v pe upd; cbn [xsteps steps].
  - destruct v; try reflexivity. leaf_agree xdelay_steps_agree.
  - destruct v; try reflexivity. leaf_agree (xco_steps_agree skip_get skip_set (skip_fstep n) (fun _ : F => f0) 0).
  - destruct v; try reflexivity. leaf_agree (xco_steps_agree obj_get obj_set (conv_fstep c) (make_padding (cfill c)) (cp c)).
  - destruct v; try reflexivity. leaf_agree (xco_steps_agree obj_get obj_set (pool_fstep c) (make_padding (pfill c)) (pp c)).
  - destruct v; reflexivity.
  - destruct v; try reflexivity. leaf_agree (xrnn_steps_agree c o xs pe upd).
  - assert (G := xseq_steps_agree (fun m v => xsteps m v pe upd) (fun m v => steps m v pe upd) ms
                   ltac:(eapply Forall_impl; [|exact H]; cbn beta; auto) v).
    destruct (seq_steps _ ms v) as [[w ms']|e]; cbn [agree bind] in *; [now rewrite G|].
    destruct (xseq_steps _ ms v). exact G.
  - destruct (broadcast_val n v); reflexivity.
  - destruct v; try reflexivity.
    assert (G := xpar_agree (fun m v => xsteps m v pe upd) (fun m v => steps m v pe upd) ms
                   ltac:(eapply Forall_impl; [|exact H]; cbn beta; auto) l).
    destruct (par_run _ ms l) as [[w ms']|e]; cbn [agree bind] in *; unfold xmap; now rewrite G.
  - destruct (dispatch_val d v); reflexivity.
  - destruct (reduce_fwd r v); reflexivity.
  - assert (G := xbr_agree (fun m v => xsteps m v pe upd) (fun m v => steps m v pe upd) ms
                   ltac:(eapply Forall_impl; [|exact H]; cbn beta; auto) v).
    destruct (br_run _ ms v) as [[w ms']|e]; cbn [agree bind] in *.
    + rewrite G. destruct (reduce_vals r w); reflexivity.
    + destruct (xbr_run _ ms v) as [ms' rr]. simpl in G. now subst.
  - destruct (p v).
    + specialize (IHm v false true). destruct (steps m v false true) as [[w a']|e]; cbn [agree bind] in *; [now rewrite IHm|].
      destruct (xsteps m v false true). exact IHm.
    + destruct b as [b0|]; [|reflexivity]. specialize (H b0 eq_refl v false true).
      destruct (steps b0 v false true) as [[w a']|e]; cbn [agree bind] in *; [now rewrite H|].
      destruct (xsteps b0 v false true). exact H.
Qed.

Theorem xcall_agree m c : agree (xcall m c) (do_call m c).
Proof.
  destruct c; cbn [xcall do_call].
  - apply xstep_agree.
  - apply xsteps_agree.
  - destruct (fwd m v); reflexivity.
  - reflexivity.
Qed.

(** Without exceptions the histories coincide. *)
Theorem xrun_agree cs : forall m,
  match run_calls m cs with
  | Ok (ws, m') => xrun m cs = (m', map Ok ws)
  | Err e => exists n, nth_error (snd (xrun m cs)) n = Some (Err e) /\
                       forall k r, k < n -> nth_error (snd (xrun m cs)) k = Some r -> exists w, r = Ok w
  end.
Proof.
  induction cs as [|c cs IH]; intros m; cbn [run_calls xrun]; [reflexivity|].
  assert (G := xcall_agree m c). destruct (do_call m c) as [[w m1]|e]; cbn [agree bind] in *.
  - rewrite G. specialize (IH m1). destruct (run_calls m1 cs) as [[ws m2]|e]; cbn [bind].
    + rewrite IH. reflexivity.
    + destruct IH as (n & E & Hk). destruct (xrun m1 cs) as [m2 rs]. exists (S n). split; [exact E|].
      intros [|k] r Hlt Er; cbn in Er; [injection Er as <-; eauto|]. apply (Hk k); [lia|exact Er].
  - destruct (xcall m c) as [m1 r]. simpl in G. subst r. destruct (xrun m1 cs) as [m2 rs].
    exists 0. split; [reflexivity|]. intros; lia.
Qed.

(* ------------------------------------------------------------------ *)
(** ** Where a container is left when it raises *)

Lemma xok m c w m' : xcall m c = (m', Ok w) <-> do_call m c = Ok (w, m').
Proof.
  assert (G := xcall_agree m c). destruct (do_call m c) as [[w0 m0]|e]; cbn [agree] in G.
  - rewrite G. split; intros E; inversion E; subst; reflexivity.
  - destruct (xcall m c) as [m1 r]. simpl in G. subst r. split; discriminate.
Qed.

Section Where.
Variable xc : md F -> val F -> md F * res (val F).
Variable c : md F -> val F -> res (val F * md F).
Hypothesis A : forall m v, agree (xc m v) (c m v).

Lemma xc_ok m v w m' : xc m v = (m', Ok w) -> c m v = Ok (w, m').
Proof.
  intros E. specialize (A m v). rewrite E in A. destruct (c m v) as [[w0 m0]|e]; cbn in A; [|discriminate].
  injection A as <- <-. reflexivity.
Qed.

Lemma xseq_step_where ms : forall v ms' e, xseq_step xc ms v = (ms', Err e) ->
  exists pre m post v1 pre' m', ms = pre ++ m :: post /\ ms' = pre' ++ m' :: post /\
    seq_step c pre v = Ok (v1, pre') /\ (is_none v1 = false \/ pre = []) /\ xc m v1 = (m', Err e).
Proof.
  induction ms as [|m ms IH]; intros v ms' e E; cbn [xseq_step] in E; [discriminate|].
  destruct (xc m v) as [m1 [v1|e1]] eqn:E1.
  - apply xc_ok in E1. destruct (is_none v1) eqn:En; [discriminate|].
    destruct (xseq_step xc ms v1) as [t2 r] eqn:E2. injection E as <- ->.
    destruct (IH _ _ _ E2) as (pre & m0 & post & v2 & pre' & m0' & -> & -> & Es & Hn & Ef).
    exists (m :: pre), m0, post, v2, (m1 :: pre'), m0'. cbn [seq_step]. rewrite E1. cbn [bind]. rewrite En, Es.
    cbn [bind]. split; [reflexivity|]. split; [reflexivity|]. split; [reflexivity|]. split; [|exact Ef].
    left. destruct Hn as [Hn| ->]; [exact Hn|]. cbn [seq_step] in Es. injection Es as <- _. exact En.
  - injection E as <- <-. exists [], m, ms, v, [], m1. cbn [seq_step]. auto 8.
Qed.

Lemma xseq_steps_where ms : forall v ms' e, xseq_steps xc ms v = (ms', Err e) ->
  exists pre m post v1 pre' m', ms = pre ++ m :: post /\ ms' = pre' ++ m' :: post /\
    seq_steps c pre v = Ok (v1, pre') /\ stops v1 = false /\ xc m v1 = (m', Err e).
Proof.
  induction ms as [|m ms IH]; intros v ms' e E; cbn [xseq_steps] in E; [discriminate|].
  destruct (stops v) eqn:Es0; [discriminate|].
  destruct (xc m v) as [m1 [v1|e1]] eqn:E1.
  - apply xc_ok in E1.
    destruct (xseq_steps xc ms v1) as [t2 r] eqn:E2. injection E as <- ->.
    destruct (IH _ _ _ E2) as (pre & m0 & post & v2 & pre' & m0' & -> & -> & Es & Hn & Ef).
    exists (m :: pre), m0, post, v2, (m1 :: pre'), m0'. cbn [seq_steps]. rewrite Es0, E1. cbn [bind]. rewrite Es.
    cbn [bind]. auto 10.
  - injection E as <- <-. exists [], m, ms, v, [], m1. cbn [seq_steps]. auto 8.
Qed.

Lemma xpar_where ms : forall l ms' e, xpar_run xc ms l = (ms', Err e) ->
  exists pre m post m' pre' vs k, ms = pre ++ m :: post /\ ms' = pre' ++ m' :: post /\
    par_run c pre l = Ok (vs, pre') /\ k = length pre /\
    match nth_error l k with
    | Some x => xc m x = (m', Err e)
    | None => m' = m /\ e = IndexError
    end.
Proof.
  induction ms as [|m ms IH]; intros l ms' e E; cbn [xpar_run] in E; [discriminate|].
  destruct l as [|x l].
  - injection E as <- <-. exists [], m, ms, m, [], [], 0. cbn. auto 10.
  - destruct (xc m x) as [m1 [v1|e1]] eqn:E1.
    + apply xc_ok in E1. destruct (xpar_run xc ms l) as [t2 [r|e2]] eqn:E2; [discriminate|]. injection E as <- <-.
      destruct (IH _ _ _ E2) as (pre & m0 & post & m0' & pre' & vs & k & -> & -> & Es & -> & Ef).
      exists (m :: pre), m0, post, m0', (m1 :: pre'), (v1 :: vs), (S (length pre)).
      cbn [par_run nth_error length]. rewrite E1. cbn [bind]. rewrite Es. cbn [bind]. auto 10.
    + injection E as <- <-. exists [], m, ms, m1, [], [], 0. cbn. auto 10.
Qed.

Lemma xbr_where ms : forall v ms' e, xbr_run xc ms v = (ms', Err e) ->
  exists pre m post m' pre' vs, ms = pre ++ m :: post /\ ms' = pre' ++ m' :: post /\
    br_run c pre v = Ok (vs, pre') /\ xc m v = (m', Err e).
Proof.
  induction ms as [|m ms IH]; intros v ms' e E; cbn [xbr_run] in E; [discriminate|].
  destruct (xc m v) as [m1 [v1|e1]] eqn:E1.
  - apply xc_ok in E1. destruct (xbr_run xc ms v) as [t2 [r|e2]] eqn:E2; [discriminate|]. injection E as <- <-.
    destruct (IH _ _ _ E2) as (pre & m0 & post & m0' & pre' & vs & -> & -> & Es & Ef).
    exists (m :: pre), m0, post, m0', (m1 :: pre'), (v1 :: vs).
    cbn [br_run]. rewrite E1. cbn [bind]. rewrite Es. cbn [bind]. auto 10.
  - injection E as <- <-. exists [], m, ms, m1, [], []. cbn. auto 10.
Qed.

Lemma xc_of_ok m v w m' : c m v = Ok (w, m') -> xc m v = (m', Ok w).
Proof. intros E. specialize (A m v). rewrite E in A. exact A. Qed.

Lemma xseq_step_where' pre : forall v v1 pre' m m' post e,
  seq_step c pre v = Ok (v1, pre') -> (is_none v1 = false \/ pre = []) -> xc m v1 = (m', Err e) ->
  xseq_step xc (pre ++ m :: post) v = (pre' ++ m' :: post, Err e).
Proof.
  induction pre as [|m0 pre IH]; intros v v1 pre' m m' post e Es Hn Ef; cbn [seq_step] in Es.
  - injection Es as <- <-. cbn. now rewrite Ef.
  - destruct (c m0 v) as [[v2 m2]|] eqn:E2; [|discriminate]. cbn [bind] in Es. apply xc_of_ok in E2.
    destruct Hn as [Hn|Hn]; [|discriminate]. cbn [app xseq_step]. rewrite E2.
    destruct (is_none v2) eqn:En2; [injection Es as <- <-; discriminate|].
    destruct (seq_step c pre v2) as [[v3 t3]|] eqn:E3; [|discriminate]. cbn [bind] in Es. injection Es as <- <-.
    rewrite (IH _ _ _ _ _ post _ E3 (or_introl Hn) Ef). reflexivity.
Qed.

Lemma seq_steps_stopped ms v w ms' : seq_steps c ms v = Ok (w, ms') -> stops w = false -> stops v = false.
Proof.
  destruct ms as [|m ms]; cbn [seq_steps]; [intros E; injection E as <- <-; auto|].
  destruct (stops v); [|auto]. intros E; injection E as <- <-. discriminate.
Qed.

Lemma xseq_steps_where' pre : forall v v1 pre' m m' post e,
  seq_steps c pre v = Ok (v1, pre') -> stops v1 = false -> xc m v1 = (m', Err e) ->
  xseq_steps xc (pre ++ m :: post) v = (pre' ++ m' :: post, Err e).
Proof.
  induction pre as [|m0 pre IH]; intros v v1 pre' m m' post e Es Hn Ef; pose proof (seq_steps_stopped _ _ _ _ Es Hn) as Hv;
    cbn [seq_steps] in Es; cbn [app xseq_steps]; rewrite ?Hv in *.
  - injection Es as <- <-. cbn. now rewrite Ef.
  - destruct (c m0 v) as [[v2 m2]|] eqn:E2; [|discriminate]. cbn [bind] in Es. apply xc_of_ok in E2.
    rewrite E2.
    destruct (seq_steps c pre v2) as [[v3 t3]|] eqn:E3; [|discriminate]. cbn [bind] in Es. injection Es as <- <-.
    rewrite (IH _ _ _ _ _ post _ E3 Hn Ef). reflexivity.
Qed.

Lemma xpar_where' pre : forall l vs pre' m m' post e,
  par_run c pre l = Ok (vs, pre') ->
  match nth_error l (length pre) with
  | Some x => xc m x = (m', Err e)
  | None => m' = m /\ e = IndexError
  end ->
  xpar_run xc (pre ++ m :: post) l = (pre' ++ m' :: post, Err e).
Proof.
  induction pre as [|m0 pre IH]; intros l vs pre' m m' post e Es Ef; cbn [par_run] in Es; cbn [app xpar_run].
  - injection Es as <- <-. destruct l as [|x l]; cbn in Ef; [destruct Ef as [-> ->]; reflexivity|].
    cbn. now rewrite Ef.
  - destruct l as [|x l]; [discriminate|].
    destruct (c m0 x) as [[v2 m2]|] eqn:E2; [|discriminate]. cbn [bind] in Es. apply xc_of_ok in E2. rewrite E2.
    destruct (par_run c pre l) as [[v3 t3]|] eqn:E3; [|discriminate]. cbn [bind] in Es. injection Es as <- <-.
    cbn [length nth_error] in Ef. rewrite (IH _ _ _ _ _ post _ E3 Ef). reflexivity.
Qed.

Lemma xbr_where' pre : forall v vs pre' m m' post e,
  br_run c pre v = Ok (vs, pre') -> xc m v = (m', Err e) ->
  xbr_run xc (pre ++ m :: post) v = (pre' ++ m' :: post, Err e).
Proof.
  induction pre as [|m0 pre IH]; intros v vs pre' m m' post e Es Ef; cbn [br_run] in Es; cbn [app xbr_run].
  - injection Es as <- <-. cbn. now rewrite Ef.
  - destruct (c m0 v) as [[v2 m2]|] eqn:E2; [|discriminate]. cbn [bind] in Es. apply xc_of_ok in E2. rewrite E2.
    destruct (br_run c pre v) as [[v3 t3]|] eqn:E3; [|discriminate]. cbn [bind] in Es. injection Es as <- <-.
    rewrite (IH _ _ _ _ _ post _ E3 Ef). reflexivity.
Qed.

(** The branches one by one. *)
Lemma br_run_each ms : forall v vs ms', br_run c ms v = Ok (vs, ms') <->
  exists ps, Forall2 (fun m p => c m v = Ok p) ms ps /\ vs = map fst ps /\ ms' = map snd ps.
Proof.
  induction ms as [|m ms IH]; intros v vs ms'; cbn [br_run].
  - split; [intros E; injection E as <- <-; exists []; auto|].
    intros (ps & H & -> & ->). inversion H. reflexivity.
  - split.
    + destruct (c m v) as [[v1 m1]|] eqn:E1; [|discriminate]. cbn [bind].
      destruct (br_run c ms v) as [[v2 t2]|] eqn:E2; [|discriminate]. cbn [bind]. intros E; injection E as <- <-.
      apply IH in E2 as (ps & H & -> & ->). exists ((v1, m1) :: ps). auto.
    + intros (ps & H & -> & ->). inversion H as [|? [v1 m1] ? pt E1 Ht]; subst. rewrite E1. cbn [bind].
      rewrite (proj2 (IH v (map fst pt) (map snd pt))) by eauto. reflexivity.
Qed.
End Where.

Lemma seq_step_md call ms v w ms' : forall upd, call = (fun (m : md F) v => step m v upd) ->
  (seq_step call ms v = Ok (w, ms') <-> step (MSeq ms) v upd = Ok (w, MSeq ms')).
Proof.
  intros upd ->. cbn [step]. destruct (seq_step _ ms v) as [[? ?]|]; cbn [bind]; split; intros E; inversion E; subst; reflexivity.
Qed.
Lemma seq_steps_md call ms v w ms' : forall pe upd, call = (fun (m : md F) v => steps m v pe upd) ->
  (seq_steps call ms v = Ok (w, ms') <-> steps (MSeq ms) v pe upd = Ok (w, MSeq ms')).
Proof.
  intros pe upd ->. cbn [steps]. destruct (seq_steps _ ms v) as [[? ?]|]; cbn [bind]; split; intros E; inversion E; subst; reflexivity.
Qed.

Theorem sequential_step_fails ms v upd m' e :
  xstep (MSeq ms) v upd = (m', Err e) <->
  exists pre m post v1 pre' bad,
    ms = pre ++ m :: post /\ m' = MSeq (pre' ++ bad :: post) /\
    step (MSeq pre) v upd = Ok (v1, MSeq pre') /\ (v1 <> VNone \/ pre = []) /\
    xstep m v1 upd = (bad, Err e).
Proof.
  assert (N : forall v1 : val F, is_none v1 = false <-> v1 <> VNone) by (intros [| | |]; cbn; intuition congruence).
  cbn [xstep]. split.
  - destruct (xseq_step _ ms v) as [ms' r] eqn:E. intros H; injection H as <- ->.
    apply (xseq_step_where _ (fun m v => step m v upd) (fun m v => xstep_agree m v upd)) in E
      as (pre & m & post & v1 & pre' & b & -> & -> & Es & Hn & Ef).
    exists pre, m, post, v1, pre', b. rewrite <- (seq_step_md _ _ _ _ _ upd eq_refl), <- N. auto 10.
  - intros (pre & m & post & v1 & pre' & b & -> & -> & Es & Hn & Ef).
    apply (seq_step_md _ _ _ _ _ upd eq_refl) in Es. rewrite <- N in Hn.
    rewrite (xseq_step_where' (fun m v => xstep m v upd) _ (fun m v => xstep_agree m v upd) _ _ _ _ _ _ post _ Es Hn Ef). reflexivity.
Qed.

Theorem sequential_steps_fails ms v pe upd m' e :
  xsteps (MSeq ms) v pe upd = (m', Err e) <->
  exists pre m post v1 pre' bad,
    ms = pre ++ m :: post /\ m' = MSeq (pre' ++ bad :: post) /\
    steps (MSeq pre) v pe upd = Ok (v1, MSeq pre') /\ (v1 <> VNone /\ v1 <> VL []) /\
    xsteps m v1 pe upd = (bad, Err e).
Proof.
  assert (N : forall v1 : val F, stops v1 = false <-> (v1 <> VNone /\ v1 <> VL [])).
  { intros [| | |[|]]; cbn; split; intros; try split; try congruence; tauto. }
  cbn [xsteps]. split.
  - destruct (xseq_steps _ ms v) as [ms' r] eqn:E. intros H; injection H as <- ->.
    apply (xseq_steps_where _ (fun m v => steps m v pe upd) (fun m v => xsteps_agree m v pe upd)) in E
      as (pre & m & post & v1 & pre' & b & -> & -> & Es & Hn & Ef).
    exists pre, m, post, v1, pre', b. rewrite <- (seq_steps_md _ _ _ _ _ pe upd eq_refl), <- N. auto 10.
  - intros (pre & m & post & v1 & pre' & b & -> & -> & Es & Hn & Ef).
    apply (seq_steps_md _ _ _ _ _ pe upd eq_refl) in Es. rewrite <- N in Hn.
    rewrite (xseq_steps_where' (fun m v => xsteps m v pe upd) _ (fun m v => xsteps_agree m v pe upd) _ _ _ _ _ _ post _ Es Hn Ef). reflexivity.
Qed.

Lemma par_run_md ms l vs ms' upd :
  par_run (fun m v => step m v upd) ms l = Ok (vs, ms') <-> step (MPar ms) (VL l) upd = Ok (VL vs, MPar ms').
Proof.
  cbn [step]. destruct (par_run _ ms l) as [[? ?]|]; cbn [bind]; split; intros E; inversion E; subst; reflexivity.
Qed.
Lemma par_runs_md ms l vs ms' pe upd :
  par_run (fun m v => steps m v pe upd) ms l = Ok (vs, ms') <-> steps (MPar ms) (VL l) pe upd = Ok (VL vs, MPar ms').
Proof.
  cbn [steps]. destruct (par_run _ ms l) as [[? ?]|]; cbn [bind]; split; intros E; inversion E; subst; reflexivity.
Qed.

Theorem parallel_step_fails ms l upd m' e :
  xstep (MPar ms) (VL l) upd = (m', Err e) <->
  exists pre m post vs pre' bad,
    ms = pre ++ m :: post /\ m' = MPar (pre' ++ bad :: post) /\
    step (MPar pre) (VL l) upd = Ok (VL vs, MPar pre') /\
    match nth_error l (length pre) with
    | Some x => xstep m x upd = (bad, Err e)
    | None => bad = m /\ e = IndexError
    end.
Proof.
  cbn [xstep]. unfold xmap. split.
  - destruct (xpar_run _ ms l) as [ms' [w|e0]] eqn:E; cbn [fst snd]; [discriminate|]. intros H; injection H as <- <-.
    apply (xpar_where _ (fun m v => step m v upd) (fun m v => xstep_agree m v upd)) in E
      as (pre & m & post & bad & pre' & vs & k & -> & -> & Es & -> & Ef).
    exists pre, m, post, vs, pre', bad. rewrite <- par_run_md. auto 10.
  - intros (pre & m & post & vs & pre' & bad & -> & -> & Es & Ef). apply par_run_md in Es.
    rewrite (xpar_where' (fun m v => xstep m v upd) _ (fun m v => xstep_agree m v upd) _ _ _ _ _ _ post _ Es Ef). reflexivity.
Qed.

Theorem parallel_steps_fails ms l pe upd m' e :
  xsteps (MPar ms) (VL l) pe upd = (m', Err e) <->
  exists pre m post vs pre' bad,
    ms = pre ++ m :: post /\ m' = MPar (pre' ++ bad :: post) /\
    steps (MPar pre) (VL l) pe upd = Ok (VL vs, MPar pre') /\
    match nth_error l (length pre) with
    | Some x => xsteps m x pe upd = (bad, Err e)
    | None => bad = m /\ e = IndexError
    end.
Proof.
  cbn [xsteps]. unfold xmap. split.
  - destruct (xpar_run _ ms l) as [ms' [w|e0]] eqn:E; cbn [fst snd]; [discriminate|]. intros H; injection H as <- <-.
    apply (xpar_where _ (fun m v => steps m v pe upd) (fun m v => xsteps_agree m v pe upd)) in E
      as (pre & m & post & bad & pre' & vs & k & -> & -> & Es & -> & Ef).
    exists pre, m, post, vs, pre', bad. rewrite <- par_runs_md. auto 10.
  - intros (pre & m & post & vs & pre' & bad & -> & -> & Es & Ef). apply par_runs_md in Es.
    rewrite (xpar_where' (fun m v => xsteps m v pe upd) _ (fun m v => xsteps_agree m v pe upd) _ _ _ _ _ _ post _ Es Ef). reflexivity.
Qed.

Section BR.
Variable xc : md F -> val F -> md F * res (val F).
Variable c : md F -> val F -> res (val F * md F).
Hypothesis A : forall m v, agree (xc m v) (c m v).

Lemma br_fails ms r v (red : list (val F) -> res (val F)) m' e :
  match xbr_run xc ms v with
  | (ms', Err e) => (MBR ms' r, Err e)
  | (ms', Ok vs) => (MBR ms' r, red vs)
  end = (m', Err e) <->
  (exists pre m post ps bad,
     ms = pre ++ m :: post /\ m' = MBR (map snd ps ++ bad :: post) r /\
     Forall2 (fun m p => c m v = Ok p) pre ps /\ xc m v = (bad, Err e)) \/
  (exists ps, m' = MBR (map snd ps) r /\ Forall2 (fun m p => c m v = Ok p) ms ps /\
              red (map fst ps) = Err e).
Proof.
  split.
  - destruct (xbr_run xc ms v) as [ms' [vs|e0]] eqn:E; intros H; injection H as <-.
    + right. pose proof (xbr_agree xc c ms ltac:(apply Forall_forall; auto) v) as G. rewrite E in G.
      destruct (br_run c ms v) as [[w t]|] eqn:Eb; cbn [agree] in G; [|discriminate]. injection G as <- <-.
      apply br_run_each in Eb as (ps & Hp & -> & ->). eauto.
    + subst e0. left. apply (xbr_where _ c A) in E as (pre & m & post & bad & pre' & vs & -> & -> & Es & Ef).
      apply br_run_each in Es as (ps & Hp & -> & ->). exists pre, m, post, ps, bad. auto.
  - intros [(pre & m & post & ps & bad & -> & -> & Hp & Ef)|(ps & -> & Hp & Er)].
    + rewrite (xbr_where' xc c A pre v (map fst ps) (map snd ps) m bad post e); [reflexivity| |exact Ef].
      apply br_run_each. eauto.
    + assert (Eb : br_run c ms v = Ok (map fst ps, map snd ps)) by (apply br_run_each; eauto).
      pose proof (xbr_agree xc c ms ltac:(apply Forall_forall; auto) v) as G. rewrite Eb in G. cbn [agree] in G.
      rewrite G, Er. reflexivity.
Qed.
End BR.

Theorem broadcast_reduce_step_fails ms r v upd m' e :
  xstep (MBR ms r) v upd = (m', Err e) <->
  (exists pre m post ps bad,
     ms = pre ++ m :: post /\ m' = MBR (map snd ps ++ bad :: post) r /\
     Forall2 (fun m p => step m v upd = Ok p) pre ps /\ xstep m v upd = (bad, Err e)) \/
  (exists ps, m' = MBR (map snd ps) r /\ Forall2 (fun m p => step m v upd = Ok p) ms ps /\
              forallb is_tensor (map fst ps) = true /\ reduce_vals r (map fst ps) = Err e).
Proof.
  cbn [xstep]. rewrite (br_fails _ (fun m v => step m v upd) (fun m v => xstep_agree m v upd) ms r v
    (fun vs => if forallb is_tensor vs then reduce_vals r vs else Ok VNone)).
  assert (G : forall ps : list (val F * md F), (if forallb is_tensor (map fst ps) then reduce_vals r (map fst ps) else Ok VNone) = Err e <->
     forallb is_tensor (map fst ps) = true /\ reduce_vals r (map fst ps) = Err e).
  { intros ps. destruct (forallb _ _); intuition discriminate. }
  split; (intros [H|(ps & H1 & H2 & H3)]; [left; exact H|right; exists ps; apply G in H3; auto]).
Qed.

Theorem broadcast_reduce_steps_fails ms r v pe upd m' e :
  xsteps (MBR ms r) v pe upd = (m', Err e) <->
  (exists pre m post ps bad,
     ms = pre ++ m :: post /\ m' = MBR (map snd ps ++ bad :: post) r /\
     Forall2 (fun m p => steps m v pe upd = Ok p) pre ps /\ xsteps m v pe upd = (bad, Err e)) \/
  (exists ps, m' = MBR (map snd ps) r /\ Forall2 (fun m p => steps m v pe upd = Ok p) ms ps /\
              reduce_vals r (map fst ps) = Err e).
Proof.
  cbn [xsteps]. apply (br_fails _ (fun m v => steps m v pe upd) (fun m v => xsteps_agree m v pe upd) ms r v (reduce_vals r)).
Qed.

(* ------------------------------------------------------------------ *)
(** ** update_state=False *)

Lemma xco_step_peek {Ob St} (g : Ob -> option St) s (fs : F -> option St -> res (option F * option St)) o x :
  fst (xco_forward_step g s fs o x false) = o.
Proof. unfold xco_forward_step. destruct (fs x (g o)) as [[? [?|]]|?]; reflexivity. Qed.
Lemma xco_steps_peek {Ob St} (g : Ob -> option St) s (fs : F -> option St -> res (option F * option St)) mk p o xs pe :
  fst (xco_forward_steps g s fs mk p o xs pe false) = o.
Proof.
  unfold xco_forward_steps. destruct (co_loop fs xs (g o)) as [[ys st]|e]; [|reflexivity].
  assert (E : match st with Some _ => o | None => o end = o) by (destruct st; reflexivity). rewrite E.
  destruct pe; [|reflexivity]. destruct (end_frames mk p xs) as [l|]; [|reflexivity].
  destruct (co_loop fs l _) as [[? ?]|?]; reflexivity.
Qed.

Section PeekLoops.
Variable xc : md F -> val F -> md F * res (val F).
Lemma xseq_step_same ms : Forall (fun m => forall v, fst (xc m v) = m) ms -> forall v, fst (xseq_step xc ms v) = ms.
Proof.
  induction 1 as [|m ms Hm _ IH]; intros v; cbn [xseq_step]; [reflexivity|].
  specialize (Hm v). destruct (xc m v) as [m1 [v1|e]]; cbn in Hm; subst; [|reflexivity].
  destruct (is_none v1); [reflexivity|]. specialize (IH v1). destruct (xseq_step xc ms v1). cbn in *. now rewrite IH.
Qed.
Lemma xseq_steps_same ms : Forall (fun m => forall v, fst (xc m v) = m) ms -> forall v, fst (xseq_steps xc ms v) = ms.
Proof.
  induction 1 as [|m ms Hm _ IH]; intros v; cbn [xseq_steps]; [reflexivity|].
  destruct (stops v); [reflexivity|].
  specialize (Hm v). destruct (xc m v) as [m1 [v1|e]]; cbn in Hm; subst; [|reflexivity].
  specialize (IH v1). destruct (xseq_steps xc ms v1). cbn in *. now rewrite IH.
Qed.
Lemma xpar_same ms : Forall (fun m => forall v, fst (xc m v) = m) ms -> forall l, fst (xpar_run xc ms l) = ms.
Proof.
  induction 1 as [|m ms Hm _ IH]; intros l; cbn [xpar_run]; [reflexivity|].
  destruct l as [|v l]; [reflexivity|].
  specialize (Hm v). destruct (xc m v) as [m1 [v1|e]]; cbn in Hm; subst; [|reflexivity].
  specialize (IH l). destruct (xpar_run xc ms l). cbn in *. now rewrite IH.
Qed.
Lemma xbr_same ms : Forall (fun m => forall v, fst (xc m v) = m) ms -> forall v, fst (xbr_run xc ms v) = ms.
Proof.
  induction 1 as [|m ms Hm _ IH]; intros v; cbn [xbr_run]; [reflexivity|].
  specialize (Hm v). destruct (xc m v) as [m1 [v1|e]]; cbn in Hm; subst; [|reflexivity].
  specialize (IH v). destruct (xbr_run xc ms v). cbn in *. now rewrite IH.
Qed.
End PeekLoops.

Theorem xstep_peek m : forall v, fst (xstep m v false) = m.
Proof.
  induction m using md_ind'; intros v; cbn [xstep].
  1-4,6: destruct v; try reflexivity; unfold xmap; cbn [fst]; f_equal.
  - unfold xdelay_forward_step. destruct (Nat.eqb d 0); [reflexivity|apply xco_step_peek].
  - apply xco_step_peek.
  - apply xco_step_peek.
  - apply xco_step_peek.
  - unfold xrnn_forward_step. destruct (rnn_fstep c x o) as [[? ?]|?]; reflexivity.
  - destruct v; reflexivity.
  - pose proof (xseq_step_same (fun m v => xstep m v false) ms H v) as E.
    destruct (xseq_step _ ms v). cbn in *. now rewrite E.
  - reflexivity.
  - destruct v; try reflexivity. unfold xmap. cbn [fst]. f_equal. now apply xpar_same.
  - reflexivity.
  - reflexivity.
  - pose proof (xbr_same (fun m v => xstep m v false) ms H v) as E.
    destruct (xbr_run _ ms v) as [? [?|?]]; cbn in *; now rewrite E.
  - destruct (p v).
    + specialize (IHm v). destruct (xstep m v false). cbn in *. now rewrite IHm.
    + destruct b as [b0|]; [|reflexivity]. specialize (H b0 eq_refl v). destruct (xstep b0 v false). cbn in *. now rewrite H.
Qed.

Theorem xsteps_peek m : cond_free m -> forall v pe, fst (xsteps m v pe false) = m.
Proof.
  induction m using md_ind'; intros Hc v pe; cbn [xsteps].
  1-4,6: destruct v; try reflexivity; unfold xmap; cbn [fst]; f_equal.
  - unfold xdelay_forward_steps. destruct (Nat.eqb d 0); [reflexivity|apply xco_steps_peek].
  - apply xco_steps_peek.
  - apply xco_steps_peek.
  - apply xco_steps_peek.
  - unfold xrnn_forward_steps. destruct (torch_rnn c xs o) as [[? ?]|?]; reflexivity.
  - destruct v; reflexivity.
  - cbn [cond_free] in Hc. apply allP_Forall in Hc.
    assert (H' : Forall (fun m => forall v, fst (xsteps m v pe false) = m) ms).
    { apply Forall_forall. intros m Hm v0. rewrite Forall_forall in H, Hc. auto. }
    pose proof (xseq_steps_same (fun m v => xsteps m v pe false) ms H' v) as E.
    destruct (xseq_steps _ ms v). cbn in *. now rewrite E.
  - reflexivity.
  - destruct v; try reflexivity. unfold xmap. cbn [fst]. f_equal. apply xpar_same.
    cbn [cond_free] in Hc. apply allP_Forall in Hc.
    apply Forall_forall. intros m Hm v0. rewrite Forall_forall in H, Hc. auto.
  - reflexivity.
  - reflexivity.
  - cbn [cond_free] in Hc. apply allP_Forall in Hc.
    assert (H' : Forall (fun m => forall v, fst (xsteps m v pe false) = m) ms).
    { apply Forall_forall. intros m Hm v0. rewrite Forall_forall in H, Hc. auto. }
    pose proof (xbr_same (fun m v => xsteps m v pe false) ms H' v) as E.
    destruct (xbr_run _ ms v) as [? [?|?]]; cbn in *; now rewrite E.
  - destruct Hc.
Qed.

(* ------------------------------------------------------------------ *)
(** ** What no call changes *)

Section KeepLoops.
Variable P : md F -> md F -> Prop.
Hypothesis Prefl : forall m, P m m.
Variable xc : md F -> val F -> md F * res (val F).
Lemma F2refl ms : Forall2 P ms ms.
Proof. induction ms; auto. Qed.
Lemma xseq_step_keeps ms : Forall (fun m => forall v, P m (fst (xc m v))) ms -> forall v, Forall2 P ms (fst (xseq_step xc ms v)).
Proof.
  induction 1 as [|m ms Hm _ IH]; intros v; cbn [xseq_step]; [constructor|].
  specialize (Hm v). destruct (xc m v) as [m1 [v1|e]]; cbn in Hm; [|constructor; [exact Hm|apply F2refl]].
  destruct (is_none v1); [constructor; [exact Hm|apply F2refl]|]. specialize (IH v1). destruct (xseq_step xc ms v1). cbn in *. auto.
Qed.
Lemma xseq_steps_keeps ms : Forall (fun m => forall v, P m (fst (xc m v))) ms -> forall v, Forall2 P ms (fst (xseq_steps xc ms v)).
Proof.
  induction 1 as [|m ms Hm _ IH]; intros v; cbn [xseq_steps]; [constructor|].
  destruct (stops v); [apply F2refl|].
  specialize (Hm v). destruct (xc m v) as [m1 [v1|e]]; cbn in Hm; [|constructor; [exact Hm|apply F2refl]].
  specialize (IH v1). destruct (xseq_steps xc ms v1). cbn in *. auto.
Qed.
Lemma xpar_keeps ms : Forall (fun m => forall v, P m (fst (xc m v))) ms -> forall l, Forall2 P ms (fst (xpar_run xc ms l)).
Proof.
  induction 1 as [|m ms Hm _ IH]; intros l; cbn [xpar_run]; [constructor|].
  destruct l as [|v l]; [apply F2refl|].
  specialize (Hm v). destruct (xc m v) as [m1 [v1|e]]; cbn in Hm; [|constructor; [exact Hm|apply F2refl]].
  specialize (IH l). destruct (xpar_run xc ms l). cbn in *. auto.
Qed.
Lemma xbr_keeps ms : Forall (fun m => forall v, P m (fst (xc m v))) ms -> forall v, Forall2 P ms (fst (xbr_run xc ms v)).
Proof.
  induction 1 as [|m ms Hm _ IH]; intros v; cbn [xbr_run]; [constructor|].
  specialize (Hm v). destruct (xc m v) as [m1 [v1|e]]; cbn in Hm; [|constructor; [exact Hm|apply F2refl]].
  specialize (IH v). destruct (xbr_run xc ms v). cbn in *. auto.
Qed.
End KeepLoops.

(** The reported numbers, and the network after clean_state. *)
Definition same_reports (m m' : md F) : Prop :=
  strd m' = strd m /\ padg m' = padg m /\ rfield m' = rfield m /\ del m' = del m.
Definition kept (m m' : md F) : Prop :=
  same_reports m m' /\ (cond_free m -> clean m' = clean m /\ cond_free m').

Lemma kept_refl m : kept m m.
Proof. repeat split; auto. Qed.

Lemma F2_map {B} (f : md F -> B) (ms ms' : list (md F)) : Forall2 (fun m m' => f m' = f m) ms ms' -> map f ms' = map f ms.
Proof. induction 1; cbn; congruence. Qed.

Definition container (mk : list (md F) -> md F) : Prop :=
  mk = MSeq \/ mk = MPar \/ exists r, mk = fun ms => MBR ms r.

Lemma reports_seq mk ms ms' : container mk -> Forall2 same_reports ms ms' -> same_reports (mk ms) (mk ms').
Proof.
  intros Hmk H.
  assert (E1 : map strd ms' = map strd ms) by (apply F2_map; eapply F2_impl; [|exact H]; intros ? ? (?&?&?&?); auto).
  assert (E2 : map padg ms' = map padg ms) by (apply F2_map; eapply F2_impl; [|exact H]; intros ? ? (?&?&?&?); auto).
  assert (E3 : map rfield ms' = map rfield ms) by (apply F2_map; eapply F2_impl; [|exact H]; intros ? ? (?&?&?&?); auto).
  assert (E4 : map del ms' = map del ms) by (apply F2_map; eapply F2_impl; [|exact H]; intros ? ? (?&?&?&?); auto).
  assert (E5 : map (fun m => (padg m, strd m)) ms' = map (fun m => (padg m, strd m)) ms)
    by (apply F2_map; eapply F2_impl; [|exact H]; intros ? ? (?&?&?&?); congruence).
  assert (E6 : map (fun m => (rfield m, strd m)) ms' = map (fun m => (rfield m, strd m)) ms)
    by (apply F2_map; eapply F2_impl; [|exact H]; intros ? ? (?&?&?&?); congruence).
  assert (Er : rfield (mk ms') = rfield (mk ms)).
  { destruct Hmk as [->|[->|[r ->]]]; cbn [rfield]; rewrite ?E6, ?E3; reflexivity. }
  assert (Ep : padg (mk ms') = padg (mk ms)).
  { destruct Hmk as [->|[->|[r ->]]]; cbn [padg]; rewrite ?E5, ?E2; reflexivity. }
  assert (Es : strd (mk ms') = strd (mk ms)).
  { destruct Hmk as [->|[->|[r ->]]]; cbn [strd]; [now rewrite E1| |];
      (destruct H; [reflexivity|]; cbn in E1; congruence). }
  split; [exact Es|split; [exact Ep|split; [exact Er|]]].
  destruct Hmk as [->|[->|[r ->]]]; cbn [del]; rewrite ?E4, ?Er, ?Ep; reflexivity.
Qed.

Lemma kept_seq mk ms ms' : container mk -> Forall2 kept ms ms' -> kept (mk ms) (mk ms').
Proof.
  intros Hmk H. split; [apply reports_seq; [exact Hmk|]; eapply F2_impl; [|exact H]; intros ? ? [? _]; auto|].
  assert (Ec : allP cond_free ms -> map clean ms' = map clean ms /\ allP cond_free ms').
  { clear -H. induction H as [|m m' ms ms' [_ Hm] _ IH]; cbn; [auto|]. intros [Hc Hcs].
    destruct (Hm Hc), (IH Hcs). split; [congruence|auto]. }
  destruct Hmk as [->|[->|[r ->]]]; cbn [cond_free clean]; intros Hc; destruct (Ec Hc) as [-> ?]; auto.
Qed.

Lemma kept_leaf m m' : same_reports m m' -> clean m' = clean m -> cond_free m' -> kept m m'.
Proof. split; auto. Qed.

Theorem xstep_keeps m : forall v upd, kept m (fst (xstep m v upd)).
Proof.
  induction m using md_ind'; intros v upd; cbn [xstep].
  1-4,6: destruct v; try apply kept_refl; unfold xmap; cbn [fst]; apply kept_leaf; [repeat split|reflexivity|exact I].
  - destruct v; apply kept_refl.
  - pose proof (xseq_step_keeps kept kept_refl (fun m v => xstep m v upd) ms ltac:(eapply Forall_impl; [|exact H]; cbn beta; auto) v) as E.
    destruct (xseq_step _ ms v). apply (kept_seq MSeq); [left; auto|exact E].
  - apply kept_refl.
  - destruct v; try apply kept_refl. unfold xmap. cbn [fst]. apply (kept_seq MPar); [right; left; auto|].
    apply (xpar_keeps kept kept_refl). eapply Forall_impl; [|exact H]; cbn beta; auto.
  - apply kept_refl.
  - apply kept_refl.
  - pose proof (xbr_keeps kept kept_refl (fun m v => xstep m v upd) ms ltac:(eapply Forall_impl; [|exact H]; cbn beta; auto) v) as E.
    destruct (xbr_run _ ms v) as [? [?|?]]; (apply (kept_seq (fun ms => MBR ms r)); [right; right; eauto|exact E]).
  - destruct (p v).
    + destruct (xstep m v upd). split; [repeat split|intros []].
    + destruct b as [b0|]; [|apply kept_refl]. destruct (xstep b0 v upd). split; [repeat split|intros []].
Qed.

Theorem xsteps_keeps m : forall v pe upd, kept m (fst (xsteps m v pe upd)).
Proof.
  induction m using md_ind'; intros v pe upd; cbn [xsteps].
  1-4,6: destruct v; try apply kept_refl; unfold xmap; cbn [fst]; apply kept_leaf; [repeat split|reflexivity|exact I].
  - destruct v; apply kept_refl.
  - pose proof (xseq_steps_keeps kept kept_refl (fun m v => xsteps m v pe upd) ms ltac:(eapply Forall_impl; [|exact H]; cbn beta; auto) v) as E.
    destruct (xseq_steps _ ms v). apply (kept_seq MSeq); [left; auto|exact E].
  - apply kept_refl.
  - destruct v; try apply kept_refl. unfold xmap. cbn [fst]. apply (kept_seq MPar); [right; left; auto|].
    apply (xpar_keeps kept kept_refl). eapply Forall_impl; [|exact H]; cbn beta; auto.
  - apply kept_refl.
  - apply kept_refl.
  - pose proof (xbr_keeps kept kept_refl (fun m v => xsteps m v pe upd) ms ltac:(eapply Forall_impl; [|exact H]; cbn beta; auto) v) as E.
    destruct (xbr_run _ ms v) as [? [?|?]]; (apply (kept_seq (fun ms => MBR ms r)); [right; right; eauto|exact E]).
  - destruct (p v).
    + destruct (xsteps m v false true). split; [repeat split|intros []].
    + destruct b as [b0|]; [|apply kept_refl]. destruct (xsteps b0 v false true). split; [repeat split|intros []].
Qed.

Lemma clean_kept m : kept m (clean m).
Proof.
  assert (R : same_reports m (clean m)).
  { induction m using md_ind'; try (repeat split; fail); cbn [clean].
    - apply (reports_seq MSeq); [left; auto|]. induction H; cbn; auto.
    - apply (reports_seq MPar); [right; left; auto|]. induction H; cbn; auto.
    - apply (reports_seq (fun ms => MBR ms r)); [right; right; eauto|]. induction H; cbn; auto. }
  split; [exact R|]. apply clean_clean.
Qed.

Theorem xcall_keeps m c : kept m (fst (xcall m c)).
Proof.
  destruct c; cbn [xcall].
  - apply xstep_keeps.
  - apply xsteps_keeps.
  - apply kept_refl.
  - apply clean_kept.
Qed.

Theorem xrun_keeps cs : forall m, kept m (fst (xrun m cs)).
Proof.
  induction cs as [|c cs IH]; intros m; cbn [xrun]; [apply kept_refl|].
  pose proof (xcall_keeps m c) as [R1 C1]. destruct (xcall m c) as [m1 r]. specialize (IH m1). destruct (xrun m1 cs) as [m2 rs].
  cbn [fst] in *. destruct IH as [R2 C2]. split.
  - unfold same_reports in *. intuition congruence.
  - intros Hc. destruct (C1 Hc) as [E1 Hc1]. destruct (C2 Hc1) as [E2 Hc2]. split; [congruence|auto].
Qed.

Theorem xrun_clean m cs : cond_free m -> fresh m -> clean (fst (xrun m cs)) = m.
Proof. intros Hc Hf. destruct (xrun_keeps cs m) as [_ H]. destruct (H Hc) as [-> _]. now apply clean_fresh. Qed.

Theorem xrun_reports m cs : let m' := fst (xrun m cs) in
  strd m' = strd m /\ padg m' = padg m /\ rfield m' = rfield m /\ del m' = del m.
Proof. exact (proj1 (xrun_keeps cs m)). Qed.


(* ------------------------------------------------------------------ *)
(** ** Modules that hold their buffers themselves *)

Lemma xco_step_fails {Ob St} (g : Ob -> option St) s (fs : F -> option St -> res (option F * option St)) o x upd o' e :
  xco_forward_step g s fs o x upd = (o', Err e) -> o' = o.
Proof. unfold xco_forward_step. destruct (fs x (g o)) as [[? ?]|?]; congruence. Qed.
Lemma xco_steps_fails {Ob St} (g : Ob -> option St) s (fs : F -> option St -> res (option F * option St)) mk p o xs pe upd o' e :
  xco_forward_steps g s fs mk p o xs pe upd = (o', Err e) ->
  match co_forward_steps g s fs mk p o xs false upd with Ok (_, o1) => pe = true /\ o' = o1 | Err e' => o' = o /\ e' = e end.
Proof.
  unfold xco_forward_steps, co_forward_steps. destruct (co_loop fs xs (g o)) as [[ys st]|e0]; [|split; congruence].
  cbn [bind]. destruct pe; [|discriminate].
  destruct (end_frames mk p xs) as [l|]; [|intros E; injection E as <- _; eauto].
  destruct (co_loop fs l _) as [[? ?]|?]; [discriminate|]. intros E; injection E as <- _; eauto.
Qed.

Theorem leaf_step_fails m v upd m' e : leaf m -> xstep m v upd = (m', Err e) -> m' = m.
Proof.
  destruct m; intros Hl; try destruct Hl; cbn [xstep]; destruct v; try congruence; unfold xmap; intros E;
    injection E as <- E; f_equal.
  - unfold xdelay_forward_step in *. destruct (Nat.eqb d 0); [reflexivity|].
    destruct (xco_forward_step _ _ _ o x upd) as [o' [?|?]] eqn:G; [discriminate|]. now apply xco_step_fails in G.
  - destruct (xco_forward_step _ _ _ o x upd) as [o' [?|?]] eqn:G; [discriminate|]. now apply xco_step_fails in G.
  - destruct (xco_forward_step _ _ _ o x upd) as [o' [?|?]] eqn:G; [discriminate|]. now apply xco_step_fails in G.
  - destruct (xco_forward_step _ _ _ o x upd) as [o' [?|?]] eqn:G; [discriminate|]. now apply xco_step_fails in G.
  - unfold xrnn_forward_step in *. destruct (rnn_fstep c x o) as [[? ?]|?]; [discriminate|reflexivity].
Qed.

Theorem leaf_steps_fails m v pe upd m' e : leaf m -> xsteps m v pe upd = (m', Err e) ->
  match steps m v false upd with Ok (_, m1) => pe = true /\ m' = m1 | Err e' => m' = m /\ e' = e end.
Proof.
  destruct m; intros Hl; try destruct Hl; cbn [xsteps]; destruct v; try (intros E; cbn [steps]; split; congruence);
    unfold xmap; intros E; injection E as <- E; cbn [steps].
  - unfold xdelay_forward_steps, delay_forward_steps in *. destruct (Nat.eqb d 0); [discriminate|].
    destruct (xco_forward_steps _ _ _ _ _ o xs pe upd) as [o' [?|?]] eqn:G; [discriminate|]. cbn [fst snd] in *. injection E as <-.
    apply xco_steps_fails in G. destruct (co_forward_steps _ _ _ _ _ o xs false upd) as [[? ?]|?]; cbn [bind]; destruct G as [-> ->]; auto.
  - unfold skip_forward_steps. destruct (xco_forward_steps _ _ _ _ _ o xs pe upd) as [o' [?|?]] eqn:G; [discriminate|]. cbn [fst snd] in *. injection E as <-.
    apply xco_steps_fails in G. destruct (co_forward_steps _ _ _ _ _ o xs false upd) as [[? ?]|?]; cbn [bind]; destruct G as [-> ->]; auto.
  - unfold conv_forward_steps. destruct (xco_forward_steps _ _ _ _ _ o xs pe upd) as [o' [?|?]] eqn:G; [discriminate|]. cbn [fst snd] in *. injection E as <-.
    apply xco_steps_fails in G. destruct (co_forward_steps _ _ _ _ _ o xs false upd) as [[? ?]|?]; cbn [bind]; destruct G as [-> ->]; auto.
  - unfold pool_forward_steps. destruct (xco_forward_steps _ _ _ _ _ o xs pe upd) as [o' [?|?]] eqn:G; [discriminate|]. cbn [fst snd] in *. injection E as <-.
    apply xco_steps_fails in G. destruct (co_forward_steps _ _ _ _ _ o xs false upd) as [[? ?]|?]; cbn [bind]; destruct G as [-> ->]; auto.
  - unfold xrnn_forward_steps, rnn_forward_steps in *. destruct (torch_rnn c xs o) as [[? ?]|?]; [discriminate|]. cbn in *. split; congruence.
Qed.

(* ------------------------------------------------------------------ *)
(** ** Two stages, used by hand *)

Theorem two_stages upd vs : forall a b,
  let ra := xrun a (map (fun v => CStep v upd) vs) in
  let rb := xrun b (map (fun v => CStep v upd) (passed (snd ra))) in
  xrun (MSeq [a; b]) (map (fun v => CStep v upd) vs) = (MSeq [fst ra; fst rb], answered (snd ra) (snd rb)).
Proof.
  induction vs as [|v vs IH]; intros a b; cbn [map xrun]; [reflexivity|].
  cbn [xcall xstep xseq_step]. destruct (xstep a v upd) as [a1 [w|e]] eqn:E1; cbv zeta in *.
  - destruct (is_none w) eqn:En.
    + destruct w; try discriminate. specialize (IH a1 b).
      destruct (xrun a1 _) as [a2 ra]. cbn [snd fst passed answered] in *. now rewrite IH.
    + destruct (xstep b w upd) as [b1 rb1] eqn:E2. specialize (IH a1 b1).
      destruct (xrun a1 _) as [a2 ra]. cbn [snd fst] in *.
      assert (Ep : passed (Ok w :: ra) = w :: passed ra) by (destruct w; [discriminate|reflexivity..]).
      rewrite Ep. cbn [map xrun xcall]. rewrite E2.
      assert (Ea : forall r rt, answered (Ok w :: ra) (r :: rt) = r :: answered ra rt) by (destruct w; [discriminate|reflexivity..]).
      destruct (xrun b1 _) as [b2 rb]. cbn [fst snd] in *. rewrite Ea.
      destruct rb1 as [[| | |]|]; cbn [fst snd is_none]; now rewrite IH.
  - specialize (IH a1 b). destruct (xrun a1 _) as [a2 ra]. cbn [snd fst passed answered] in *. now rewrite IH.
Qed.

(* ------------------------------------------------------------------ *)
(** ** Two streams that lose step *)

Lemma pair_step a b r x y : ok a -> ok b -> exists u a' w b',
  nstep true a x = Ok (u, a') /\ nstep true b y = Ok (w, b') /\
  xstep (MSeq [MPar [a; b]; MReduce r]) (VL [VT x; VT y]) true
  = (MSeq [MPar [a'; b']; MReduce r], Ok (both r (u, w))) /\
  ok a' /\ ok b' /\ per a' = per a /\ per b' = per b /\
  is_some u = (ph a =? 0) /\ is_some w = (ph b =? 0) /\ ph a' = nxt (per a) (ph a) /\ ph b' = nxt (per b) (ph b).
Proof.
  intros Ha Hb. destruct (step_good a Ha x) as (u & a' & E1 & _ & Ha' & P1 & I1 & N1).
  destruct (step_good b Hb y) as (w & b' & E2 & _ & Hb' & P2 & I2 & N2).
  exists u, a', w, b'. unfold nstep. rewrite E1, E2. cbn [bind].
  split; [destruct u; reflexivity|]. split; [destruct w; reflexivity|]. split; [|auto 12].
  pose proof (xstep_agree a (VT x) true) as A1. rewrite E1 in A1. cbn [agree] in A1.
  pose proof (xstep_agree b (VT y) true) as A2. rewrite E2 in A2. cbn [agree] in A2.
  cbn [xstep xseq_step xpar_run]. rewrite A1, A2. cbn.
  destruct u as [u|], w as [w|]; cbn; try reflexivity.
  unfold reduce_vals. cbn. destruct (r_min2 r); reflexivity.
Qed.

Lemma pair_run r q : forall a b, ok a -> ok b -> exists us a' ws b',
  feed (nstep true) a (map fst q) = Ok (us, a') /\ feed (nstep true) b (map snd q) = Ok (ws, b') /\
  xrun (MSeq [MPar [a; b]; MReduce r]) (map pair_call q)
  = (MSeq [MPar [a'; b']; MReduce r], map (fun p => Ok (both r p)) (combine us ws)) /\
  ok a' /\ ok b' /\ per a' = per a /\ per b' = per b /\ (per a = per b -> ph a = ph b -> ph a' = ph b').
Proof.
  induction q as [|[x y] q IH]; intros a b Ha Hb; cbn [map xrun feed fst snd].
  - exists [], a, [], b. auto 10.
  - destruct (pair_step a b r x y Ha Hb) as (u & a1 & w & b1 & E1 & E2 & E3 & Ha1 & Hb1 & P1 & P2 & _ & _ & N1 & N2).
    destruct (IH a1 b1 Ha1 Hb1) as (us & a2 & ws & b2 & F1 & F2 & F3 & Ha2 & Hb2 & Q1 & Q2 & Q3).
    exists (u :: us), a2, (w :: ws), b2. rewrite E1, E2. cbn [bind]. rewrite F1, F2. cbn [bind].
    unfold pair_call at 1. cbn [xcall fst snd]. rewrite E3, F3. cbn [combine map].
    repeat split; auto; try congruence. intros H1 H2. apply Q3; [congruence|]. now rewrite N1, N2, H1, H2.
Qed.

(** Buffers out of step: with equal strides, no step completes both. *)
Lemma out_of_step r q : forall a b, ok a -> ok b -> per a = per b ->
  ph a mod per a <> ph b mod per b ->
  snd (xrun (MSeq [MPar [a; b]; MReduce r]) (map pair_call q)) = repeat (Ok VNone) (length q).
Proof.
  induction q as [|[x y] q IH]; intros a b Ha Hb Hp Hph; [reflexivity|].
  destruct (pair_step a b r x y Ha Hb) as (u & a1 & w & b1 & _ & _ & E3 & Ha1 & Hb1 & P1 & P2 & I1 & I2 & N1 & N2).
  cbn [map xrun length repeat]. unfold pair_call at 1. cbn [xcall fst snd]. rewrite E3.
  pose proof (per_pos a Ha) as Hpa.
  specialize (IH a1 b1 Ha1 Hb1 ltac:(congruence)).
  destruct (xrun (MSeq [MPar [a1; b1]; MReduce r]) _) as [m2 rs]. cbn [snd] in *.
  assert (Hb0 : both r (u, w) = VNone).
  { destruct u, w; cbn in I1, I2; try reflexivity. symmetry in I1, I2. apply Nat.eqb_eq in I1, I2.
    exfalso. apply Hph. now rewrite I1, I2, Hp. }
  rewrite Hb0, IH; [reflexivity|]. rewrite N1, N2, P1, P2, <- Hp. rewrite <- Hp in Hph. clear -Hph Hpa.
  assert (S : forall k, exists j, nxt (per a) k + 1 = k + j * per a /\ (j = 0 \/ j = 1)).
  { intros [|k]; cbn [nxt]; [exists 1|exists 0]; split; auto; lia. }
  destruct (S (ph a)) as (i & Ei & _). destruct (S (ph b)) as (j & Ej & _).
  set (n := per a) in *. intros E. apply Hph.
  assert (G : forall k i, nxt n k + 1 = k + i * n -> k mod n = (nxt n k mod n + 1) mod n).
  { intros k i0 Ek. rewrite Nat.add_mod_idemp_l by lia. rewrite Ek. now rewrite Nat.mod_add by lia. }
  rewrite (G _ _ Ei), (G _ _ Ej), E. reflexivity.
Qed.

Lemma strided_ok (m : md F) : strided m -> ok m /\ 2 <= per m.
Proof. intros [(c & -> & H & Hs)|(c & -> & H & Hs)]; cbn; auto. Qed.

Definition is_cp (m : md F) : Prop := match m with MConv _ _ | MPool _ _ => True | _ => False end.
Lemma feed_cp xs : forall m ys m', is_cp m -> feed (nstep true) m xs = Ok (ys, m') -> is_cp m'.
Proof.
  induction xs as [|x xs IH]; intros m ys m' Hm; cbn [feed]; [congruence|].
  destruct (nstep true m x) as [[y m1]|] eqn:E; [|discriminate]. cbn [bind].
  destruct (feed _ m1 xs) as [[zs m2]|] eqn:E2; [|discriminate]. cbn [bind]. intros G; injection G as <- <-.
  apply (IH m1 zs); [|exact E2]. unfold nstep in E. destruct m; try destruct Hm; cbn [step] in E.
  - destruct (conv_forward_step c o x true) as [[u o1]|]; [|discriminate]. cbn [bind] in E. destruct u; injection E as <- <-; exact I.
  - destruct (pool_forward_step c o x true) as [[u o1]|]; [|discriminate]. cbn [bind] in E. destruct u; injection E as <- <-; exact I.
Qed.

Lemma xrun_app cs : forall m cs', xrun m (cs ++ cs') =
  (fst (xrun (fst (xrun m cs)) cs'), snd (xrun m cs) ++ snd (xrun (fst (xrun m cs)) cs')).
Proof.
  induction cs as [|c cs IH]; intros m cs'; cbn [app xrun fst snd]; [now destruct (xrun m cs')|].
  destruct (xcall m c) as [m1 r]. rewrite IH. destruct (xrun m1 cs) as [m2 rs]. cbn [fst snd].
  destruct (xrun m2 cs'). reflexivity.
Qed.

Theorem streams_in_step r m p : strided m -> exists us ms ws ms',
  feed (nstep true) m (map fst p) = Ok (us, ms) /\ feed (nstep true) m (map snd p) = Ok (ws, ms') /\
  snd (xrun (MSeq [MPar [m; m]; MReduce r]) (map pair_call p)) = map (fun p => Ok (both r p)) (combine us ws).
Proof.
  intros Hs. destruct (strided_ok m Hs) as [Ho _]. destruct (pair_run r p m m Ho Ho) as (us & a & ws & b & E1 & E2 & E3 & _).
  exists us, a, ws, b. rewrite E3. auto.
Qed.

Theorem streams_lose_step r m p x q : strided m -> exists rs, length rs = length p /\
  snd (xrun (MSeq [MPar [m; m]; MReduce r]) (map pair_call p ++ CStep (VL [VT x; VNone]) true :: map pair_call q))
  = rs ++ Err TypeError :: repeat (Ok VNone) (length q).
Proof.
  intros Hs. destruct (strided_ok m Hs) as [Ho Hper].
  destruct (pair_run r p m m Ho Ho) as (us & a & ws & b & E1 & E2 & E3 & Ha & Hb & Pa & Pb & Hph).
  rewrite xrun_app, E3. cbn [fst snd]. eexists. split; [|f_equal].
  { rewrite map_length, combine_length.
    destruct (feed_good (map fst p) m Ho) as (? & ? & F1 & _ & _ & G1). rewrite E1 in F1. injection F1 as <- <-.
    destruct (feed_good (map snd p) m Ho) as (? & ? & F2 & _ & _ & G2). rewrite E2 in F2. injection F2 as <- <-.
    apply (f_equal (@length bool)) in G1, G2. rewrite map_length in G1, G2.
    assert (L : forall k n ph, length (pat ph n k) = k) by (clear; induction k; intros; cbn; auto).
    rewrite L, map_length in G1, G2. lia. }
  assert (Hcp : is_cp b).
  { eapply feed_cp; [|exact E2]. destruct Hs as [(c & -> & _)|(c & -> & _)]; exact I. }
  assert (Eb : xstep b VNone true = (b, Err TypeError)) by (destruct b; try destruct Hcp; reflexivity).
  destruct (step_good a Ha x) as (u & a1 & E4 & _ & Ha1 & P1 & _ & N1).
  pose proof (xstep_agree a (VT x) true) as A1. rewrite E4 in A1. cbn [agree] in A1.
  cbn [xrun xcall xstep xseq_step xpar_run]. rewrite A1, Eb. cbn [xmap fst snd].
  pose proof (out_of_step r q a1 b Ha1 Hb ltac:(congruence)) as G.
  destruct (xrun _ (map pair_call q)) as [m2 rs]. cbn [snd] in *. rewrite G; [reflexivity|].
  rewrite N1, P1, Pa, Pb. rewrite <- (Hph eq_refl eq_refl). clear -Hper.
  set (n := per m) in *. intros E.
  assert (G : exists i, nxt n (ph a) + 1 = ph a + i * n).
  { destruct (ph a); cbn [nxt]; [exists 1|exists 0]; lia. }
  destruct G as [i Ei]. set (h := ph a) in *.
  assert (E1 : h mod n = (h mod n + 1) mod n).
  { rewrite <- E at 2. rewrite Nat.add_mod_idemp_l by lia. rewrite Ei. now rewrite Nat.mod_add by lia. }
  pose proof (Nat.mod_upper_bound h n ltac:(lia)) as Hb.
  destruct (Nat.eq_dec (h mod n + 1) n) as [E2|E2].
  - rewrite E2, Nat.mod_same in E1 by lia. lia.
  - rewrite (Nat.mod_small (h mod n + 1)) in E1 by lia. lia.
Qed.

End NetExnProof.
