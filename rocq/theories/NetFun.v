(** Explicit-state stepping against stateful stepping. *)
From Coq Require Import List ZArith Bool Arith Lia ZifyBool ZifyNat.
From Verif Require Import Base Frames CoMod Leaf Rnn Net Spec LeafSpec NetSpec NetOk Calls NetProps.
Import ListNotations.

Section NetFun.
Context {F : Type} {FA : Frames F} {FL : FrameLaws F}.
Implicit Types m : md F.
Implicit Types ms : list (md F).
Implicit Types s : option (sst F).

Definition all2 {A B} (P : A -> B -> Prop) : list A -> list B -> Prop :=
  fix go l k :=
  match l, k with
  | [], [] => True
  | a :: t, b :: u => P a b /\ go t u
  | _, _ => False
  end.

(** [s] is the state held by the object [m]. *)
Fixpoint rel m s {struct m} : Prop :=
  match m with
  | MDelay _ _ _ o => s = option_map SD (obj_get o)
  | MPool _ o => s = option_map SD (obj_get o)
  | MConv c o => (2 <= ck c \/ conv_stateless c = true) /\ s = option_map SC (obj_get o)
  | MSkip n o => s = Some (SK o) \/ (s = None /\ o = skip_init n)
  | MRnn _ o => s = option_map SR o
  | MSeq ms => exists l, prev_list s (length ms) = Ok l /\ all2 rel ms l
  | MPar ms => exists l, prev_list s (length ms) = Ok l /\ all2 rel ms l
  | MBR ms _ => exists l, prev_list s (length ms) = Ok l /\ all2 rel ms l
  | MCond _ _ _ _ _ => False
  | _ => True
  end.

Lemma all2_len {A B} (P : A -> B -> Prop) l k : all2 P l k -> length l = length k.
Proof. revert k; induction l; intros [|b k]; simpl; intuition. Qed.

Lemma prev_list_some (l : list (option (sst F))) n : length l = n -> prev_list (Some (SN l)) n = Ok l.
Proof. destruct l; intros <-; reflexivity. Qed.

Definition sim m := forall s v, rel m s ->
  match step m v true with
  | Ok (w, m') => exists s', fstep m v s = Ok (w, s') /\ rel m' s'
  | Err e => fstep m v s = Err e
  end.

Lemma setz_ne {A} (l : list A) i x l' : setz l i x = Ok l' -> l' <> [].
Proof.
  unfold setz. destruct (Z.ltb i 0); [discriminate|]. destruct (Nat.ltb_spec (Z.to_nat i) (length l)); [|discriminate].
  intros [= <-]. destruct l; simpl in *; [lia|]. destruct (Z.to_nat i); discriminate.
Qed.

Lemma co_sim {Ob St} (get : Ob -> option St) (set : Ob -> St -> Ob) (fs : F -> option St -> res (option F * option St)) o x :
  co_forward_step get set fs o x true
  = bind (fs x (get o)) (fun p => Ok (fst p, match snd p with Some s => set o s | None => o end)).
Proof. unfold co_forward_step. destruct (fs x (get o)) as [[y [s|]]|]; reflexivity. Qed.

Lemma delay_keeps d f sh (x : F) p y (s : option (obj F)) : d <> 0 -> delay_fstep d f sh x p = Ok (y, s) -> exists o : obj F, s = Some o /\ o_buf o <> [].
Proof.
  intros Hd. unfold delay_fstep. replace (d =? 0) with false by lia. intros E.
  match type of E with bind ?r _ = _ => destruct r; [|discriminate] end. cbn [bind] in E.
  match type of E with bind ?r _ = _ => destruct r eqn:Eb; [|discriminate] end. cbn [bind] in E.
  injection E as <- <-. eexists. split; [reflexivity|]. eapply setz_ne; eauto.
Qed.

Lemma obj_get_ne {B} (o : obj B) : o_buf o <> [] -> obj_get o = Some o.
Proof. unfold obj_get. destruct (o_buf o); congruence. Qed.

Lemma sim_delay d f sh o : sim (MDelay d f sh o).
Proof.
  intros s v Hr. cbn [rel] in Hr. subst s. destruct v; try (cbn; destruct (obj_get o); reflexivity).
  cbn [step]. unfold delay_forward_step. destruct (Nat.eqb_spec d 0) as [->|Hd].
  - cbn [bind]. exists (option_map SD (obj_get o)). split; [|reflexivity]. cbn [fstep]. destruct (obj_get o); reflexivity.
  - rewrite co_sim. cbn [fstep].
    assert (E : forall g : option F * option (obj F) -> res (val F * option (sst F)),
      match option_map SD (obj_get o) with
      | None => bind (delay_fstep d f sh x None) g
      | Some (SD s0) => bind (delay_fstep d f sh x (Some s0)) g
      | _ => Err TypeError
      end = bind (delay_fstep d f sh x (obj_get o)) g) by (intros; destruct (obj_get o); reflexivity).
    rewrite E. destruct (delay_fstep d f sh x (obj_get o)) as [[y s]|] eqn:Ef; [|reflexivity]. cbn [bind fst snd].
    destruct (delay_keeps _ _ _ _ _ _ _ Hd Ef) as (o' & -> & Hb). eexists. split; [reflexivity|].
    cbn [rel]. unfold obj_set. now rewrite obj_get_ne.
Qed.

Lemma sim_skip n o : sim (MSkip n o).
Proof.
  intros s v Hr. cbn [rel] in Hr. destruct v; try (cbn; destruct Hr as [->|[-> _]]; reflexivity).
  cbn [step]. unfold skip_forward_step. rewrite co_sim. cbn [fstep]. unfold skip_get, skip_set.
  assert (E : forall g : option F * option Z -> res (val F * option (sst F)),
      match s with
      | None => bind (skip_fstep n x None) g
      | Some (SK s0) => bind (skip_fstep n x (Some s0)) g
      | _ => Err TypeError
      end = bind (skip_fstep n x (Some o)) g).
  { intros g. destruct Hr as [->|[-> ->]]; reflexivity. }
  rewrite E. unfold skip_fstep. destruct (Z.leb 0 o); cbn [bind fst snd]; eexists; (split; [reflexivity|]); cbn; auto.
Qed.

Lemma conv_keeps (c : conv_cfg F) x p y (s : option (obj (list F))) : 2 <= ck c \/ conv_stateless c = true -> conv_fstep c x p = Ok (y, s) ->
  (conv_stateless c = true /\ s = p) \/ (exists o, s = Some o /\ o_buf o <> []).
Proof.
  unfold conv_fstep. intros Hc. destruct (conv_stateless c); intros E.
  - left. match type of E with bind ?r _ = _ => destruct r; [|discriminate] end. cbn [bind] in E.
    match type of E with bind ?r _ = _ => destruct r; [|discriminate] end. cbn [bind] in E. injection E as <- <-. auto.
  - right. destruct Hc as [Hc|]; [|discriminate]. replace (1 <? ck c) with true in E by lia.
    repeat (match type of E with bind ?r _ = _ => destruct r eqn:?; [|discriminate] end; cbn [bind] in E).
    match type of E with Ok _ = Ok _ => idtac | _ => match type of E with context [let (_, _) := ?q in _] => destruct q end end.
    injection E as <- <-. eexists. split; [reflexivity|]. cbn [o_buf]. 
    repeat match goal with H : bind (setz ?a ?b ?c) _ = Ok _ |- _ => destruct (setz a b c) eqn:?; [|discriminate H]; cbn [bind] in H; injection H as <- <- end.
    eapply setz_ne; eauto.
Qed.

Lemma sim_conv c o : sim (MConv c o).
Proof.
  intros s v Hr. cbn [rel] in Hr. destruct Hr as [Hc ->]. destruct v; try (cbn; destruct (obj_get o); reflexivity).
  cbn [step]. unfold conv_forward_step. rewrite co_sim. cbn [fstep].
    assert (E : forall g : option F * option (obj (list F)) -> res (val F * option (sst F)),
      match option_map SC (obj_get o) with
      | None => bind (conv_fstep c x None) g
      | Some (SC s0) => bind (conv_fstep c x (Some s0)) g
      | _ => Err TypeError
      end = bind (conv_fstep c x (obj_get o)) g) by (intros; destruct (obj_get o); reflexivity).
    rewrite E. destruct (conv_fstep c x (obj_get o)) as [[y s]|] eqn:Ef; [|reflexivity]. cbn [bind fst snd].
    destruct (conv_keeps _ _ _ _ _ Hc Ef) as [[Hs ->]|(o' & -> & Hb)]; (eexists; split; [reflexivity|]); cbn [rel]; (split; [auto|]).
    + unfold obj_set. destruct (obj_get o) eqn:Eo; [|now rewrite Eo].
      unfold obj_get in Eo. destruct (o_buf o) eqn:Eb; [discriminate|]. injection Eo as <-. unfold obj_get. rewrite Eb. reflexivity.
    + unfold obj_set. now rewrite obj_get_ne.
Qed.

Lemma sim_pool c o : sim (MPool c o).
Proof.
  intros s v Hr. cbn [rel] in Hr. subst s. destruct v; try (cbn; destruct (obj_get o); reflexivity).
  cbn [step]. unfold pool_forward_step. rewrite co_sim. cbn [fstep].
    assert (E : forall g : option F * option (obj F) -> res (val F * option (sst F)),
      match option_map SD (obj_get o) with
      | None => bind (pool_fstep c x None) g
      | Some (SD s0) => bind (pool_fstep c x (Some s0)) g
      | _ => Err TypeError
      end = bind (pool_fstep c x (obj_get o)) g) by (intros; destruct (obj_get o); reflexivity).
    rewrite E. destruct (pool_fstep c x (obj_get o)) as [[y s]|] eqn:Ef; [|reflexivity]. cbn [bind fst snd].
    assert (exists o', s = Some o' /\ o_buf o' <> []) as (o' & -> & Hb).
    { unfold pool_fstep in Ef. match type of Ef with bind ?r _ = _ => destruct r eqn:Eb; [|discriminate] end. cbn [bind] in Ef.
      match type of Ef with bind ?r _ = _ => destruct r; [|discriminate] end. cbn [bind] in Ef. injection Ef as <- <-.
      eexists. split; [reflexivity|]. eapply setz_ne; eauto. }
    eexists; split; [reflexivity|]. cbn [rel]. unfold obj_set. now rewrite obj_get_ne.
Qed.

Lemma sim_rnn c o : sim (MRnn c o).
Proof.
  intros s v Hr. cbn [rel] in Hr. subst s. destruct v; try (cbn; destruct o; reflexivity).
  cbn [step]. unfold rnn_forward_step. cbn [fstep].
    assert (E : forall g : option F * option (list (hid F)) -> res (val F * option (sst F)),
      match option_map SR o with
      | None => bind (rnn_fstep c x None) g
      | Some (SR s0) => bind (rnn_fstep c x (Some s0)) g
      | _ => Err TypeError
      end = bind (rnn_fstep c x o) g) by (intros; destruct o; reflexivity).
    rewrite E. destruct (rnn_fstep c x o) as [[y s]|] eqn:Ef; [|reflexivity]. cbn [bind fst snd].
    eexists; split; [reflexivity|]. reflexivity.
Qed.

Lemma seq_sim ms : Forall sim ms -> forall l v, all2 rel ms l ->
  match seq_step (fun m v => step m v true) ms v with
  | Ok (w, ms') => exists l', seq_fstep fstep ms v l = Ok (w, l') /\ all2 rel ms' l'
  | Err e => seq_fstep fstep ms v l = Err e
  end.
Proof.
  induction 1 as [|m t Hm HF IH]; intros l v Hr; destruct l as [|s l]; try (destruct Hr; fail); cbn [seq_step seq_fstep nth_state bind].
  - exists []. auto.
  - destruct Hr as [Hr1 Hr2]. specialize (Hm s v Hr1). destruct (step m v true) as [[v1 m1]|e]; cbn [bind]; [|rewrite Hm; reflexivity].
    destruct Hm as (s1 & E & Hr1'). rewrite E. cbn [bind]. destruct (is_none v1).
    + exists (s1 :: l). split; [reflexivity|]. split; auto.
    + specialize (IH l v1 Hr2). destruct (seq_step _ t v1) as [[v2 t2]|e]; cbn [bind]; [|rewrite IH; reflexivity].
      destruct IH as (l' & E2 & Hr2'). rewrite E2. cbn [bind]. exists (s1 :: l'). split; [reflexivity|]. split; auto.
Qed.

Lemma par_sim ms : Forall sim ms -> forall l vs, all2 rel ms l ->
  match par_run (fun m v => step m v true) ms vs with
  | Ok (ws, ms') => exists l', par_fstep fstep ms vs l = Ok (ws, l') /\ all2 rel ms' l'
  | Err e => par_fstep fstep ms vs l = Err e
  end.
Proof.
  induction 1 as [|m t Hm HF IH]; intros l vs Hr; destruct l as [|s l]; try (destruct Hr; fail); cbn [par_run par_fstep nth_state bind].
  - exists []. auto.
  - destruct vs as [|v vs]; [reflexivity|]. destruct Hr as [Hr1 Hr2]. specialize (Hm s v Hr1).
    destruct (step m v true) as [[v1 m1]|e]; cbn [bind]; [|rewrite Hm; reflexivity].
    destruct Hm as (s1 & E & Hr1'). rewrite E. cbn [bind].
    specialize (IH l vs Hr2). destruct (par_run _ t vs) as [[v2 t2]|e]; cbn [bind]; [|rewrite IH; reflexivity].
    destruct IH as (l' & E2 & Hr2'). rewrite E2. cbn [bind]. exists (s1 :: l'). split; [reflexivity|]. split; auto.
Qed.

Lemma br_sim ms : Forall sim ms -> forall l v, all2 rel ms l ->
  match br_run (fun m v => step m v true) ms v with
  | Ok (ws, ms') => exists l', br_fstep fstep ms v l = Ok (ws, l') /\ all2 rel ms' l'
  | Err e => br_fstep fstep ms v l = Err e
  end.
Proof.
  induction 1 as [|m t Hm HF IH]; intros l v Hr; destruct l as [|s l]; try (destruct Hr; fail); cbn [br_run br_fstep nth_state bind].
  - exists []. auto.
  - destruct Hr as [Hr1 Hr2]. specialize (Hm s v Hr1).
    destruct (step m v true) as [[v1 m1]|e]; cbn [bind]; [|rewrite Hm; reflexivity].
    destruct Hm as (s1 & E & Hr1'). rewrite E. cbn [bind].
    specialize (IH l v Hr2). destruct (br_run _ t v) as [[v2 t2]|e]; cbn [bind]; [|rewrite IH; reflexivity].
    destruct IH as (l' & E2 & Hr2'). rewrite E2. cbn [bind]. exists (s1 :: l'). split; [reflexivity|]. split; auto.
Qed.

Theorem fstep_sim m : sim m.
Proof.
  induction m using md_ind'.
  - apply sim_delay.
  - apply sim_skip.
  - apply sim_conv.
  - apply sim_pool.
  - intros s v _. destruct v; try reflexivity. cbn. eauto.
  - apply sim_rnn.
  - intros s v (l & Hl & Hr). cbn [step fstep]. rewrite Hl. cbn [bind]. pose proof (seq_sim ms H l v Hr) as G.
    destruct (seq_step _ ms v) as [[w ms']|e]; cbn [bind]; [|rewrite G; reflexivity].
    destruct G as (l' & E & Hr'). rewrite E. cbn [bind]. eexists. split; [reflexivity|].
    exists l'. split; [|auto]. apply prev_list_some. symmetry. eapply all2_len; eauto.
  - intros s v _. cbn [step fstep]. destruct (broadcast_val n v); cbn [bind]; [eexists; split; [reflexivity|exact I]|reflexivity].
  - intros s v (l & Hl & Hr). cbn [step fstep]. destruct v; try reflexivity. rewrite Hl. cbn [bind].
    pose proof (par_sim ms H l l0 Hr) as G.
    destruct (par_run _ ms l0) as [[w ms']|e]; cbn [bind]; [|rewrite G; reflexivity].
    destruct G as (l' & E & Hr'). rewrite E. cbn [bind]. eexists. split; [reflexivity|].
    exists l'. split; [|auto]. apply prev_list_some. symmetry. eapply all2_len; eauto.
  - intros s v _. cbn [step fstep]. destruct (dispatch_val d v); cbn [bind]; [eexists; split; [reflexivity|exact I]|reflexivity].
  - intros s v _. cbn [step fstep]. destruct (reduce_step r v); cbn [bind]; [eexists; split; [reflexivity|exact I]|reflexivity].
  - intros s v (l & Hl & Hr). cbn [step fstep]. rewrite Hl. cbn [bind]. pose proof (br_sim ms H l v Hr) as G.
    destruct (br_run _ ms v) as [[w ms']|e]; cbn [bind]; [|rewrite G; reflexivity].
    destruct G as (l' & E & Hr'). rewrite E. cbn [bind].
    destruct (if forallb is_tensor w then reduce_vals r w else Ok VNone); cbn [bind]; [|reflexivity].
    eexists. split; [reflexivity|].
    exists l'. split; [|auto]. apply prev_list_some. symmetry. eapply all2_len; eauto.
  - intros s v [].
Qed.

(** [_forward_step] does not look at the buffers of the object. *)
Theorem fstep_clean m : cond_free m -> forall v s, fstep (clean m) v s = fstep m v s.
Proof.
  induction m using md_ind'; intros Hc v s; try reflexivity; try (destruct Hc; fail).
  - cbn [clean fstep]. rewrite map_length. destruct (prev_list s (length ms)) as [l|]; [|reflexivity]. cbn [bind].
    cbn [cond_free] in Hc. apply allP_Forall in Hc.
    assert (G : seq_fstep fstep (map clean ms) v l = seq_fstep fstep ms v l); [|rewrite G; reflexivity].
    revert v l. induction H as [|m t Hm HF IH]; intros v l; [reflexivity|]. inversion Hc; subst. cbn [map seq_fstep].
    destruct (nth_state l) as [[p pt]|]; [|reflexivity]. cbn [bind]. rewrite Hm by auto.
    destruct (fstep m v p) as [[v1 s1]|]; [|reflexivity]. cbn [bind]. destruct (is_none v1); [reflexivity|].
    rewrite IH by auto. reflexivity.
  - cbn [clean fstep]. destruct v; try reflexivity. rewrite map_length. destruct (prev_list s (length ms)) as [l0|]; [|reflexivity]. cbn [bind].
    cbn [cond_free] in Hc. apply allP_Forall in Hc.
    assert (G : par_fstep fstep (map clean ms) l l0 = par_fstep fstep ms l l0); [|rewrite G; reflexivity].
    revert l l0. induction H as [|m t Hm HF IH]; intros l l0; [reflexivity|]. inversion Hc; subst. cbn [map par_fstep].
    destruct l; [reflexivity|].
    destruct (nth_state l0) as [[p pt]|]; [|reflexivity]. cbn [bind]. rewrite Hm by auto.
    destruct (fstep m v p) as [[v1 s1]|]; [|reflexivity]. cbn [bind].
    rewrite IH by auto. reflexivity.
  - cbn [clean fstep]. rewrite map_length. destruct (prev_list s (length ms)) as [l|]; [|reflexivity]. cbn [bind].
    cbn [cond_free] in Hc. apply allP_Forall in Hc.
    assert (G : br_fstep fstep (map clean ms) v l = br_fstep fstep ms v l); [|rewrite G; reflexivity].
    revert v l. induction H as [|m t Hm HF IH]; intros v l; [reflexivity|]. inversion Hc; subst. cbn [map br_fstep].
    destruct (nth_state l) as [[p pt]|]; [|reflexivity]. cbn [bind]. rewrite Hm by auto.
    destruct (fstep m v p) as [[v1 s1]|]; [|reflexivity]. cbn [bind].
    rewrite IH by auto. reflexivity.
Qed.

Lemma rel_fresh m : fresh m -> convs_regular m -> cond_free m -> rel m None.
Proof.
  induction m using md_ind'; cbn [fresh convs_regular cond_free rel]; intros Hf Hc Hcf; subst; auto.
  all: rewrite ?allP_Forall in *; exists (repeat None (length ms)); (split; [reflexivity|]).
  all: induction H as [|m t Hm HF IH]; cbn [length repeat all2]; auto.
  all: inversion Hf; inversion Hc; inversion Hcf; subst; split; auto.
Qed.

Lemma thread_eq vs : forall m m0 s, cond_free m -> clean m = clean m0 -> cond_free m0 -> rel m s ->
  bind (run_steps m vs) (fun p => Ok (fst p)) = bind (run_fsteps m0 s vs) (fun p => Ok (fst p)).
Proof.
  induction vs as [|v vs IH]; intros m m0 s Hc Hm Hc0 Hr; [reflexivity|]. cbn [run_steps run_fsteps].
  pose proof (fstep_sim m s v Hr) as G. 
  assert (E0 : fstep m0 v s = fstep m v s) by (rewrite <- (fstep_clean m0), <- (fstep_clean m), Hm; auto).
  rewrite E0. destruct (step m v true) as [[w m']|e] eqn:Es; cbn [bind]; [|rewrite G; reflexivity].
  destruct G as (s' & E & Hr'). rewrite E. cbn [bind].
  destruct (clean_step m Hc v true w m' Es) as [Hcl Hcf].
  specialize (IH m' m0 s' Hcf ltac:(congruence) Hc0 Hr').
  destruct (run_steps m' vs) as [[ws m2]|]; destruct (run_fsteps m0 s' vs) as [[ws' s2]|]; cbn [bind fst] in *; congruence.
Qed.

Theorem explicit_state m vs : fresh m -> cond_free m -> convs_regular m ->
  bind (run_steps m vs) (fun p => Ok (fst p)) = bind (run_fsteps m None vs) (fun p => Ok (fst p)).
Proof. intros. apply thread_eq; auto. now apply rel_fresh. Qed.

End NetFun.
