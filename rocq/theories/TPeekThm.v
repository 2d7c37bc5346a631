(** When a peek returns, and histories with peeks in them. *)
From Coq Require Import List ZArith Bool Arith Lia ZifyBool.
From Verif Require Import Base Frames CoMod Leaf Attn AttnSpec AttnMore Trans CallMode Tensor TAttn TPoint TEnc TPeekSpec TPeekProof.
Import ListNotations.

Section P.
Context {K : Type} {NK : Num K}.

(** *** A peek returns if every attention module has a state *)
Fixpoint awakes (l : list (tmod K)) (ss : list (tstate K)) : Prop :=
  match l with
  | [] => True
  | m :: l => awake m (hd SNone ss) /\ awakes l (tl ss)
  end.
Definition wake1 (m : tmod K) (ex0 ex1 : tmod K -> tstate K -> tens K -> res (option (tens K) * tstate K)) : Prop :=
  forall s x o s', same m s s -> ex1 m s x = Ok (o, s') -> awake m s -> awake m s' /\ exists s2, ex0 m s x = Ok (o, s2).
Lemma chain_wake me ex0 ex1 l : Forall (fun m => wake1 m ex0 ex1) l -> forall ss x o ss', sames l ss ss -> chain me ex1 l ss x = Ok (o, ss') -> awakes l ss ->
  awakes l ss' /\ exists ss2, chain me ex0 l ss x = Ok (o, ss2).
Proof.
  induction 1 as [|m l Hm _ IH]; intros ss x o ss' HS E HA; cbn [chain sames awakes] in *.
  - injection E as <- <-. split; [exact I|]. exists []. reflexivity.
  - destruct HS as [A B], HA as [A1 A2]. destruct (match me with Steps => empty_batch x | _ => false end).
    + injection E as <- <-. split; [split; assumption|]. exists ss. reflexivity.
    + destruct (ex1 m (hd SNone ss) x) as [[y s]|] eqn:E1; [|discriminate]. cbn [bind] in E. destruct (Hm _ _ _ _ A E1 A1) as [C [s2 D]].
      fold (chain me ex0) (chain me ex1) in *. destruct y as [y|].
      * destruct (chain me ex1 l (tl ss) y) as [[z us]|] eqn:E2; [|discriminate]. cbn [bind] in E. injection E as <- <-.
        destruct (IH _ _ _ _ B E2 A2) as [F [ss2 G]]. split; [split; [exact C|exact F]|]. rewrite D. cbn [bind]. rewrite G. eexists. reflexivity.
      * assert (E3 : o = None /\ ss' = s :: tl ss) by (destruct l, me; try discriminate E; injection E as <- <-; auto). destruct E3 as [-> ->].
        split; [split; [exact C|exact A2]|]. rewrite D. cbn [bind]. destruct l, me; try discriminate E; eexists; reflexivity.
Qed.
Lemma fan_wake ex0 ex1 l : Forall (fun m => wake1 m ex0 ex1) l -> forall ss x o ss', sames l ss ss -> fan ex1 l ss x = Ok (o, ss') -> awakes l ss ->
  awakes l ss' /\ exists ss2, fan ex0 l ss x = Ok (o, ss2).
Proof.
  induction 1 as [|m l Hm _ IH]; intros ss x o ss' HS E HA; cbn [fan sames awakes] in *.
  - injection E as <- <-. split; [exact I|]. exists []. reflexivity.
  - destruct HS as [A B], HA as [A1 A2]. destruct (ex1 m (hd SNone ss) x) as [[y s]|] eqn:E1; [|discriminate]. cbn [bind] in E. destruct (Hm _ _ _ _ A E1 A1) as [C [s2 D]].
    fold (fan ex0) (fan ex1) in *. destruct (fan ex1 l (tl ss) x) as [[z us]|] eqn:E2; [|discriminate]. cbn [bind] in E. injection E as <- <-.
    destruct (IH _ _ _ _ B E2 A2) as [F [ss2 G]]. split; [split; [exact C|exact F]|]. rewrite D. cbn [bind]. rewrite G. eexists. reflexivity.
Qed.
Lemma co_step_wake {F St Ob} (g : Ob -> option St) (set : Ob -> St -> Ob) (fs : F -> option St -> res (option F * option St)) o x r o' :
  co_forward_step g set fs o x true = Ok (r, o') -> exists o1, co_forward_step g set fs o x false = Ok (r, o1).
Proof. unfold co_forward_step. destruct (fs x (g o)) as [[y s]|]; [|discriminate]. cbn [bind]. intros [= <- _]. eexists. reflexivity. Qed.
Lemma co_steps_wake {F St Ob} (g : Ob -> option St) (set : Ob -> St -> Ob) (fs : F -> option St -> res (option F * option St)) mp d o xs r o' :
  co_forward_steps g set fs mp d o xs false true = Ok (r, o') -> exists o1, co_forward_steps g set fs mp d o xs false false = Ok (r, o1).
Proof. unfold co_forward_steps. destruct (co_loop fs xs (g o)) as [[y s]|]; [|discriminate]. cbn [bind]. intros [= <- _]. eexists. reflexivity. Qed.
Lemma so_wake a qi sof (s : tstate K) (r1 r2 : res (option (tens K) * option (mstate (ts_sdpa a qi)) * cells)) o s' :
  peeks (p := ts_sdpa a qi) (fst (so_of s)) (snd (so_of s)) r1 r2 -> ('(y, o, h) <- r2 ;; Ok (y, SSo o h)) = Ok (o, s') ->
  awake (MSO a qi sof) s' /\ (awake (MSO a qi sof) s -> exists s1, ('(y, o, h) <- r1 ;; Ok (y, SSo o h)) = Ok (o, s1)).
Proof.
  intros [_ H] E. destruct r2 as [[[y u] h]|]; [|discriminate]. injection E as <- <-. destruct (H _ _ _ eq_refl) as [A B]. split; [exact A|].
  intros Ha. destruct (B Ha) as (o2 & h2 & ->). eexists. reflexivity.
Qed.
Lemma re_wake a (s : tstate K) (r1 r2 : res (option (tens K) * option (mstate (tr_sdpa a)) * cells)) o s' :
  peeks (p := tr_sdpa a) (fst (re_of s)) (snd (re_of s)) r1 r2 -> ('(y, o, h) <- r2 ;; Ok (y, SRe o h)) = Ok (o, s') ->
  awake (MRE a) s' /\ (awake (MRE a) s -> exists s1, ('(y, o, h) <- r1 ;; Ok (y, SRe o h)) = Ok (o, s1)).
Proof.
  intros [_ H] E. destruct r2 as [[[y u] h]|]; [|discriminate]. injection E as <- <-. destruct (H _ _ _ eq_refl) as [A B]. split; [exact A|].
  intros Ha. destruct (B Ha) as (o2 & h2 & ->). eexists. reflexivity.
Qed.
Lemma wake m : forall ctx me s x o s', same m s s -> exec ctx me m s x false true = Ok (o, s') -> awake m s ->
  awake m s' /\ exists s2, exec ctx me m s x false false = Ok (o, s2).
Proof.
  induction m using tmod_all; intros ctx me s x ov s' HS E HA.
  - cbn [exec] in *. destruct (chain _ _ l (kids s) x) as [[y ss]|] eqn:E1; [|discriminate]. injection E as <- <-.
    destruct (chain_wake me (fun m s x => exec ctx me m s x false false) (fun m s x => exec ctx me m s x false true) l) with (2 := HS) (3 := E1) (4 := HA) as [A [ss2 B]].
    { eapply Forall_impl; [|exact H]. intros m Hm s1 x1 o1 s2 Hs Es. exact (Hm ctx me _ _ _ _ Hs Es). }
    split; [exact A|]. rewrite B. eexists. reflexivity.
  - cbn [exec] in *. destruct (fan _ l (kids s) x) as [[y ss]|] eqn:E1; [|discriminate]. cbn [bind] in E. destruct (t_reduce b y) as [z|] eqn:Er; [|discriminate]. injection E as <- <-.
    destruct (fan_wake (fun m s x => exec ctx me m s x false false) (fun m s x => exec ctx me m s x false true) l) with (2 := HS) (3 := E1) (4 := HA) as [A [ss2 B]].
    { eapply Forall_impl; [|exact H]. intros m Hm s1 x1 o1 s2 Hs Es. exact (Hm ctx me _ _ _ _ Hs Es). }
    split; [exact A|]. rewrite B. cbn [bind]. rewrite Er. eexists. reflexivity.
  - split; [exact I|]. exists s'. exact E.
  - split; [exact I|]. exists s'. exact E.
  - split; [exact I|]. exists s'. exact E.
  - split; [exact I|]. exists s'. exact E.
  - split; [exact I|]. exists s'. exact E.
  - split; [exact I|]. exists s'. exact E.
  - split; [exact I|]. exists s'. exact E.
  - split; [exact I|]. exists s'. exact E.
  - split; [exact I|]. cbn [exec] in *. destruct me; [exists s'; exact E|..].
    + unfold pos_forward in *. destruct (sh x) as [|? [|? [|? [|? ?]]]]; try discriminate. destruct (Nat.leb _ _); [|discriminate]. destruct (Nat.eqb _ _); [|discriminate].
      injection E as <- <-. eexists. reflexivity.
    + unfold pos_step in *. destruct (sh x) as [|? [|? [|? ?]]]; try discriminate. destruct (Nat.eqb _ _); [|discriminate]. injection E as <- <-. eexists. reflexivity.
  - split; [exact I|]. cbn [exec] in *. destruct me; [exists s'; exact E|..].
    + destruct (Nat.eqb d 0) eqn:Ed; [exists s'; exact E|]. destruct (t_frames x) as [fs|]; [|discriminate]. cbn [bind] in *. unfold delay_forward_steps in *. rewrite Ed in *.
      destruct (co_forward_steps _ _ _ _ _ _ _ false true) as [[r ob]|] eqn:E1; [|discriminate]. cbn [bind] in E. destruct (co_steps_wake _ _ _ _ _ _ _ _ _ E1) as [o1 ->].
      destruct (stacked_peek _ _ _ E) as [_ B]. cbn [bind fst] in *. rewrite B. eexists. reflexivity.
    + unfold delay_forward_step in *. destruct (Nat.eqb d 0) eqn:Ed; [exists s'; exact E|].
      destruct (co_forward_step _ _ _ _ _ true) as [[r ob]|] eqn:E1; [|discriminate]. injection E as <- <-. destruct (co_step_wake _ _ _ _ _ _ _ E1) as [o1 ->]. eexists. reflexivity.
  - split; [exact I|]. cbn [exec] in *. destruct me; [exists s'; exact E|..].
    + destruct (Nat.eqb d 0) eqn:Ed; [exists s'; exact E|]. destruct (t_frames x) as [fs|]; [|discriminate]. cbn [bind] in *.
      destruct (co_forward_steps _ _ _ _ _ _ _ false true) as [[r ob]|] eqn:E1; [|discriminate]. cbn [bind] in E. destruct (co_steps_wake _ _ _ _ _ _ _ _ _ E1) as [o1 ->].
      destruct (stacked_peek _ _ _ E) as [_ B]. cbn [bind fst] in *. rewrite B. eexists. reflexivity.
    + unfold tu_forward_step in *. destruct (Nat.eqb d 0) eqn:Ed; [exists s'; exact E|].
      destruct (co_forward_step _ _ _ _ _ true) as [[r ob]|] eqn:E1; [|discriminate]. injection E as <- <-. destruct (co_step_wake _ _ _ _ _ _ _ E1) as [o1 ->]. eexists. reflexivity.
  - cbn [exec] in *. destruct HS as (_ & Hst & _). destruct me.
    + destruct (s_forward a sof qi x x x); [|discriminate]. cbn [bind] in *. injection E as <- <-. split; [exact HA|]. eexists. reflexivity.
    + destruct (so_wake a qi sof s _ _ ov s' (map_peeks _ _ _ _ _ (b_steps_peeks a (ts_sdpa a qi) x x x _ _ Hst)) E) as [A B]. auto.
    + destruct (so_wake a qi sof s _ _ ov s' (map_peeks _ _ _ _ _ (b_step_peeks a (ts_sdpa a qi) x x x _ _ Hst)) E) as [A B]. auto.
  - cbn [exec] in *. destruct HS as (_ & Hst & _). destruct me.
    + destruct (b_forward a x x x); [|discriminate]. cbn [bind] in *. injection E as <- <-. split; [exact HA|]. eexists. reflexivity.
    + destruct (re_wake a s _ _ ov s' (map_peeks _ _ _ _ _ (b_steps_peeks a (tr_sdpa a) x x x _ _ Hst)) E) as [A B]. auto.
    + destruct (re_wake a s _ _ ov s' (map_peeks _ _ _ _ _ (b_step_peeks a (tr_sdpa a) x x x _ _ Hst)) E) as [A B]. auto.
Qed.

(** *** Histories *)
Lemma exec_wf m ctx me s x pe upd o s' : same m s s -> exec ctx me m s x pe upd = Ok (o, s') -> same m s' s'.
Proof. intros HS E. pose proof (exec_alike m ctx me s s x pe upd HS) as H. rewrite E in H. apply H. Qed.
Lemma ucall_true m s c : ucall m s c true = call m s c.
Proof. destruct c; reflexivity. Qed.
Lemma ucall_forward m s c upd : is_forward c = true -> ucall m s c upd = call m s c.
Proof. destruct c; [discriminate..|reflexivity]. Qed.
Lemma call_alike m s t c : same m s t -> alike (same m) (call m s c) (call m t c).
Proof. intros H. destruct c; apply exec_alike; exact H. Qed.
Lemma ucall_alike m s t c upd : same m s t -> alike (same m) (ucall m s c upd) (ucall m t c upd).
Proof. intros H. destruct c; apply exec_alike; exact H. Qed.
Lemma ucalls_alike m l : forall s t, same m s t -> alike (same m) (ucalls m s l) (ucalls m t l).
Proof.
  induction l as [|[c u] l IH]; intros s t H; cbn [ucalls]; [split; [reflexivity|exact H]|].
  pose proof (ucall_alike m s t c u H) as G. destruct (ucall m s c u) as [[y s1]|], (ucall m t c u) as [[y' t1]|]; cbn [alike bind] in *; try contradiction; [|exact G].
  destruct G as [<- G]. specialize (IH s1 t1 G). destruct (ucalls m s1 l) as [[ys s2]|], (ucalls m t1 l) as [[ys' t2]|]; cbn [alike bind] in *; try contradiction; [|exact IH].
  destruct IH as [<- IH]. split; [reflexivity|exact IH].
Qed.
Lemma ucall_peek m s c o s' : still (ctx_of c) m = true -> is_forward c = false -> same m s s -> ucall m s c false = Ok (o, s') ->
  same m s s' /\ exists s1, call m s c = Ok (o, s1).
Proof.
  intros Hs Hf HS E. destruct c as [ctx x|ctx x|ctx x]; [| |discriminate]; cbn [ucall call ctx_of] in *.
  - destruct (peek m ctx Step false s x o s' ltac:(discriminate) Hs HS E) as [A B]. auto.
  - destruct (peek m ctx Steps false s x o s' ltac:(discriminate) Hs HS E) as [A B]. auto.
Qed.
Lemma erase m l : forall s t outs s', same m s t -> Forall (fun c => kept c = true \/ still (ctx_of (fst c)) m = true) l -> ucalls m s l = Ok (outs, s') ->
  exists t', calls m t (map fst (filter kept l)) = Ok (kept_results l outs, t') /\ same m s' t'.
Proof.
  induction l as [|[c u] l IH]; intros s t outs s' HS HF E; cbn [ucalls] in E.
  - injection E as <- <-. exists t. split; [reflexivity|exact HS].
  - apply Forall_cons_iff in HF. destruct HF as [Hc HF].
    destruct (ucall m s c u) as [[y s1]|] eqn:E1; [|discriminate]. cbn [bind] in E. destruct (ucalls m s1 l) as [[ys s2]|] eqn:E2; [|discriminate]. cbn [bind] in E. injection E as <- <-.
    cbn [kept_results filter]. destruct (kept (c, u)) eqn:Ek.
    + assert (E3 : call m s c = Ok (y, s1)).
      { unfold kept in Ek. cbn [fst snd] in Ek. destruct u; [rewrite <- ucall_true; exact E1|]. rewrite <- (ucall_forward m s c false); [exact E1|exact Ek]. }
      pose proof (call_alike m s t c HS) as G. rewrite E3 in G. destruct (call m t c) as [[y' t1]|] eqn:E4; [|contradiction]. destruct G as [<- G].
      destruct (IH s1 t1 ys s2 G HF E2) as (t' & E5 & G5). exists t'. split; [|exact G5]. cbn [map calls fst]. rewrite E4. cbn [bind]. rewrite E5. reflexivity.
    + destruct Hc as [Hc|Hc]; [discriminate|]. unfold kept in Ek. cbn [fst snd] in *. apply orb_false_iff in Ek. destruct Ek as [-> Ef].
      destruct (ucall_peek m s c y s1 Hc Ef (same_left _ _ _ HS) E1) as [A _].
      exact (IH s1 t ys s2 (same_trans _ _ _ _ (same_sym _ _ _ A) HS) HF E2).
Qed.
Lemma ucalls_wf m l : forall s outs s', same m s s -> ucalls m s l = Ok (outs, s') -> same m s' s'.
Proof. intros s outs s' HS E. pose proof (ucalls_alike m l s s HS) as G. rewrite E in G. apply G. Qed.

(** *** Encoders *)
Fixpoint att_free (m : tmod K) : bool :=
  match m with MSeq l | MBR _ l => forallb att_free l | MSO _ _ _ | MRE _ => false | _ => true end.
Lemma free_awake m : forall s, att_free m = true -> awake m s.
Proof.
  assert (G : forall l, Forall (fun m => forall s, att_free m = true -> awake m s) l -> forall ss, forallb att_free l = true -> awakes l ss).
  { induction 1 as [|m0 l Hm _ IH]; intros ss Hf; cbn [awakes forallb] in *; [exact I|]. apply andb_true_iff in Hf. split; [apply Hm, Hf|apply IH, Hf]. }
  induction m using tmod_all; intros s0 Hf; try exact I; try discriminate.
  - exact (G l H _ Hf).
  - exact (G l H _ Hf).
Qed.
Lemma free_awakes l : forall ss, forallb att_free l = true -> awakes l ss.
Proof. induction l as [|m l IH]; intros ss Hf; cbn [awakes forallb] in *; [exact I|]. apply andb_true_iff in Hf. split; [apply free_awake, Hf|apply IH, Hf]. Qed.
(** [m] is awake after every step and every clip that is not empty. *)
Definition wakes (m : tmod K) : Prop :=
  forall ctx me s x o s', me <> Forward -> (me = Steps -> empty_batch x = false) -> same m s s -> exec ctx me m s x false true = Ok (o, s') -> awake m s'.
Lemma wakes_seq m l : wakes m -> forallb att_free l = true -> wakes (MSeq (m :: l)).
Proof.
  intros Hm Hl ctx me s x o s' Hme Hx HS E. cbn [exec chain] in E. destruct HS as [HS _].
  assert (Ex : match me with Steps => empty_batch x | _ => false end = false) by (destruct me; auto). rewrite Ex in E.
  destruct (exec ctx me m (hd SNone (kids s)) x false true) as [[y s1]|] eqn:E1; [|discriminate]. cbn [bind] in E.
  assert (G : exists ss, s' = SList (s1 :: ss)).
  { destruct y as [y|].
    { match type of E with bind (bind ?R _) _ = _ => destruct R as [[z us]|]; [|discriminate] end. injection E as <- <-. eauto. }
    destruct l, me; try discriminate E; injection E as <- <-; eauto. }
  destruct G as [ss ->]. split; [exact (Hm ctx me _ _ _ _ Hme Hx HS E1)|]. apply (free_awakes l). exact Hl.
Qed.
Lemma wakes_both b m1 m2 : att_free m1 = true -> wakes m2 -> wakes (MBR b [m1; m2]).
Proof.
  intros H1 H2 ctx me s x o s' Hme Hx HS E. cbn [exec fan] in E. destruct HS as (_ & HS & _).
  destruct (exec ctx me m1 _ x false true) as [[y1 s1]|] eqn:E1; [|discriminate]. cbn [bind] in E.
  destruct (exec ctx me m2 _ x false true) as [[y2 s2]|] eqn:E2; [|discriminate]. cbn [bind] in E.
  destruct (t_reduce b _); [|discriminate]. cbn [bind] in E. injection E as <- <-.
  split; [apply free_awake; exact H1|]. split; [exact (H2 ctx me _ _ _ _ Hme Hx HS E2)|exact I].
Qed.
Lemma wakes_so a qi sof : wakes (MSO a qi sof).
Proof.
  intros ctx me s x o s' Hme Hx (_ & Hst & _) E. cbn [exec] in E. destruct me; [contradiction|..].
  - destruct (so_wake a qi sof s _ _ o s' (map_peeks _ _ _ _ _ (b_steps_peeks a (ts_sdpa a qi) x x x _ _ Hst)) E) as [A _]. exact A.
  - destruct (so_wake a qi sof s _ _ o s' (map_peeks _ _ _ _ _ (b_step_peeks a (ts_sdpa a qi) x x x _ _ Hst)) E) as [A _]. exact A.
Qed.
Lemma wakes_re a : wakes (MRE a).
Proof.
  intros ctx me s x o s' Hme Hx (_ & Hst & _) E. cbn [exec] in E. destruct me; [contradiction|..].
  - destruct (re_wake a s _ _ o s' (map_peeks _ _ _ _ _ (b_steps_peeks a (tr_sdpa a) x x x _ _ Hst)) E) as [A _]. exact A.
  - destruct (re_wake a s _ _ o s' (map_peeks _ _ _ _ _ (b_step_peeks a (tr_sdpa a) x x x _ _ Hst)) E) as [A _]. exact A.
Qed.
Lemma wakes_so_layer p qi sof : wakes (so_layer p qi sof).
Proof. apply wakes_seq; [apply wakes_both; [destruct sof; reflexivity|apply wakes_so]|reflexivity]. Qed.
Lemma wakes_re_layer p : wakes (re_layer p).
Proof. apply wakes_seq; [apply wakes_both; [reflexivity|apply wakes_re]|reflexivity]. Qed.
Lemma wakes_enc1 p norm : wakes (encoder1 p norm).
Proof. unfold encoder1, with_norm. apply wakes_seq; [apply wakes_seq; [apply wakes_so_layer|reflexivity]|destruct norm; reflexivity]. Qed.
Lemma wakes_enc2 p1 p2 norm : wakes (encoder2 p1 p2 norm).
Proof. unfold encoder2, with_norm. apply wakes_seq; [apply wakes_seq; [apply wakes_re_layer|reflexivity]|destruct norm; reflexivity]. Qed.

Lemma call_wakes m s c o s' : wakes m -> moves c = true -> same m s s -> call m s c = Ok (o, s') -> awake m s'.
Proof.
  intros Hw Hc HS E. destruct c as [ctx x|ctx x|ctx x]; cbn [call moves] in *; [| |discriminate].
  - apply (Hw ctx Step s x o s'); [discriminate|discriminate|exact HS|exact E].
  - apply (Hw ctx Steps s x o s'); [discriminate| |exact HS|exact E]. intros _. destruct (empty_batch x); [discriminate|reflexivity].
Qed.
Lemma call_awake m s c o s' : same m s s -> awake m s -> call m s c = Ok (o, s') -> awake m s' /\ exists s2, ucall m s c false = Ok (o, s2).
Proof.
  intros HS HA E. destruct c as [ctx x|ctx x|ctx x]; cbn [call ucall] in *; destruct (wake m _ _ _ _ _ _ HS E HA) as [A B]; auto.
  split; [exact A|]. exists s'. exact E.
Qed.
Lemma calls_awake m : wakes m -> forall l s outs s', same m s s -> calls m s l = Ok (outs, s') -> awake m s \/ existsb moves l = true -> same m s' s' /\ awake m s'.
Proof.
  intros Hw. induction l as [|c l IH]; intros s outs s' HS E Ha; cbn [calls existsb] in *.
  - injection E as <- <-. destruct Ha; [auto|discriminate].
  - destruct (call m s c) as [[y s1]|] eqn:E1; [|discriminate]. cbn [bind] in E. destruct (calls m s1 l) as [[ys s2]|] eqn:E2; [|discriminate]. injection E as <- <-.
    pose proof (call_alike m s s c HS) as G. rewrite E1 in G. destruct G as [_ G].
    apply (IH s1 ys s2 G E2). destruct Ha as [Ha|Ha].
    + left. exact (proj1 (call_awake m s c y s1 HS Ha E1)).
    + destruct (moves c) eqn:Em; [|right; exact Ha]. left. exact (call_wakes m s c y s1 Hw Em HS E1).
Qed.
Lemma peek_after m : wakes m -> forall l outs s c o s1, calls m SNone l = Ok (outs, s) -> existsb moves l = true ->
  still (ctx_of c) m = true -> is_forward c = false -> call m s c = Ok (o, s1) ->
  exists s2, ucall m s c false = Ok (o, s2) /\ same m s s2.
Proof.
  intros Hw l outs s c o s1 E Hl Hs Hf Ec. destruct (calls_awake m Hw l SNone outs s (same_fresh m) E (or_intror Hl)) as [A B].
  destruct (call_awake m s c o s1 A B Ec) as [_ [s2 E2]]. exists s2. split; [exact E2|]. exact (proj1 (ucall_peek m s c o s2 Hs Hf A E2)).
Qed.

(** A peek at a fresh encoder raises. *)
Definition raises (m : tmod K) : Prop :=
  forall ctx me x o s', me <> Forward -> (me = Steps -> empty_batch x = false) -> exec ctx me m SNone x false true = Ok (o, s') ->
    exec ctx me m SNone x false false = Err UnboundLocalError.
Lemma raises_seq m l : raises m -> raises (MSeq (m :: l)).
Proof.
  intros Hm ctx me x o s' Hme Hx E. cbn [exec chain kids hd] in *.
  assert (Ex : match me with Steps => empty_batch x | _ => false end = false) by (destruct me; auto). rewrite Ex in *.
  destruct (exec ctx me m SNone x false true) as [[y s1]|] eqn:E1; [|discriminate]. rewrite (Hm ctx me x y s1 Hme Hx E1). reflexivity.
Qed.
Lemma raises_both b m1 m2 : att_free m1 = true -> raises m2 -> raises (MBR b [m1; m2]).
Proof.
  intros H1 H2 ctx me x o s' Hme Hx E. cbn [exec fan kids hd tl] in *.
  destruct (exec ctx me m1 SNone x false true) as [[y1 s1]|] eqn:E1; [|discriminate]. cbn [bind] in E.
  destruct (wake m1 ctx me SNone x y1 s1 (same_fresh m1) E1 (free_awake m1 SNone H1)) as [_ [s2 ->]]. cbn [bind].
  destruct (exec ctx me m2 SNone x false true) as [[y2 s3]|] eqn:E2; [|discriminate]. rewrite (H2 ctx me x y2 s3 Hme Hx E2). reflexivity.
Qed.
Lemma m_step_raises (c : cfg K) p t h r : m_forward_step c p None t true h = Ok r -> m_forward_step c p None t false h = Err UnboundLocalError.
Proof. unfold m_forward_step. destruct (m_fstep c p t None h) as [[[a s] g]|]; [reflexivity|discriminate]. Qed.
Lemma m_steps_raises (c : cfg K) p ts h r : m_forward_steps c p None ts true h = Ok r -> m_forward_steps c p None ts false h = Err UnboundLocalError.
Proof. unfold m_forward_steps. destruct (m_loop c p ts None h) as [[[a s] g]|]; [reflexivity|discriminate]. Qed.
Lemma b_step_raises (a : tattn K) p q k v h r : b_forward_step a p None q k v true h = Ok r -> b_forward_step a p None q k v false h = Err UnboundLocalError.
Proof.
  unfold b_forward_step. destruct (shapes2 a q k v); [|discriminate]. destruct (m_forward_step _ p None _ true h) as [u|] eqn:E; [|discriminate]. intros _.
  rewrite (m_step_raises _ _ _ _ _ E). reflexivity.
Qed.
Lemma b_steps_raises (a : tattn K) p q k v h r : b_forward_steps a p None q k v true h = Ok r -> b_forward_steps a p None q k v false h = Err UnboundLocalError.
Proof.
  unfold b_forward_steps. destruct (shapes3 a _ _ _); [|discriminate]. destruct (Nat.eqb _ _); [|discriminate].
  destruct (m_forward_steps _ p None _ true h) as [u|] eqn:E; [|discriminate]. intros _. rewrite (m_steps_raises _ _ _ _ _ E). reflexivity.
Qed.
Lemma bind_err {A B} (r : res A) (f : A -> res B) e : r = Err e -> bind r f = Err e.
Proof. intros ->. reflexivity. Qed.
Lemma raises_so a qi sof : raises (MSO a qi sof).
Proof.
  intros ctx me x o s' Hme _ E. cbn [exec so_of fst snd] in *. destruct me; [contradiction|..].
  - unfold s_forward_steps in *. match type of E with context [b_forward_steps ?A ?P ?O x x x true []] => destruct (b_forward_steps A P O x x x true []) as [r|] eqn:E1 end; [|discriminate E]. apply bind_err, bind_err. exact (b_steps_raises _ _ _ _ _ _ _ E1).
  - unfold s_forward_step in *. match type of E with context [b_forward_step ?A ?P ?O x x x true []] => destruct (b_forward_step A P O x x x true []) as [r|] eqn:E1 end; [|discriminate E]. apply bind_err, bind_err. exact (b_step_raises _ _ _ _ _ _ _ E1).
Qed.
Lemma raises_re a : raises (MRE a).
Proof.
  intros ctx me x o s' Hme _ E. cbn [exec re_of fst snd] in *. destruct me; [contradiction|..].
  - unfold r_forward_steps in *. match type of E with context [b_forward_steps ?A ?P ?O x x x true []] => destruct (b_forward_steps A P O x x x true []) as [r|] eqn:E1 end; [|discriminate E]. apply bind_err, bind_err. exact (b_steps_raises _ _ _ _ _ _ _ E1).
  - unfold r_forward_step in *. match type of E with context [b_forward_step ?A ?P ?O x x x true []] => destruct (b_forward_step A P O x x x true []) as [r|] eqn:E1 end; [|discriminate E]. apply bind_err, bind_err. exact (b_step_raises _ _ _ _ _ _ _ E1).
Qed.
Lemma raises_enc1 p norm : raises (encoder1 p norm).
Proof. unfold encoder1, with_norm. apply raises_seq, raises_seq, raises_seq, raises_both; [reflexivity|apply raises_so]. Qed.
Lemma raises_enc2 p1 p2 norm : raises (encoder2 p1 p2 norm).
Proof. unfold encoder2, with_norm. apply raises_seq, raises_seq, raises_seq, raises_both; [reflexivity|apply raises_re]. Qed.
Lemma fresh_peek m c o s' : raises m -> moves c = true -> call m SNone c = Ok (o, s') -> ucall m SNone c false = Err UnboundLocalError.
Proof.
  intros Hm Hc E. destruct c as [ctx x|ctx x|ctx x]; cbn [call ucall moves] in *; [| |discriminate].
  - apply (Hm ctx Step x o s'); [discriminate|discriminate|exact E].
  - apply (Hm ctx Steps x o s'); [discriminate| |exact E]. intros _. destruct (empty_batch x); [discriminate|reflexivity].
Qed.
Lemma still_enc1 (p : layer K) norm ctx : still ctx (encoder1 p norm) = true.
Proof. destruct norm; reflexivity. Qed.
Lemma still_enc2 (p1 p2 : layer K) norm : still None (encoder2 p1 p2 norm) = true.
Proof. destruct norm; reflexivity. Qed.

(** [pad_end] does nothing in an encoder with one layer. *)
Lemma chain_ext me ex0 ex1 l : Forall (fun m => forall s x, ex0 m s x = ex1 m s x) l -> forall ss x, @chain K me ex0 l ss x = chain me ex1 l ss x.
Proof.
  induction 1 as [|m l Hm _ IH]; intros ss x; cbn [chain]; [reflexivity|]. rewrite Hm. fold (chain me ex0) (chain me ex1).
  destruct (match me with Steps => empty_batch x | _ => false end); [reflexivity|]. destruct (ex1 m (hd SNone ss) x) as [[[y|] s]|]; cbn [bind]; [|reflexivity..]. rewrite IH. reflexivity.
Qed.
Lemma fan_ext ex0 ex1 l : Forall (fun m => forall s x, ex0 m s x = ex1 m s x) l -> forall ss x, @fan K ex0 l ss x = fan ex1 l ss x.
Proof.
  induction 1 as [|m l Hm _ IH]; intros ss x; cbn [fan]; [reflexivity|]. rewrite Hm. fold (fan ex0) (fan ex1). destruct (ex1 m (hd SNone ss) x) as [[y s]|]; [|reflexivity]. cbn [bind]. rewrite IH. reflexivity.
Qed.
Definition padless (m : tmod K) : Prop := forall ctx me s x upd, exec ctx me m s x true upd = exec ctx me m s x false upd.
Lemma padless_seq l : Forall padless l -> padless (MSeq l).
Proof. intros H ctx me s x upd. cbn [exec]. rewrite (chain_ext me (fun m s x => exec ctx me m s x true upd) (fun m s x => exec ctx me m s x false upd)); [reflexivity|]. eapply Forall_impl; [|exact H]. intros m Hm s1 x1. apply Hm. Qed.
Lemma padless_br b l : Forall padless l -> padless (MBR b l).
Proof. intros H ctx me s x upd. cbn [exec]. rewrite (fan_ext (fun m s x => exec ctx me m s x true upd) (fun m s x => exec ctx me m s x false upd)); [reflexivity|]. eapply Forall_impl; [|exact H]. intros m Hm s1 x1. apply Hm. Qed.
Lemma padless_enc1 p norm : padless (encoder1 p norm).
Proof.
  assert (D : padless (MDel false 0)) by (intros ctx me s x upd; destruct me; reflexivity).
  unfold encoder1, with_norm, so_layer, so_ff.
  repeat first [apply padless_seq | apply padless_br | constructor | exact D]; try (intros ctx me s x upd; reflexivity).
  destruct norm; repeat constructor.
Qed.
End P.
