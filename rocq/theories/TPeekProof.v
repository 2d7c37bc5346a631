(** Peeking at networks of tensor modules. *)
From Coq Require Import List ZArith Bool Arith Lia.
From Verif Require Import Base Frames CoMod Leaf Attn AttnSpec AttnMore Trans CallMode Tensor TAttn TPoint TEnc TPeekSpec.
Import ListNotations.

Section P.
Context {K : Type} {NK : Num K}.

(** Induction on networks. *)
Section Ind.
Variable P : tmod K -> Prop.
Hypothesis HSeq : forall l, Forall P l -> P (MSeq l).
Hypothesis HBR : forall b l, Forall P l -> P (MBR b l).
Hypothesis HNN : forall l, Forall P l -> P (MNN l).
Hypothesis HNaive : forall m, P m -> P (MNaive m).
Hypothesis HLam : forall rt tk m, P m -> P (MLam rt tk m).
Hypothesis HOut : P MOut.
Hypothesis HLin : forall d i o w b, P (MLin d i o w b).
Hypothesis HNorm : forall n f, P (MNorm n f).
Hypothesis HFun : forall f, P (MFun f).
Hypothesis HDrop : P MDrop.
Hypothesis HPos : forall np nn emb st, P (MPos np nn emb st).
Hypothesis HDel : forall b d, P (MDel b d).
Hypothesis HUni : forall d, P (MUni d).
Hypothesis HSO : forall a qi sof, P (MSO a qi sof).
Hypothesis HRE : forall a, P (MRE a).
Fixpoint tmod_all (m : tmod K) : P m :=
  let go := fix go (l : list (tmod K)) : Forall P l :=
    match l with [] => Forall_nil P | m :: l => Forall_cons m (tmod_all m) (go l) end in
  match m with
  | MSeq l => HSeq l (go l)
  | MBR b l => HBR b l (go l)
  | MNN l => HNN l (go l)
  | MNaive m => HNaive m (tmod_all m)
  | MLam r t m => HLam r t m (tmod_all m)
  | MOut => HOut
  | MLin d i o w b => HLin d i o w b
  | MNorm n f => HNorm n f
  | MFun f => HFun f
  | MDrop => HDrop
  | MPos p n e s => HPos p n e s
  | MDel b d => HDel b d
  | MUni d => HUni d
  | MSO a q b => HSO a q b
  | MRE a => HRE a
  end.
End Ind.

(** States of lists of modules. *)
Fixpoint sames (l : list (tmod K)) (ss ts : list (tstate K)) : Prop :=
  match l with
  | [] => True
  | m :: l => same m (hd SNone ss) (hd SNone ts) /\ sames l (tl ss) (tl ts)
  end.
Lemma same_seq l s t : same (MSeq l) s t <-> sames l (kids s) (kids t).
Proof. reflexivity. Qed.
Lemma same_att_sym (p : sdpa K) a b : same_att (p := p) a b -> same_att b a.
Proof. intros (A & B & C). split; [symmetry; exact A|split; assumption]. Qed.
Lemma same_att_trans (p : sdpa K) a b c : same_att (p := p) a b -> same_att b c -> same_att a c.
Proof. intros (A & B & _) (C & _ & D). split; [congruence|split; assumption]. Qed.

Lemma same_sym m : forall s t, same m s t -> same m t s.
Proof.
  assert (G : forall l, Forall (fun m => forall s t, same m s t -> same m t s) l -> forall ss ts, sames l ss ts -> sames l ts ss).
  { induction 1 as [|m0 l Hm _ IH]; intros ss ts; cbn [sames]; [auto|]. intros [A B]. split; [apply Hm; exact A|apply IH; exact B]. }
  induction m using tmod_all; intros s t Hs; try exact Hs; try (symmetry; exact Hs); try (apply same_att_sym; exact Hs).
  - apply G; assumption.
  - apply (G l); assumption.
  - apply (G l); assumption.
  - apply IHm. exact Hs.
  - apply IHm. exact Hs.
  - destruct Hs as [A B]. split; [symmetry; exact A|rewrite <- A; exact B].
Qed.
Lemma same_trans m : forall s t u, same m s t -> same m t u -> same m s u.
Proof.
  assert (G : forall l, Forall (fun m => forall s t u, same m s t -> same m t u -> same m s u) l ->
    forall ss ts us, sames l ss ts -> sames l ts us -> sames l ss us).
  { induction 1 as [|m0 l Hm _ IH]; intros ss ts us; cbn [sames]; [auto|]. intros [A B] [C D]. split; [eapply Hm; eassumption|eapply IH; eassumption]. }
  induction m using tmod_all; intros s t u Hs Ht; try exact Hs; try (etransitivity; [exact Hs|exact Ht]); try (eapply same_att_trans; [exact Hs|exact Ht]).
  - apply (G l H _ (kids t)); assumption.
  - apply (G l H _ (kids t)); assumption.
  - apply (G l H _ (kids t)); assumption.
  - apply (IHm s t u); assumption.
  - apply (IHm s t u); assumption.
  - destruct Hs as [A B], Ht as [C D]. split; [congruence|exact B].
Qed.
Lemma same_left m s t : same m s t -> same m s s.
Proof. intros H. eapply same_trans; [exact H|apply same_sym; exact H]. Qed.
Lemma same_right m s t : same m s t -> same m t t.
Proof. intros H. eapply same_left, same_sym, H. Qed.
Lemma same_fresh m : same m SNone SNone.
Proof.
  assert (G : forall l, Forall (fun m => same m SNone SNone) l -> sames l [] []).
  { induction 1 as [|m0 l Hm _ IH]; cbn [sames]; [exact I|]. split; [exact Hm|exact IH]. }
  induction m using tmod_all; try exact I; try reflexivity; try (apply (G l); assumption); try assumption.
  - split; [reflexivity|]. cbn [pos_of]. destruct np; reflexivity || apply Nat.mod_0_l; discriminate.
  - split; [reflexivity|split; exact I].
  - split; [reflexivity|split; exact I].
Qed.

(** Results that cannot be told apart. *)
Definition alike {A} (R : tstate K -> tstate K -> Prop) (r1 r2 : res (A * tstate K)) : Prop :=
  match r1, r2 with
  | Ok (a, s), Ok (b, t) => a = b /\ R s t
  | Err e, Err f => e = f
  | _, _ => False
  end.
Definition alikes {A} (R : list (tstate K) -> list (tstate K) -> Prop) (r1 r2 : res (A * list (tstate K))) : Prop :=
  match r1, r2 with
  | Ok (a, s), Ok (b, t) => a = b /\ R s t
  | Err e, Err f => e = f
  | _, _ => False
  end.
Lemma alike_refl {A} (R : tstate K -> tstate K -> Prop) (r : res A) s t : R s t -> alike R (y <- r ;; Ok (y, s)) (y <- r ;; Ok (y, t)).
Proof. intros H. destruct r; cbn; auto. Qed.

Lemma chain_alike me ex l : Forall (fun m => forall s t x, same m s t -> alike (same m) (ex m s x) (ex m t x)) l ->
  forall ss ts x, sames l ss ts -> alikes (sames l) (chain me ex l ss x) (chain me ex l ts x).
Proof.
  induction 1 as [|m l Hm _ IH]; intros ss ts x HS; [cbn; auto|]. cbn [chain sames] in *. destruct HS as [A B].
  destruct (match me with Steps => empty_batch x | _ => false end); [cbn; auto|].
  specialize (Hm _ _ x A). destruct (ex m (hd SNone ss) x) as [[y s]|], (ex m (hd SNone ts) x) as [[y' t]|]; cbn [alike bind] in *; try contradiction; [|exact Hm].
  destruct Hm as [<- Hst]. destruct y as [y|].
  - specialize (IH (tl ss) (tl ts) y B). fold (chain me ex) in *. destruct (chain me ex l (tl ss) y) as [[z us]|], (chain me ex l (tl ts) y) as [[z' vs]|]; cbn [alikes bind] in *; try contradiction; [|exact IH].
    destruct IH as [<- IH]. split; [reflexivity|]. split; [exact Hst|exact IH].
  - destruct l, me; cbn; auto.
Qed.
Lemma fan_alike ex l : Forall (fun m => forall s t x, same m s t -> alike (same m) (ex m s x) (ex m t x)) l ->
  forall ss ts x, sames l ss ts -> alikes (sames l) (fan ex l ss x) (fan ex l ts x).
Proof.
  induction 1 as [|m l Hm _ IH]; intros ss ts x HS; [cbn; auto|]. cbn [fan sames] in *. destruct HS as [A B].
  specialize (Hm _ _ x A). destruct (ex m (hd SNone ss) x) as [[y s]|], (ex m (hd SNone ts) x) as [[y' t]|]; cbn [alike bind] in *; try contradiction; [|exact Hm].
  destruct Hm as [<- Hst]. specialize (IH (tl ss) (tl ts) x B). fold (fan ex) in *.
  destruct (fan ex l (tl ss) x) as [[z us]|], (fan ex l (tl ts) x) as [[z' vs]|]; cbn [alikes bind] in *; try contradiction; [|exact IH].
  destruct IH as [<- IH]. split; [reflexivity|]. split; [exact Hst|exact IH].
Qed.
Definition cong {A} (R : tstate K -> tstate K -> Prop) (f : tstate K -> tens K -> res (A * tstate K)) : Prop :=
  forall s t x, R s t -> alike R (f s x) (f t x).
Lemma must_cong R f : cong R f -> cong R (must f).
Proof.
  intros H s t x Hs. unfold must. specialize (H s t x Hs). destruct (f s x) as [[y u]|], (f t x) as [[y' v]|]; cbn [alike bind] in *; try contradiction; [|exact H].
  destruct H as [<- H]. destruct y; cbn; auto.
Qed.
Lemma each_cong R f : cong R f -> forall xs s t, R s t -> alike R (each f s xs) (each f t xs).
Proof.
  intros H. induction xs as [|x xs IH]; intros s t Hs; cbn [each]; [cbn; auto|].
  specialize (H s t x Hs). destruct (f s x) as [[y u]|], (f t x) as [[y' v]|]; cbn [alike bind] in *; try contradiction; [|exact H].
  destruct H as [<- H]. specialize (IH u v H). destruct (each f u xs) as [[z u']|], (each f v xs) as [[z' v']|]; cbn [alike bind] in *; try contradiction; [|exact IH].
  destruct IH as [<- IH]. auto.
Qed.
Lemma over_cong R f : cong R f -> cong R (over_time f).
Proof.
  intros H s t x Hs. unfold over_time. destruct (t_frames x) as [fs|]; cbn [bind]; [|reflexivity].
  pose proof (each_cong R f H fs s t Hs) as He. destruct (each f s fs) as [[z u']|], (each f t fs) as [[z' v']|]; cbn [alike bind] in *; try contradiction; [|exact He].
  destruct He as [<- He]. destruct (t_stack z); cbn; auto.
Qed.
Lemma lamf_cong R b f : cong R f -> cong R (lam_forward b f).
Proof. intros H. destruct b; [exact H|apply over_cong; exact H]. Qed.

(** *** Attention *)
Definition att_rel {A} {p : sdpa K} (r1 r2 : res (A * option (mstate p) * cells)) : Prop :=
  match r1, r2 with
  | Ok (a, o, h), Ok (a', o', h') => a = a' /\ same_att (o, h) (o', h')
  | Err e, Err f => e = f
  | _, _ => False
  end.
Lemma m_step_att (c : cfg K) (p : sdpa K) t upd o1 o2 h1 h2 : same_att (p := p) (o1, h1) (o2, h2) ->
  att_rel (m_forward_step c p o1 t upd h1) (m_forward_step c p o2 t upd h2).
Proof.
  intros (A & B & C). pose proof (m_do_obs_all c p (MStep t upd) o1 o2 h1 h2 A B C) as H. cbn [m_do] in H.
  destruct (m_forward_step c p o1 t upd h1) as [[[a1 u1] g1]|e1]; destruct (m_forward_step c p o2 t upd h2) as [[[a2 u2] g2]|e2]; cbn [bind rel att_rel] in *; try contradiction; [|exact H].
  destruct H as (E & H1 & H2 & H3 & _). split; [destruct a1, a2; congruence|]. split; [exact H1|split; assumption].
Qed.
Lemma steps_some (c : cfg K) (p : sdpa K) ts upd o h a o' h' : m_forward_steps c p o ts upd h = Ok (a, o', h') -> a <> Some [].
Proof.
  unfold m_forward_steps. destruct (match o with Some s => _ | None => _ end) as [b g]. destruct (m_loop c p ts o g) as [[[outs s] k]|]; [|discriminate]. cbn [bind].
  destruct (if upd then _ else _) as [o2|]; [|discriminate]. cbn [bind]. destruct outs; [destruct ts|]; intros [= <- _ _]; discriminate.
Qed.
Lemma m_steps_att (c : cfg K) (p : sdpa K) ts upd o1 o2 h1 h2 : same_att (p := p) (o1, h1) (o2, h2) ->
  att_rel (m_forward_steps c p o1 ts upd h1) (m_forward_steps c p o2 ts upd h2).
Proof.
  intros (A & B & C). pose proof (m_do_obs_all c p (MSteps ts upd) o1 o2 h1 h2 A B C) as H. cbn [m_do] in H.
  destruct (m_forward_steps c p o1 ts upd h1) as [[[a1 u1] g1]|e1] eqn:E1; destruct (m_forward_steps c p o2 ts upd h2) as [[[a2 u2] g2]|e2] eqn:E2; cbn [bind rel att_rel] in *; try contradiction; [|exact H].
  destruct H as (E & H1 & H2 & H3 & _). split; [|split; [exact H1|split; assumption]].
  pose proof (steps_some _ _ _ _ _ _ _ _ _ E1) as N1. pose proof (steps_some _ _ _ _ _ _ _ _ _ E2) as N2.
  destruct a1 as [[|]|], a2 as [[|]|]; congruence.
Qed.

Lemma map_att {A A'} {p : sdpa K} (g : A -> A') (r1 r2 : res (A * option (mstate p) * cells)) : att_rel r1 r2 ->
  att_rel ('(a, o, h) <- r1 ;; Ok (g a, o, h)) ('(a, o, h) <- r2 ;; Ok (g a, o, h)).
Proof.
  destruct r1 as [[[a1 u1] g1]|e1], r2 as [[[a2 u2] g2]|e2]; cbn [att_rel bind]; try contradiction; [|auto]. intros [-> H]. auto.
Qed.
Lemma b_step_att (a : tattn K) p q k v upd o1 o2 h1 h2 : same_att (p := p) (o1, h1) (o2, h2) ->
  att_rel (b_forward_step a p o1 q k v upd h1) (b_forward_step a p o2 q k v upd h2).
Proof. intros H. unfold b_forward_step. destruct (shapes2 a q k v); [|reflexivity]. apply map_att, m_step_att, H. Qed.
Lemma b_steps_att (a : tattn K) p q k v upd o1 o2 h1 h2 : same_att (p := p) (o1, h1) (o2, h2) ->
  att_rel (b_forward_steps a p o1 q k v upd h1) (b_forward_steps a p o2 q k v upd h2).
Proof.
  intros H. unfold b_forward_steps. destruct (shapes3 a _ _ _); [|reflexivity]. destruct (Nat.eqb _ _); [|reflexivity]. apply map_att, m_steps_att, H.
Qed.

(** What a peek does. *)
Definition peeks {A} {p : sdpa K} (o : option (mstate p)) (h : cells) (r1 r2 : res (A * option (mstate p) * cells)) : Prop :=
  (forall a o' h', r1 = Ok (a, o', h') -> same_att (o, h) (o', h') /\ exists o2 h2, r2 = Ok (a, o2, h2))
  /\ (forall a o2 h2, r2 = Ok (a, o2, h2) -> o2 <> None /\ (o <> None -> exists o' h', r1 = Ok (a, o', h'))).
Lemma map_peeks {A A'} {p : sdpa K} (g : A -> A') (o : option (mstate p)) h r1 r2 : peeks o h r1 r2 ->
  peeks o h ('(a, o, h) <- r1 ;; Ok (g a, o, h)) ('(a, o, h) <- r2 ;; Ok (g a, o, h)).
Proof.
  intros [H1 H2]. split.
  - intros a o' h' E. destruct r1 as [[[a1 u1] g1]|e1]; [|discriminate]. cbn [bind] in E. injection E as <- <- <-.
    destruct (H1 _ _ _ eq_refl) as [A1 (o2 & h2 & ->)]. split; [exact A1|]. exists o2, h2. reflexivity.
  - intros a o' h' E. destruct r2 as [[[a1 u1] g1]|e1]; [|discriminate]. cbn [bind] in E. injection E as <- <- <-.
    destruct (H2 _ _ _ eq_refl) as [A1 A2]. split; [exact A1|]. intros Ho. destruct (A2 Ho) as (o2 & h2 & ->). exists o2, h2. reflexivity.
Qed.
Lemma m_step_peeks (c : cfg K) (p : sdpa K) t o h : stored o h -> peeks o h (m_forward_step c p o t false h) (m_forward_step c p o t true h).
Proof.
  intros Hs. destruct o as [s|].
  - pose proof (peek_step c p s t h Hs) as H.
    destruct (m_forward_step c p (Some s) t false h) as [[[a1 u1] g1]|e1]; destruct (m_forward_step c p (Some s) t true h) as [[[a2 u2] g2]|e2] eqn:E2; try contradiction.
    + destruct H as (-> & H1 & H2 & _). split.
      * intros a o' h' [= <- <- <-]. split; [split; [symmetry; exact H1|split; assumption]|]. eauto.
      * intros a o2 h2 [= <- <- <-]. split; [|intros _; eauto]. rewrite m_step_true in E2. destruct (m_fstep c p t (Some s) h) as [[[x y] z]|]; [|discriminate].
        cbn [bind] in E2. injection E2 as _ <- _. discriminate.
    + split; intros ? ? ? [=].
  - destruct (fresh_peek_step c p t h) as [e E]. rewrite E. split; [intros ? ? ? [=]|]. intros a o2 h2 E2. split; [|congruence].
    rewrite m_step_true in E2. destruct (m_fstep c p t None h) as [[[x y] z]|]; [|discriminate]. cbn [bind] in E2. injection E2 as _ <- _. discriminate.
Qed.
Lemma m_steps_peeks (c : cfg K) (p : sdpa K) t o h : stored o h -> peeks o h (m_forward_steps c p o t false h) (m_forward_steps c p o t true h).
Proof.
  intros Hs.
  assert (G : forall a o2 h2, m_forward_steps c p o t true h = Ok (a, o2, h2) -> o2 <> None).
  { intros a o2 h2. unfold m_forward_steps. destruct (match o with Some s => _ | None => _ end) as [b g]. destruct (m_loop c p t o g) as [[[outs s] k]|]; [|discriminate]. cbn [bind].
    destruct s as [s|]; [|discriminate]. cbn [bind]. destruct outs; [destruct t|]; intros [= _ <- _]; discriminate. }
  destruct o as [s|].
  - pose proof (peek_steps c p s t h Hs) as H.
    destruct (m_forward_steps c p (Some s) t false h) as [[[a1 u1] g1]|e1]; destruct (m_forward_steps c p (Some s) t true h) as [[[a2 u2] g2]|e2] eqn:E2; try contradiction.
    + destruct H as (-> & H1 & H2 & _). split.
      * intros a o' h' [= <- <- <-]. split; [split; [symmetry; exact H1|split; assumption]|]. eauto.
      * intros a o2 h2 [= <- <- <-]. split; [|intros _; eauto]. eapply G. reflexivity.
    + split; intros ? ? ? [=].
  - destruct (fresh_peek_steps c p t h) as [e E]. rewrite E. split; [intros ? ? ? [=]|]. intros a o2 h2 E2. split; [|congruence]. exact (G _ _ _ E2).
Qed.
Lemma b_step_peeks (a : tattn K) p q k v o h : stored o h -> peeks (p := p) o h (b_forward_step a p o q k v false h) (b_forward_step a p o q k v true h).
Proof. intros H. unfold b_forward_step. destruct (shapes2 a q k v); [apply map_peeks, m_step_peeks, H|split; intros ? ? ? [=]]. Qed.
Lemma b_steps_peeks (a : tattn K) p q k v o h : stored o h -> peeks (p := p) o h (b_forward_steps a p o q k v false h) (b_forward_steps a p o q k v true h).
Proof.
  intros H. unfold b_forward_steps. destruct (shapes3 a _ _ _); [|split; intros ? ? ? [=]]. destruct (Nat.eqb _ _); [apply map_peeks, m_steps_peeks, H|split; intros ? ? ? [=]].
Qed.

(** *** Only what is observed matters *)
Lemma so_rel {A} a qi (r1 r2 : res (A * _ * _)) : att_rel (p := ts_sdpa a qi) r1 r2 -> forall sof,
  alike (same (MSO a qi sof)) ('(y, o, h) <- r1 ;; Ok (y, SSo o h)) ('(y, o, h) <- r2 ;; Ok (y, SSo o h)).
Proof.
  destruct r1 as [[[a1 u1] g1]|e1], r2 as [[[a2 u2] g2]|e2]; cbn [att_rel bind]; try contradiction; [|auto]. intros [-> H] sof. split; [reflexivity|exact H].
Qed.
Lemma re_rel {A} a (r1 r2 : res (A * _ * _)) : att_rel (p := tr_sdpa a) r1 r2 ->
  alike (same (MRE a)) ('(y, o, h) <- r1 ;; Ok (y, SRe o h)) ('(y, o, h) <- r2 ;; Ok (y, SRe o h)).
Proof.
  destruct r1 as [[[a1 u1] g1]|e1], r2 as [[[a2 u2] g2]|e2]; cbn [att_rel bind]; try contradiction; [|auto]. intros [-> H]. split; [reflexivity|exact H].
Qed.
Lemma same_pair (p : sdpa K) a b : same_att (p := p) a b -> same_att (fst a, snd a) (fst b, snd b).
Proof. exact (fun H => H). Qed.
Lemma mod_twice a P : (a mod P) mod P = a mod P.
Proof. destruct P; [reflexivity|]. apply Nat.mod_mod. discriminate. Qed.
Lemma exec_alike m : forall ctx me s t x pe upd, same m s t -> alike (same m) (exec ctx me m s x pe upd) (exec ctx me m t x pe upd).
Proof.
  induction m using tmod_all; intros ctx me s t x pe upd HS.
  - cbn [exec]. assert (G := chain_alike me (fun m s x => exec ctx me m s x pe upd) l). specialize (G ltac:(eapply Forall_impl; [|exact H]; intros m Hm; intros; apply Hm; assumption) (kids s) (kids t) x HS).
    destruct (chain _ _ l (kids s) x) as [[y ss]|], (chain _ _ l (kids t) x) as [[y' ts]|]; cbn [alikes bind] in *; try contradiction; [|exact G]. exact G.
  - cbn [exec]. assert (G := fan_alike (fun m s x => exec ctx me m s x pe upd) l). specialize (G ltac:(eapply Forall_impl; [|exact H]; intros m Hm; intros; apply Hm; assumption) (kids s) (kids t) x HS).
    destruct (fan _ l (kids s) x) as [[y ss]|], (fan _ l (kids t) x) as [[y' ts]|]; cbn [alikes bind] in *; try contradiction; [|exact G].
    destruct G as [<- G]. destruct (t_reduce b y); cbn [bind]; [|reflexivity]. split; [reflexivity|exact G].
  - cbn [exec]. assert (G := chain_alike Forward (fun m s x => exec ctx (mode_of ctx m) m s x false true) l). specialize (G ltac:(eapply Forall_impl; [|exact H]; intros m Hm; intros; apply Hm; assumption) (kids s) (kids t) x HS).
    destruct (chain _ _ l (kids s) x) as [[y ss]|], (chain _ _ l (kids t) x) as [[y' ts]|]; cbn [alikes bind] in *; try contradiction; [|exact G]. exact G.
  - cbn [exec]. assert (G := must_cong (same m) (fun s x => exec ctx (mode_of ctx m) m s x false true) (fun s t x Hs => IHm ctx (mode_of ctx m) s t x false true Hs) s t x HS).
    destruct (must _ s x) as [[y u]|], (must _ t x) as [[y' v]|]; cbn [alike bind] in *; try contradiction; [|exact G].
    destruct G as [<- G]. destruct (t_add y x); cbn [bind]; [|reflexivity]. split; [reflexivity|exact G].
  - cbn [exec]. assert (G := must_cong (same m) (fun s x => exec ctx (mode_of ctx m) m s x false true) (fun s t x Hs => IHm ctx (mode_of ctx m) s t x false true Hs)).
    set (f := must _) in *.
    assert (G2 : alike (same m)
       (match me, rt with
        | Forward, _ | Steps, false | Step, true => lam_forward tk f s x
        | Steps, true => over_time (lam_forward tk f) s x
        | Step, false => if tk then u <- t_unsqueeze x ;; '(y, s) <- f s u ;; Ok (squeeze 2 y, s) else f s x end)
       (match me, rt with
        | Forward, _ | Steps, false | Step, true => lam_forward tk f t x
        | Steps, true => over_time (lam_forward tk f) t x
        | Step, false => if tk then u <- t_unsqueeze x ;; '(y, s) <- f t u ;; Ok (squeeze 2 y, s) else f t x end)).
    { assert (G3 := lamf_cong (same m) tk f G). destruct me, rt; try (apply G3; exact HS).
      - apply over_cong; assumption.
      - destruct tk; [|apply G; exact HS]. destruct (t_unsqueeze x) as [u|]; cbn [bind]; [|reflexivity]. specialize (G s t u HS).
        destruct (f s u) as [[y s1]|], (f t u) as [[y' t1]|]; cbn [alike bind] in *; try contradiction; [|exact G]. destruct G as [<- G]. split; [reflexivity|exact G]. }
    clearbody f. destruct (match me, rt with Forward, _ => lam_forward tk f s x | _, _ => _ end) as [[y u]|], (match me, rt with Forward, _ => lam_forward tk f t x | _, _ => _ end) as [[y' v]|]; cbn [alike bind] in *; try contradiction; [|exact G2].
    destruct G2 as [<- G2]. split; [reflexivity|exact G2].
  - cbn [exec]. destruct me; split; reflexivity.
  - cbn [exec]. apply (alike_refl (same (MLin d i o w b)) (y <- tl_forward d i o w b x ;; Ok (Some y)) s t) in HS.
    destruct (tl_forward d i o w b x); exact HS.
  - cbn [exec]. destruct (t_norm n f x); cbn; auto.
  - split; reflexivity.
  - cbn [exec]. destruct me; try (split; reflexivity). destruct (t_unsqueeze x); cbn; auto.
  - cbn [exec]. cbn [same] in HS. destruct HS as [<- HS].
    assert (G1 : forall steps, alike (same (MPos np nn emb st)) (pos_forward np nn emb steps (pos_of s) x) (pos_forward np nn emb steps (pos_of s) x)).
    { intros steps. unfold pos_forward. destruct (sh x) as [|? [|? [|? [|? ?]]]]; try reflexivity. destruct (Nat.leb _ _); [|reflexivity]. destruct (Nat.eqb _ _); [|reflexivity].
      split; [reflexivity|]. split; [reflexivity|]. apply mod_twice. }
    destruct me; [apply G1..|]. unfold pos_step. destruct (sh x) as [|? [|? [|? ?]]]; try reflexivity. destruct (Nat.eqb _ _); [|reflexivity].
    split; [reflexivity|]. split; [reflexivity|]. destruct upd; [apply mod_twice|exact HS].
  - cbn [exec]. cbn [same] in HS. rewrite HS. destruct me; swap 2 3.
    + destruct b; [|split; [reflexivity|exact HS]]. destruct (Nat.leb 3 _); [|reflexivity]. destruct (py_select _ _ x); cbn [bind]; [|reflexivity]. split; [reflexivity|exact HS].
    + destruct (delay_forward_step _ _ _ _ x upd) as [[y o]|]; cbn [bind]; [|reflexivity]. split; reflexivity.
    + destruct (Nat.eqb d 0); [split; [reflexivity|exact HS]|]. destruct (t_frames x) as [fs|]; cbn [bind]; [|reflexivity].
      destruct (delay_forward_steps _ _ _ _ fs pe upd) as [r|]; cbn [bind]; [|reflexivity]. destruct (stacked r) as [[y u]|]; [split; reflexivity|reflexivity].
  - cbn [exec]. cbn [same] in HS. rewrite HS. destruct me; swap 2 3.
    + split; [reflexivity|exact HS].
    + destruct (tu_forward_step _ _ x upd) as [[y o]|]; cbn [bind]; [|reflexivity]. split; reflexivity.
    + destruct (Nat.eqb d 0); [split; [reflexivity|exact HS]|]. destruct (t_frames x) as [fs|]; cbn [bind]; [|reflexivity].
      destruct (co_forward_steps _ _ _ _ _ _ fs pe upd) as [r|]; cbn [bind]; [|reflexivity]. destruct (stacked r) as [[y u]|]; [split; reflexivity|reflexivity].
  - cbn [exec]. cbn [same] in HS. destruct me; swap 2 3.
    + destruct (s_forward a sof qi x x x); cbn [bind]; [|reflexivity]. split; [reflexivity|exact HS].
    + apply so_rel. unfold s_forward_step. apply map_att, b_step_att, HS.
    + apply so_rel. unfold s_forward_steps. apply map_att, b_steps_att, HS.
  - cbn [exec]. cbn [same] in HS. destruct me; swap 2 3.
    + destruct (b_forward a x x x); cbn [bind]; [|reflexivity]. split; [reflexivity|exact HS].
    + apply re_rel. unfold r_forward_step. apply map_att, b_step_att, HS.
    + apply re_rel. unfold r_forward_steps. apply map_att, b_steps_att, HS.
Qed.

(** *** Modules without memory and peeks *)
Definition peek1 (m : tmod K) (pe : bool) (ex0 ex1 : tmod K -> tstate K -> tens K -> res (option (tens K) * tstate K)) : Prop :=
  forall s x o s', same m s s -> ex0 m s x = Ok (o, s') -> same m s s' /\ (pe = false -> exists s1, ex1 m s x = Ok (o, s1)).
Lemma sames_refl l ss ts : sames l ss ts -> sames l ss ss.
Proof. revert ss ts. induction l as [|m l IH]; intros ss ts; cbn [sames]; [auto|]. intros [A B]. split; [exact (same_left _ _ _ A)|exact (IH _ _ B)]. Qed.
Lemma chain_peek me pe ex0 ex1 l : Forall (fun m => peek1 m pe ex0 ex1) l -> forall ss x o ss', sames l ss ss -> chain me ex0 l ss x = Ok (o, ss') ->
  sames l ss ss' /\ (pe = false -> exists ss1, chain me ex1 l ss x = Ok (o, ss1)).
Proof.
  induction 1 as [|m l Hm _ IH]; intros ss x o ss' HS E; cbn [chain sames] in *.
  - injection E as <- <-. split; [exact I|]. intros _. exists []. reflexivity.
  - destruct HS as [A B]. destruct (match me with Steps => empty_batch x | _ => false end).
    + injection E as <- <-. split; [split; assumption|]. intros _. exists ss. reflexivity.
    + destruct (ex0 m (hd SNone ss) x) as [[y s]|] eqn:E1; [|discriminate]. cbn [bind] in E. destruct (Hm _ _ _ _ A E1) as [C D].
      fold (chain me ex0) (chain me ex1) in *. destruct y as [y|].
      * destruct (chain me ex0 l (tl ss) y) as [[z us]|] eqn:E2; [|discriminate]. cbn [bind] in E. injection E as <- <-.
        destruct (IH _ _ _ _ B E2) as [F G]. split; [split; [exact C|exact F]|]. intros Hpe. destruct (D Hpe) as [s1 ->], (G Hpe) as [ss1 G1]. cbn [bind].
        rewrite G1. cbn [bind]. eexists. reflexivity.
      * assert (E3 : o = None /\ ss' = s :: tl ss) by (destruct l, me; try discriminate E; injection E as <- <-; auto). destruct E3 as [-> ->].
        split; [split; [exact C|exact B]|]. intros Hpe. destruct (D Hpe) as [s1 ->]. cbn [bind]. destruct l, me; try discriminate E; eexists; reflexivity.
Qed.
Lemma fan_peek pe ex0 ex1 l : Forall (fun m => peek1 m pe ex0 ex1) l -> forall ss x o ss', sames l ss ss -> fan ex0 l ss x = Ok (o, ss') ->
  sames l ss ss' /\ (pe = false -> exists ss1, fan ex1 l ss x = Ok (o, ss1)).
Proof.
  induction 1 as [|m l Hm _ IH]; intros ss x o ss' HS E; cbn [fan sames] in *.
  - injection E as <- <-. split; [exact I|]. intros _. exists []. reflexivity.
  - destruct HS as [A B]. destruct (ex0 m (hd SNone ss) x) as [[y s]|] eqn:E1; [|discriminate]. cbn [bind] in E. destruct (Hm _ _ _ _ A E1) as [C D].
    fold (fan ex0) (fan ex1) in *. destruct (fan ex0 l (tl ss) x) as [[z us]|] eqn:E2; [|discriminate]. cbn [bind] in E. injection E as <- <-.
    destruct (IH _ _ _ _ B E2) as [F G]. split; [split; [exact C|exact F]|]. intros Hpe. destruct (D Hpe) as [s1 ->], (G Hpe) as [ss1 G1]. cbn [bind].
    rewrite G1. cbn [bind]. eexists. reflexivity.
Qed.
Definition stays {A} (m : tmod K) (f : tstate K -> tens K -> res (A * tstate K)) : Prop :=
  forall s x o s', same m s s -> f s x = Ok (o, s') -> same m s s'.
Lemma must_stays m f : stays m f -> stays m (must f).
Proof. intros H s x o s' Hs. unfold must. destruct (f s x) as [[y u]|] eqn:E; [|discriminate]. cbn [bind]. destruct y; [|discriminate]. intros [= <- <-]. exact (H _ _ _ _ Hs E). Qed.
Lemma each_stays m f : stays m f -> forall xs s o s', same m s s -> each f s xs = Ok (o, s') -> same m s s'.
Proof.
  intros H. induction xs as [|x xs IH]; intros s o s' Hs; cbn [each]; [intros [= <- <-]; exact Hs|].
  destruct (f s x) as [[y u]|] eqn:E; [|discriminate]. cbn [bind]. pose proof (H _ _ _ _ Hs E) as H1.
  destruct (each f u xs) as [[z v]|] eqn:E2; [|discriminate]. cbn [bind]. intros [= <- <-].
  exact (same_trans _ _ _ _ H1 (IH _ _ _ (same_right _ _ _ H1) E2)).
Qed.
Lemma over_stays m f : stays m f -> stays m (over_time f).
Proof.
  intros H s x o s' Hs. unfold over_time. destruct (t_frames x) as [fs|]; [|discriminate]. cbn [bind]. destruct (each f s fs) as [[z v]|] eqn:E; [|discriminate]. cbn [bind].
  destruct (t_stack z); [|discriminate]. intros [= <- <-]. exact (each_stays m f H _ _ _ _ Hs E).
Qed.
Lemma lamf_stays m b f : stays m f -> stays m (lam_forward b f).
Proof. intros H. destruct b; [exact H|apply over_stays; exact H]. Qed.

Lemma memoryless_stays m : forall ctx me pe upd, memoryless ctx me m = true -> stays m (fun s x => exec ctx me m s x pe upd).
Proof.
  induction m using tmod_all; intros ctx me pe upd HM s x ov s' HS E; cbn [memoryless] in HM.
  - cbn [exec] in E. destruct (chain _ _ l (kids s) x) as [[y ss]|] eqn:E1; [|discriminate]. injection E as <- <-.
    refine (proj1 (chain_peek me true _ (fun m s x => exec ctx me m s x pe upd) l _ _ _ _ _ HS E1)).
    rewrite forallb_forall in HM. rewrite Forall_forall in *. intros m Hm s1 x1 o1 s2 Hs Es. split; [|discriminate]. exact (H m Hm ctx me pe upd (HM m Hm) _ _ _ _ Hs Es).
  - cbn [exec] in E. destruct (fan _ l (kids s) x) as [[y ss]|] eqn:E1; [|discriminate]. cbn [bind] in E. destruct (t_reduce b y); [|discriminate]. injection E as <- <-.
    refine (proj1 (fan_peek true _ (fun m s x => exec ctx me m s x pe upd) l _ _ _ _ _ HS E1)).
    rewrite forallb_forall in HM. rewrite Forall_forall in *. intros m Hm s1 x1 o1 s2 Hs Es. split; [|discriminate]. exact (H m Hm ctx me pe upd (HM m Hm) _ _ _ _ Hs Es).
  - cbn [exec] in E. destruct (chain _ _ l (kids s) x) as [[y ss]|] eqn:E1; [|discriminate]. injection E as <- <-.
    refine (proj1 (chain_peek Forward true _ (fun m s x => exec ctx (mode_of ctx m) m s x false true) l _ _ _ _ _ HS E1)).
    rewrite forallb_forall in HM. rewrite Forall_forall in *. intros m Hm s1 x1 o1 s2 Hs Es. split; [|discriminate]. exact (H m Hm ctx _ false true (HM m Hm) _ _ _ _ Hs Es).
  - cbn [exec] in E. destruct (must _ s x) as [[y u]|] eqn:E1; [|discriminate]. cbn [bind] in E. destruct (t_add y x); [|discriminate]. injection E as <- <-.
    exact (must_stays m _ (IHm ctx _ false true HM) _ _ _ _ HS E1).
  - cbn [exec] in E. assert (G := must_stays m _ (IHm ctx _ false true HM)). set (f := must _) in *. clearbody f.
    assert (G2 := lamf_stays m tk f G).
    assert (G3 : forall y u, match me, rt with
        | Forward, _ | Steps, false | Step, true => lam_forward tk f s x
        | Steps, true => over_time (lam_forward tk f) s x
        | Step, false => if tk then u <- t_unsqueeze x ;; '(y, s) <- f s u ;; Ok (squeeze 2 y, s) else f s x end = Ok (y, u) -> same m s u).
    { intros y u Ey. destruct me, rt; try (exact (G2 _ _ _ _ HS Ey)).
      - exact (over_stays m _ G2 _ _ _ _ HS Ey).
      - destruct tk; [|exact (G _ _ _ _ HS Ey)]. destruct (t_unsqueeze x) as [w|]; [|discriminate]. cbn [bind] in Ey. destruct (f s w) as [[y1 u1]|] eqn:E1; [|discriminate].
        injection Ey as <- <-. exact (G _ _ _ _ HS E1). }
    destruct (match me, rt with Forward, _ => lam_forward tk f s x | _, _ => _ end) as [[y u]|]; [|discriminate]. injection E as <- <-. exact (G3 _ _ eq_refl).
  - exact I.
  - exact I.
  - exact I.
  - exact I.
  - exact I.
  - discriminate.
  - cbn [exec same] in *. destruct me.
    + destruct b; [|injection E as <- <-; exact HS]. destruct (Nat.leb 3 _); [|discriminate]. destruct (py_select _ _ x); [|discriminate]. injection E as <- <-. exact HS.
    + rewrite HM in E. injection E as <- <-. exact HS.
    + unfold delay_forward_step in E. rewrite HM in E. injection E as <- <-. reflexivity.
  - cbn [exec same] in *. destruct me; [injection E as <- <-; exact HS|discriminate HM..].
  - cbn [exec same] in *. destruct me; [destruct (s_forward a sof qi x x x); [|discriminate]; injection E as <- <-; exact HS|discriminate HM..].
  - cbn [exec same] in *. destruct me; [destruct (b_forward a x x x); [|discriminate]; injection E as <- <-; exact HS|discriminate HM..].
Qed.

Lemma co_step_peek {F St Ob} (g : Ob -> option St) (set : Ob -> St -> Ob) (fs : F -> option St -> res (option F * option St)) o x r o' :
  co_forward_step g set fs o x false = Ok (r, o') -> o' = o /\ exists o1, co_forward_step g set fs o x true = Ok (r, o1).
Proof.
  unfold co_forward_step. destruct (fs x (g o)) as [[y s]|]; [|discriminate]. cbn [bind]. destruct s; intros [= <- <-]; split; auto; eexists; reflexivity.
Qed.
Lemma co_steps_peek {F St Ob} (g : Ob -> option St) (set : Ob -> St -> Ob) (fs : F -> option St -> res (option F * option St)) mp d o xs pe r o' :
  co_forward_steps g set fs mp d o xs pe false = Ok (r, o') -> o' = o /\ (pe = false -> exists o1, co_forward_steps g set fs mp d o xs pe true = Ok (r, o1)).
Proof.
  unfold co_forward_steps. destruct (co_loop fs xs (g o)) as [[y s]|]; [|discriminate]. cbn [bind].
  assert (E1 : match s with Some _ => o | None => o end = o) by (destruct s; reflexivity). rewrite E1. destruct pe.
  - match goal with |- bind ?R _ = _ -> _ => destruct R as [z|] end; [|discriminate]. cbn [bind]. intros [= <- <-]. split; [reflexivity|discriminate].
  - cbn [bind]. intros [= <- <-]. split; [reflexivity|]. intros _. eexists. reflexivity.
Qed.
Lemma stacked_peek (r : option (list (tens K)) * obj (tens K)) o s' : stacked r = Ok (o, s') -> s' = SObj (snd r) /\ forall ob, stacked (fst r, ob) = Ok (o, SObj ob).
Proof.
  unfold stacked. cbn [fst snd]. destruct (fst r) as [l|].
  - destruct (t_stack l); [|discriminate]. cbn [bind]. intros [= <- <-]. auto.
  - intros [= <- <-]. auto.
Qed.
Lemma so_peek a qi sof (s : tstate K) (r1 r2 : res (option (tens K) * option (mstate (ts_sdpa a qi)) * cells)) o s' :
  peeks (p := ts_sdpa a qi) (fst (so_of s)) (snd (so_of s)) r1 r2 -> ('(y, o, h) <- r1 ;; Ok (y, SSo o h)) = Ok (o, s') ->
  same (MSO a qi sof) s s' /\ exists s1, ('(y, o, h) <- r2 ;; Ok (y, SSo o h)) = Ok (o, s1).
Proof.
  intros [H _] E. destruct r1 as [[[y u] h]|]; [|discriminate]. injection E as <- <-. destruct (H _ _ _ eq_refl) as [A (o2 & h2 & ->)]. split; [exact A|]. eexists. reflexivity.
Qed.
Lemma re_peek a (s : tstate K) (r1 r2 : res (option (tens K) * option (mstate (tr_sdpa a)) * cells)) o s' :
  peeks (p := tr_sdpa a) (fst (re_of s)) (snd (re_of s)) r1 r2 -> ('(y, o, h) <- r1 ;; Ok (y, SRe o h)) = Ok (o, s') ->
  same (MRE a) s s' /\ exists s1, ('(y, o, h) <- r2 ;; Ok (y, SRe o h)) = Ok (o, s1).
Proof.
  intros [H _] E. destruct r1 as [[[y u] h]|]; [|discriminate]. injection E as <- <-. destruct (H _ _ _ eq_refl) as [A (o2 & h2 & ->)]. split; [exact A|]. eexists. reflexivity.
Qed.
Lemma peek m : forall ctx me pe s x o s', me <> Forward -> still ctx m = true -> same m s s -> exec ctx me m s x pe false = Ok (o, s') ->
  same m s s' /\ (pe = false -> exists s1, exec ctx me m s x pe true = Ok (o, s1)).
Proof.
  induction m using tmod_all; intros ctx me pe s x ov s' Hme HM HS E; cbn [still] in HM.
  - cbn [exec] in *. destruct (chain _ _ l (kids s) x) as [[y ss]|] eqn:E1; [|discriminate]. injection E as <- <-.
    destruct (chain_peek me pe (fun m s x => exec ctx me m s x pe false) (fun m s x => exec ctx me m s x pe true) l) with (2 := HS) (3 := E1) as [A B].
    { rewrite forallb_forall in HM. rewrite Forall_forall in *. intros m Hm s1 x1 o1 s2 Hs Es. exact (H m Hm ctx me pe _ _ _ _ Hme (HM m Hm) Hs Es). }
    split; [exact A|]. intros Hpe. destruct (B Hpe) as [ss1 ->]. eexists. reflexivity.
  - cbn [exec] in *. destruct (fan _ l (kids s) x) as [[y ss]|] eqn:E1; [|discriminate]. cbn [bind] in E. destruct (t_reduce b y) as [z|] eqn:Er; [|discriminate]. injection E as <- <-.
    destruct (fan_peek pe (fun m s x => exec ctx me m s x pe false) (fun m s x => exec ctx me m s x pe true) l) with (2 := HS) (3 := E1) as [A B].
    { rewrite forallb_forall in HM. rewrite Forall_forall in *. intros m Hm s1 x1 o1 s2 Hs Es. exact (H m Hm ctx me pe _ _ _ _ Hme (HM m Hm) Hs Es). }
    split; [exact A|]. intros Hpe. destruct (B Hpe) as [ss1 ->]. cbn [bind]. rewrite Er. eexists. reflexivity.
  - split; [exact (memoryless_stays (MNN l) ctx me pe false HM _ _ _ _ HS E)|]. intros _. exists s'. exact E.
  - split; [exact (memoryless_stays (MNaive m) ctx me pe false HM _ _ _ _ HS E)|]. intros _. exists s'. exact E.
  - split; [exact (memoryless_stays (MLam rt tk m) ctx me pe false HM _ _ _ _ HS E)|]. intros _. exists s'. exact E.
  - split; [exact I|]. intros _. exists s'. exact E.
  - split; [exact I|]. intros _. exists s'. exact E.
  - split; [exact I|]. intros _. exists s'. exact E.
  - split; [exact I|]. intros _. exists s'. exact E.
  - split; [exact I|]. intros _. exists s'. exact E.
  - cbn [exec same] in *. destruct HS as [_ HS]. destruct me; [contradiction|..].
    + unfold pos_forward in *. destruct (sh x) as [|? [|? [|? [|? ?]]]]; try discriminate. destruct (Nat.leb _ _); [|discriminate]. destruct (Nat.eqb _ _); [|discriminate].
      injection E as <- <-. cbn [pos_of]. rewrite Nat.add_0_r, HS. split; [auto|]. intros _. eexists. reflexivity.
    + unfold pos_step in *. destruct (sh x) as [|? [|? [|? ?]]]; try discriminate. destruct (Nat.eqb _ _); [|discriminate].
      injection E as <- <-. cbn [pos_of]. split; [auto|]. intros _. eexists. reflexivity.
  - cbn [exec same] in *. destruct me; [contradiction|..].
    + destruct (Nat.eqb d 0) eqn:Ed; [injection E as <- <-; split; [exact HS|]; intros _; eexists; reflexivity|].
      destruct (t_frames x) as [fs|]; [|discriminate]. cbn [bind] in *. unfold delay_forward_steps in *. rewrite Ed in *.
      destruct (co_forward_steps _ _ _ _ _ _ _ pe false) as [[r ob]|] eqn:E1; [|discriminate]. cbn [bind] in E. destruct (co_steps_peek _ _ _ _ _ _ _ _ _ _ E1) as [-> A].
      destruct (stacked_peek _ _ _ E) as [-> B]. cbn [snd obj_of fst] in *. split; [reflexivity|]. intros Hpe. destruct (A Hpe) as [o1 ->]. cbn [bind]. rewrite B. eexists. reflexivity.
    + unfold delay_forward_step in *. destruct (Nat.eqb d 0) eqn:Ed; [injection E as <- <-; split; [reflexivity|]; intros _; eexists; reflexivity|].
      destruct (co_forward_step _ _ _ _ _ false) as [[r ob]|] eqn:E1; [|discriminate]. injection E as <- <-. destruct (co_step_peek _ _ _ _ _ _ _ E1) as [-> [o1 ->]].
      split; [reflexivity|]. intros _. eexists. reflexivity.
  - cbn [exec same] in *. destruct me; [contradiction|..].
    + destruct (Nat.eqb d 0) eqn:Ed; [injection E as <- <-; split; [exact HS|]; intros _; eexists; reflexivity|].
      destruct (t_frames x) as [fs|]; [|discriminate]. cbn [bind] in *.
      destruct (co_forward_steps _ _ _ _ _ _ _ pe false) as [[r ob]|] eqn:E1; [|discriminate]. cbn [bind] in E. destruct (co_steps_peek _ _ _ _ _ _ _ _ _ _ E1) as [-> A].
      destruct (stacked_peek _ _ _ E) as [-> B]. cbn [snd obj_of fst] in *. split; [reflexivity|]. intros Hpe. destruct (A Hpe) as [o1 ->]. cbn [bind]. rewrite B. eexists. reflexivity.
    + unfold tu_forward_step in *. destruct (Nat.eqb d 0) eqn:Ed; [injection E as <- <-; split; [reflexivity|]; intros _; eexists; reflexivity|].
      destruct (co_forward_step _ _ _ _ _ false) as [[r ob]|] eqn:E1; [|discriminate]. injection E as <- <-. destruct (co_step_peek _ _ _ _ _ _ _ E1) as [-> [o1 ->]].
      split; [reflexivity|]. intros _. eexists. reflexivity.
  - cbn [exec] in *. destruct HS as (_ & Hst & _). destruct me; [contradiction|..].
    + destruct (so_peek a qi sof s _ _ ov s' (map_peeks _ _ _ _ _ (b_steps_peeks a (ts_sdpa a qi) x x x _ _ Hst)) E) as [A B]. auto.
    + destruct (so_peek a qi sof s _ _ ov s' (map_peeks _ _ _ _ _ (b_step_peeks a (ts_sdpa a qi) x x x _ _ Hst)) E) as [A B]. auto.
  - cbn [exec] in *. destruct HS as (_ & Hst & _). destruct me; [contradiction|..].
    + destruct (re_peek a s _ _ ov s' (map_peeks _ _ _ _ _ (b_steps_peeks a (tr_sdpa a) x x x _ _ Hst)) E) as [A B]. auto.
    + destruct (re_peek a s _ _ ov s' (map_peeks _ _ _ _ _ (b_step_peeks a (tr_sdpa a) x x x _ _ Hst)) E) as [A B]. auto.
Qed.
End P.
