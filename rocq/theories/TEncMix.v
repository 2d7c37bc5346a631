(** Steps, clips and forward calls in any order, each in its own context. *)
From Coq Require Import List ZArith Bool Arith Lia ZifyBool ZifyNat.
From Verif Require Import Base Frames CoMod Leaf LeafProof Spec Attn AttnSpec Trans TransSpec TransProof CallMode Tensor TensorProof TConvProof
  TAttn TAttnSpec TAttnProof TPoint TPointSpec TPointProof TPointThm TEnc TEncSpec TEncProof TEncThm TEncNet TEncCalls TEncRun.
Import ListNotations.

Section P.
Context {K : Type} {NK : Num K} {NL : NumLaws K}.
Variable B : nat.
Hypothesis HB : 0 < B.

(** [forward] leaves the stream alone. *)
Definition keeps (m : tmod K) (J : nat -> tstate K -> Prop) : Prop :=
  forall c i s x o s', J i s -> exec c Forward m s x false true = Ok (o, s') -> J i s'.

Section Run.
Variables (n0 : nat) (F : nat -> tens K) (T : nat) (f : nat -> nat -> list K).
Variables (m : tmod K) (J : nat -> tstate K -> Prop) (n' : nat) (sp : list nat) (N : nat) (g : nat -> nat -> list nat -> list K).
Variable fits : nat -> Prop.
Variable C : option meth -> Prop.
Variable W : tens K -> tens K -> Prop.
Hypothesis HS : forall c, C c -> streams B c n0 F T f m J n' sp N g.
Hypothesis HK : keeps m J.
Hypothesis HW : forall c s x L k, C c -> 0 < L -> fits L -> clip_holds n0 B L x k -> exists y s', exec c Forward m s x false true = Ok (Some y, s') /\ W x y.

Fixpoint covers (i : nat) (l : list (tcall K)) : Prop :=
  match l with
  | [] => True
  | CFrame c x :: l => C c /\ i < T /\ x = F i /\ covers (i + 1) l
  | CClip c x :: l => C c /\ exists L, nth 2 (sh x) 0 = L /\ part B n0 F T f i L x /\ covers (i + L) l
  | CForward c x :: l => C c /\ (exists L k, 0 < L /\ fits L /\ clip_holds n0 B L x k) /\ covers i l
  end.
Lemma run_calls l : forall i s, J i s -> covers i l ->
  exists outs s', calls m s l = Ok (outs, s')
    /\ answers N (fun i y => th n' B sp y (g i)) (fun a c y => th n' B (c :: sp) y (fun b q => g (a + hd 0 q) b (tl q))) W i l outs.
Proof.
  induction l as [|[c x|c x|c x] l IH]; intros i s Is Hc; cbn [covers] in Hc.
  - exists [], s. split; reflexivity.
  - destruct Hc as (Cc & Hi & -> & Hl). destruct (HS c Cc) as (_ & A1 & _). destruct (A1 i s Hi Is) as (o & s1 & E1 & I1 & V1).
    destruct (IH _ _ I1 Hl) as (outs & s2 & E2 & V2). exists (o :: outs), s2. split; [cbn [calls call]; rewrite E1; cbn [bind]; rewrite E2; reflexivity|].
    cbn [answers]. split; assumption.
  - destruct Hc as (Cc & L & HL & Hx & Hl). destruct (HS c Cc) as (_ & _ & A2). destruct (A2 i s L x Is Hx) as (o & s1 & E1 & I1 & V1).
    destruct (IH _ _ I1 Hl) as (outs & s2 & E2 & V2). exists (o :: outs), s2. split; [cbn [calls call]; rewrite E1; cbn [bind]; rewrite E2; reflexivity|].
    cbn [answers]. rewrite HL. split; assumption.
  - destruct Hc as (Cc & (L & k & HL & Hf & Hx) & Hl). destruct (HW c s x L k Cc HL Hf Hx) as (y & s1 & E1 & V1).
    destruct (IH _ _ (HK _ _ _ _ _ _ Is E1) Hl) as (outs & s2 & E2 & V2). exists (Some y :: outs), s2.
    split; [cbn [calls call]; rewrite E1; cbn [bind]; rewrite E2; reflexivity|].
    cbn [answers]. split; [exists y; split; [reflexivity|exact V1]|exact V2].
Qed.
End Run.

(** The frames of the calls. *)
Definition frames_of (c : tcall K) : list (tens K) :=
  match c with
  | CFrame _ x => [x]
  | CClip _ x => map (fun t => select 2 t x) (seq 0 (nth 2 (sh x) 0))
  | CForward _ _ => []
  end.
Definition no_frame : tens K := TAttn.T [] [].
Lemma frames_hold (fits : nat -> Prop) n l f : forall i, input_holds fits n B i l f ->
  forall t, t < length (flat_map frames_of l) -> frame_holds n B (nth t (flat_map frames_of l) no_frame) (fun b => f b (i + t)).
Proof.
  induction l as [|[c x|c x|c x] l IH]; intros i H t Ht; cbn [flat_map frames_of input_holds] in *.
  - cbn in Ht. lia.
  - destruct H as [Hx Hl]. cbn [app] in *. destruct t as [|t].
    + rewrite Nat.add_0_r. exact Hx.
    + cbn [nth length] in *. replace (i + S t) with (i + 1 + t) by lia. apply IH; [exact Hl|lia].
  - destruct H as (L & HL & Hx & Hl). assert (E2 : nth 2 (sh x) 0 = L) by (destruct Hx as [-> _]; reflexivity). rewrite E2 in *.
    rewrite app_length, map_length, seq_length in Ht. destruct (Nat.lt_ge_cases t L) as [Hc|Hc].
    + rewrite app_nth1 by (rewrite map_length, seq_length; exact Hc).
      rewrite (nth_indep _ no_frame (select 2 0 x)), (map_nth (fun t => select 2 t x)), seq_nth by (rewrite ?map_length, ?seq_length; exact Hc). cbn [Nat.add].
      apply th_clip in Hx. apply th_frame. apply (th_select _ _ _ _ _ _ t Hc) in Hx. exact Hx.
    + rewrite app_nth2; rewrite map_length, seq_length; [|exact Hc]. replace (i + t) with (i + L + (t - L)) by lia. apply IH; [exact Hl|lia].
  - destruct H as (_ & Hl). apply IH; assumption.
Qed.
Lemma covers_calls (fits : nat -> Prop) n l f (C : option meth -> Prop) F T : forall i, input_holds fits n B i l f -> Forall (fun c => C (ctx_of c)) l ->
  (forall t, t < length (flat_map frames_of l) -> F (i + t) = nth t (flat_map frames_of l) no_frame) -> i + length (flat_map frames_of l) <= T ->
  covers n F T f fits C i l.
Proof.
  induction l as [|[c x|c x|c x] l IH]; intros i H HCl HF HT; cbn [covers flat_map frames_of input_holds] in *; [exact I|..];
    apply Forall_cons_iff in HCl; destruct HCl as [Cc HCl]; cbn [ctx_of] in Cc; (split; [exact Cc|]).
  - destruct H as [Hx Hl]. cbn [app length] in *. split; [lia|]. split.
    + specialize (HF 0 ltac:(lia)). rewrite Nat.add_0_r in HF. symmetry. exact HF.
    + apply IH; [exact Hl|exact HCl| |lia]. intros t Ht. replace (i + 1 + t) with (i + S t) by lia. apply (HF (S t)). lia.
  - destruct H as (L & HL & Hx & Hl). assert (E2 : nth 2 (sh x) 0 = L) by (destruct Hx as [-> _]; reflexivity). rewrite E2 in *.
    rewrite app_length, map_length, seq_length in *. exists L. split; [reflexivity|]. split.
    + split; [exact HL|]. split; [lia|]. split; [exact Hx|].
      apply nth_ext with (d := no_frame) (d' := no_frame); [rewrite !map_length, !seq_length; reflexivity|]. intros t Ht. rewrite map_length, seq_length in Ht.
      rewrite (nth_indep (map F _) no_frame (F 0)), (map_nth F), seq_nth by (rewrite ?map_length, ?seq_length; exact Ht).
      rewrite HF by lia. rewrite app_nth1 by (rewrite map_length, seq_length; exact Ht). reflexivity.
    + apply IH; [exact Hl|exact HCl| |lia]. intros t Ht. replace (i + L + t) with (i + (L + t)) by lia. rewrite HF by lia.
      rewrite app_nth2; rewrite map_length, seq_length; [|lia]. f_equal. lia.
  - destruct H as [Hx Hl]. split; [exact Hx|]. apply IH; assumption.
Qed.
Lemma answers_mono N (R R' : nat -> tens K -> Prop) (Rs Rs' : nat -> nat -> tens K -> Prop) (W W' : tens K -> tens K -> Prop) :
  (forall i y, N <= i + 1 -> R i y -> R' i y) -> (forall a c y, N <= a + 1 -> Rs a c y -> Rs' a c y) -> (forall x y, W x y -> W' x y) ->
  forall l i outs, answers N R Rs W i l outs -> answers N R' Rs' W' i l outs.
Proof.
  intros HR HRs HW l. induction l as [|[c x|c x|c x] l IH]; intros i [|o outs] H; cbn [answers] in *; try contradiction; [exact I|..]; destruct H as [H1 H2]; (split; [|apply IH; exact H2]).
  - destruct (Nat.ltb_spec (i + 1) N); [exact H1|]. destruct H1 as (y & E & Hy). exists y. split; [exact E|apply HR; [lia|exact Hy]].
  - destruct (Nat.ltb_spec (i + nth 2 (sh x) 0) N); [exact H1|]. destruct H1 as (y & E & Hy). exists y. split; [exact E|apply HRs; [lia|exact Hy]].
  - destruct H1 as (y & E & Hy). exists y. split; [exact E|apply HW; exact Hy].
Qed.

(** From streams to calls. *)
Lemma calls_ok (fits : nat -> Prop) n m n' sp N (C : option meth -> Prop) J g (W : tens K -> tens K -> Prop) f :
  (forall F T, (forall t, t < T -> frame_holds n B (F t) (fun b => f b t)) -> (forall c, C c -> streams B c n F T f m (J F) n' sp N g) /\ keeps m (J F)) ->
  (forall c s x L k, C c -> 0 < L -> fits L -> clip_holds n B L x k -> exists y s', exec c Forward m s x false true = Ok (Some y, s') /\ W x y) ->
  C None ->
  forall l, input_holds fits n B 0 l f -> Forall (fun c => C (ctx_of c)) l ->
  exists outs s', calls m SNone l = Ok (outs, s')
    /\ answers N (fun i y => th n' B sp y (g i)) (fun a c y => th n' B (c :: sp) y (fun b q => g (a + hd 0 q) b (tl q))) W 0 l outs.
Proof.
  intros HS HW H0 l Hl HC. set (F := fun t => nth t (flat_map frames_of l) no_frame). set (T := length (flat_map frames_of l)).
  destruct (HS F T) as [HSF HKF]. { intros t Ht. apply (frames_hold fits n l f 0 Hl t Ht). }
  apply (run_calls n F T f m (J F) n' sp N g fits C W HSF HKF HW l 0 SNone (proj1 (HSF None H0))).
  apply covers_calls; [exact Hl|exact HC|reflexivity|cbn; lia].
Qed.

(** [forward] and the memories. *)
Lemma head_inv c (m : tmod K) l s x o s' : exec c Forward (MSeq (m :: l)) s x false true = Ok (o, s') ->
  exists o1 s1, exec c Forward m (hd SNone (kids s)) x false true = Ok (o1, s1) /\ hd SNone (kids s') = s1.
Proof.
  cbn [exec]. rewrite chain_cons. destruct (exec c Forward m (hd SNone (kids s)) x false true) as [[o1 s1]|] eqn:E1; [|discriminate]. cbn [bind].
  intros H. exists o1, s1. split; [reflexivity|]. destruct o1 as [y|].
  - destruct (chain Forward _ l (tl (kids s)) y) as [[z ss]|]; [|discriminate]. cbn [bind] in H. injection H as _ <-. reflexivity.
  - destruct l; [|discriminate]. cbn [bind] in H. injection H as _ <-. reflexivity.
Qed.
Lemma both_inv c lp (m1 m2 : tmod K) s x o s' : exec c Forward (MBR lp [m1; m2]) s x false true = Ok (o, s') ->
  exists o1 s1 o2 s2, exec c Forward m1 (hd SNone (kids s)) x false true = Ok (o1, s1) /\ exec c Forward m2 (hd SNone (tl (kids s))) x false true = Ok (o2, s2)
    /\ s' = SList [s1; s2].
Proof.
  cbn [exec fan]. destruct (exec c Forward m1 (hd SNone (kids s)) x false true) as [[o1 s1]|] eqn:E1; [|discriminate]. cbn [bind].
  destruct (exec c Forward m2 (hd SNone (tl (kids s))) x false true) as [[o2 s2]|] eqn:E2; [|discriminate]. cbn [bind].
  destruct (t_reduce lp [o1; o2]); [|discriminate]. cbn [bind]. intros H. injection H as _ <-. exists o1, s1, o2, s2. auto.
Qed.
Lemma keeps_head m l J : keeps m J -> keeps (MSeq (m :: l)) (fun i s => J i (hd SNone (kids s))).
Proof. intros H c i s x o s' Is E. destruct (head_inv _ _ _ _ _ _ _ E) as (o1 & s1 & E1 & <-). exact (H _ _ _ _ _ _ Is E1). Qed.
Lemma keeps_shaped lp m1 m2 po J1 J2 : keeps m1 J1 -> keeps m2 J2 -> keeps (shaped lp m1 m2 po) (fun i s => J1 i (st1 s) /\ J2 i (st2 s)).
Proof.
  intros H1 H2 c i s x o s' [I1 I2] E. destruct (head_inv _ _ _ _ _ _ _ E) as (o1 & s1 & E1 & Es).
  destruct (both_inv _ _ _ _ _ _ _ _ E1) as (o2 & s2 & o3 & s3 & E2 & E3 & ->). unfold st1, st2 in *. rewrite Es. cbn [kids hd tl].
  split; [exact (H1 _ _ _ _ _ _ I1 E2)|exact (H2 _ _ _ _ _ _ I2 E3)].
Qed.
Lemma keeps_del b d J : keeps (MDel b d) J.
Proof.
  intros c i s x o s' Is E. cbn [exec] in E. destruct b; [|injection E as _ <-; exact Is]. destruct (Nat.leb 3 (length (sh x))); [|discriminate].
  destruct (py_select 2 (-1 - Z.of_nat d) x); [|discriminate]. cbn [bind] in E. injection E as _ <-. exact Is.
Qed.
Lemma keeps_uni d J : keeps (MUni d) J.
Proof. intros c i s x o s' Is E. cbn [exec] in E. injection E as _ <-. exact Is. Qed.
Lemma keeps_mso a qi sof J : keeps (MSO a qi sof) J.
Proof. intros c i s x o s' Is E. cbn [exec] in E. destruct (s_forward a sof qi x x x); [|discriminate]. cbn [bind] in E. injection E as _ <-. exact Is. Qed.
Lemma keeps_mre a J : keeps (MRE a) J.
Proof. intros c i s x o s' Is E. cbn [exec] in E. destruct (b_forward a x x x); [|discriminate]. cbn [bind] in E. injection E as _ <-. exact Is. Qed.
Lemma keeps_so_layer F f p qi sof : keeps (so_layer p qi sof) (so_layer_J B F f p qi sof).
Proof.
  rewrite so_shaped. unfold so_layer_J, so_res. destruct sof; [apply keeps_shaped|apply (keeps_shaped _ _ _ _ (fun _ _ => True) (so_J B f p qi))].
  - apply keeps_del.
  - apply keeps_mso.
  - intros c i s x o s' _ _. exact I.
  - apply keeps_mso.
Qed.
Lemma keeps_re_layer F f p : keeps (re_layer p) (re_layer_J B F f p).
Proof. rewrite re_shaped. apply keeps_shaped; [apply keeps_uni|apply keeps_mre]. Qed.
Lemma keeps_enc1 F f p norm : keeps (encoder1 p norm) (enc1_J B F f p).
Proof. unfold encoder1, with_norm, enc1_J. apply (keeps_head _ _ (fun i s => so_layer_J B F f p (-1) false i (hd SNone (kids s)))), keeps_head, keeps_so_layer. Qed.
Lemma keeps_enc2 F f p1 p2 norm : keeps (encoder2 p1 p2 norm) (enc2_J B F f p1).
Proof. unfold encoder2, with_norm, enc2_J. apply (keeps_head _ _ (fun i s => re_layer_J B F f p1 i (hd SNone (kids s)))), keeps_head, keeps_re_layer. Qed.

(** What [forward] gives, whatever the tokens are called. *)
Lemma forward_any n n' c m (L' : nat -> nat) (P : nat -> Prop) (g : nat -> (nat -> nat -> list K) -> nat -> nat -> list K) :
  (forall s x L k, 0 < L -> P L -> clip_holds n B L x k -> exists y s', exec c Forward m s x false true = Ok (Some y, s') /\ clip_holds n' B (L' L) y (g L k)) ->
  forall s x L k, 0 < L -> P L -> clip_holds n B L x k ->
  exists y s', exec c Forward m s x false true = Ok (Some y, s') /\ forall L k, clip_holds n B L x k -> clip_holds n' B (L' L) y (g L k).
Proof.
  intros H s x L k HL HP Hx. destruct (H s x L k HL HP Hx) as (y & s' & E & _). exists y, s'. split; [exact E|]. intros L2 k2 H2.
  assert (L2 = L) as -> by (destruct Hx as [S1 _], H2 as [S2 _]; congruence). destruct (H s x L k2 HL HP H2) as (y2 & s2 & E2 & Hy2). congruence.
Qed.


Lemma all_true {A} (l : list A) : Forall (fun _ => True) l.
Proof. induction l; constructor; auto. Qed.
(** Networks that give one frame per time. *)
Lemma frames_calls (fits : nat -> Prop) n m N (C : option meth -> Prop) J (g : nat -> nat -> list K) (L' : nat -> nat) h f :
  (forall F T, (forall t, t < T -> frame_holds n B (F t) (fun b => f b t)) -> (forall c, C c -> streams B c n F T f m (J F) n [] N (fun i b _ => g i b)) /\ keeps m (J F)) ->
  (forall c s x L k, C c -> 0 < L -> fits L -> clip_holds n B L x k -> exists y s', exec c Forward m s x false true = Ok (Some y, s') /\ clip_holds n B (L' L) y (h L k)) ->
  C None -> forall l, input_holds fits n B 0 l f -> Forall (fun c => C (ctx_of c)) l ->
  exists outs s', calls m SNone l = Ok (outs, s')
    /\ answers N (fun i y => frame_holds n B y (g i)) (fun i c y => clip_holds n B c y (fun b j => g (i + j) b))
         (fun x y => forall L k, clip_holds n B L x k -> clip_holds n B (L' L) y (h L k)) 0 l outs.
Proof.
  intros HS HW H0 l Hl HC.
  destruct (calls_ok fits n m n [] N C J (fun i b _ => g i b) (fun x y => forall L k, clip_holds n B L x k -> clip_holds n B (L' L) y (h L k)) f HS) with (l := l)
    as (outs & s' & E1 & V); [|exact H0|exact Hl|exact HC|].
  - intros c s x L k Hc HL Hf Hx. apply (forward_any n n c m L' fits h) with (3 := Hf) (4 := Hx) (2 := HL).
    intros s1 x1 L1 k1. apply HW. exact Hc.
  - exists outs, s'. split; [exact E1|]. apply answers_mono with (4 := V).
    + intros i y _ H. apply th_frame. exact H.
    + intros i c y _ H. apply th_clip. exact H.
    + intros x y H. exact H.
Qed.

Section Layers.
Variable p : layer K.
Hypothesis OK : layer_ok p.
Notation E := (t_H (l_a p) * t_D (l_a p)). Notation N := (t_N (l_a p)).

Lemma so_calls_all l f : 0 < N -> input_holds (fun _ => True) E B 0 l f ->
  exists outs s', calls (so_layer p (-1) false) SNone l = Ok (outs, s')
    /\ answers N (fun i y => frame_holds E B y (fun b => layer_token p (window_tokens N i f b) (N - 1)))
         (fun i c y => clip_holds E B c y (fun b j => layer_token p (window_tokens N (i + j) f b) (N - 1)))
         (fun x y => forall L k, clip_holds E B L x k -> clip_holds E B L y (fun b t => layer_token p (clip_tokens L k b) t)) 0 l outs.
Proof.
  intros HN Hl.
  apply (frames_calls (fun _ => True) E _ N (fun _ => True) (fun F => so_layer_J B F f p (-1) false) (fun i b => layer_token p (window_tokens N i f b) (N - 1)) (fun L => L)
     (fun L k b t => layer_token p (clip_tokens L k b) t) f); [..|exact I|exact Hl|apply all_true].
  - intros F T HF. split; [|apply keeps_so_layer]. intros c _.
    pose proof (streams_so_layer B HB c E F T f HF p OK eq_refl (-1) false HN ltac:(lia) (or_intror eq_refl)) as HS.
    replace (chosen (-1) N) with (N - 1) in HS by (unfold chosen; cbn [Z.ltb Z.compare]; lia). exact HS.
  - intros c s x L k _ HL _ Hx. exact (so_forward_all B HB c p OK L x k (-1) s false true HL Hx).
Qed.
Lemma so_calls_one qi l f : 0 < N -> (- Z.of_nat N <= qi < Z.of_nat N)%Z ->
  input_holds (fun L => (- Z.of_nat L <= qi < Z.of_nat L)%Z /\ ((qi < 0)%Z \/ L = N)) E B 0 l f ->
  exists outs s', calls (so_layer p qi true) SNone l = Ok (outs, s')
    /\ answers N (fun i y => frame_holds E B y (fun b => layer_token p (window_tokens N i f b) (chosen qi N)))
         (fun i c y => clip_holds E B c y (fun b j => layer_token p (window_tokens N (i + j) f b) (chosen qi N)))
         (fun x y => forall L k, clip_holds E B L x k -> clip_holds E B 1 y (fun b _ => layer_token p (clip_tokens L k b) (chosen qi L))) 0 l outs.
Proof.
  intros HN Hq Hl.
  apply (frames_calls _ E _ N (fun _ => True) (fun F => so_layer_J B F f p qi true) (fun i b => layer_token p (window_tokens N i f b) (chosen qi N)) (fun L => 1)
     (fun L k b _ => layer_token p (clip_tokens L k b) (chosen qi L)) f) with (4 := Hl); [..|exact I|apply all_true].
  - intros F T HF. split; [|apply keeps_so_layer]. intros c _.
    exact (streams_so_layer B HB c E F T f HF p OK eq_refl qi true HN Hq (or_introl eq_refl)).
  - intros c s x L k _ HL [H1 H2] Hx. exact (so_forward_one B HB c p OK L x k qi s false true H1 H2 Hx).
Qed.

Lemma th_windows n c M y g : th n B [c; M] y g -> windows_hold n B c M y (fun b j i => g b [j; i]).
Proof.
  intros [Sy Hy]. split; [exact Sy|]. intros b j i Hb Hj Hi. apply (Hy b [j; i] Hb). repeat constructor; assumption.
Qed.
Lemma re_calls l f : 2 <= N -> input_holds (fun _ => True) E B 0 l f ->
  exists outs s', calls (re_layer p) SNone l = Ok (outs, s')
    /\ answers N (fun n y => clip_holds E B N y (fun b i => post p (plus (f b (residual_time (N - 1) n i)) (attend p (window_tokens N n f b) i))))
         (fun n c y => windows_hold E B c N y (fun b j i => post p (plus (f b (residual_time (N - 1) (n + j) i)) (attend p (window_tokens N (n + j) f b) i))))
         (fun x y => forall L k, clip_holds E B L x k -> clip_holds E B L y (fun b t => layer_token p (clip_tokens L k b) t)) 0 l outs.
Proof.
  intros HN Hl.
  destruct (calls_ok (fun _ => True) E (re_layer p) E [N] N (fun _ => True) (fun F => re_layer_J B F f p) (fun i b q => re_row f p i b (hd 0 q))
    (fun x y => forall L k, clip_holds E B L x k -> clip_holds E B L y (fun b t => layer_token p (clip_tokens L k b) t)) f) with (l := l)
    as (outs & s' & E1 & V); [..|exact I|exact Hl|apply all_true|].
  - intros F T HF. split; [|apply keeps_re_layer]. intros c _. exact (streams_re_layer B HB c E F T f HF p OK eq_refl HN).
  - intros c s x L k _ HL _ Hx. apply (forward_any E E c (re_layer p) (fun L => L) (fun _ => True) (fun L k b t => layer_token p (clip_tokens L k b) t)) with (4 := Hx) (2 := HL); [|exact I].
    intros s1 x1 L1 k1 HL1 _ Hx1. exact (re_forward B HB c p OK L1 x1 k1 s1 false true HL1 Hx1).
  - exists outs, s'. split; [exact E1|]. apply answers_mono with (4 := V).
    + intros i y _ H. apply th_clip. exact H.
    + intros i c y _ H. apply th_windows in H. exact H.
    + intros x y H. exact H.
Qed.

Lemma enc1_calls norm l f : 0 < N -> norm_ok E norm -> input_holds (fun _ => True) E B 0 l f ->
  exists outs s', calls (encoder1 p norm) SNone l = Ok (outs, s')
    /\ answers N (fun i y => frame_holds E B y (fun b => normed norm (layer_token p (window_tokens N i f b) (N - 1))))
         (fun i c y => clip_holds E B c y (fun b j => normed norm (layer_token p (window_tokens N (i + j) f b) (N - 1))))
         (fun x y => forall L k, clip_holds E B L x k -> clip_holds E B L y (fun b t => normed norm (layer_token p (clip_tokens L k b) t))) 0 l outs.
Proof.
  intros HN NO Hl.
  apply (frames_calls (fun _ => True) E _ N (fun _ => True) (fun F => enc1_J B F f p) (fun i b => normed norm (layer_token p (window_tokens N i f b) (N - 1))) (fun L => L)
     (fun L k b t => normed norm (layer_token p (clip_tokens L k b) t)) f); [..|exact I|exact Hl|apply all_true].
  - intros F T HF. split; [|apply keeps_enc1]. intros c _. exact (streams_enc1 B HB c E F T f HF p norm OK eq_refl NO HN).
  - intros c s x L k _ HL _ Hx. exact (enc1_forward B HB c p norm OK NO L x k s false true HL Hx).
Qed.
End Layers.

Section Two.
Variables p1 p2 : layer K.
Variable norm : option (list K -> list K).
Hypothesis OK1 : layer_ok p1.
Hypothesis OK2 : layer_ok p2.
Notation E := (t_H (l_a p1) * t_D (l_a p1)). Notation N := (t_N (l_a p1)).
Hypothesis EE : t_H (l_a p2) * t_D (l_a p2) = E.
Hypothesis NO : norm_ok E norm.

Lemma enc2_calls l f : 2 <= N -> input_holds (fun _ => True) E B 0 l f -> Forall (fun c => ctx_of c = None \/ ctx_of c = Some Forward) l ->
  exists outs s', calls (encoder2 p1 p2 norm) SNone l = Ok (outs, s')
    /\ answers N (fun n y => frame_holds E B y (fun b => normed norm (layer_token p2 (first_tokens p1 n f b) (N - 1))))
         (fun n c y => clip_holds E B c y (fun b j => normed norm (layer_token p2 (first_tokens p1 (n + j) f b) (N - 1))))
         (fun x y => forall L k, clip_holds E B L x k -> clip_holds E B 1 y (fun b _ => normed norm (two_layers p1 p2 (clip_tokens L k b) (L - 1)))) 0 l outs.
Proof.
  intros HN Hl HC.
  apply (frames_calls (fun _ => True) E _ N (fun c => c = None \/ c = Some Forward) (fun F => enc2_J B F f p1) (fun n b => normed norm (layer_token p2 (first_tokens p1 n f b) (N - 1))) (fun L => 1)
     (fun L k b _ => normed norm (two_layers p1 p2 (clip_tokens L k b) (L - 1))) f); [..|auto|exact Hl|exact HC].
  - intros F T HF. split; [|apply keeps_enc2]. intros c Hc. assert (HM : mode_of c (so_layer p2 (-1) true) = Forward) by (destruct Hc; subst c; reflexivity).
    exact (streams_enc2 B HB c E F T f HF p1 p2 norm OK1 OK2 eq_refl EE NO HM HN).
  - intros c s x L k Hc HL _ Hx. assert (HM : mode_of c (so_layer p2 (-1) true) = Forward) by (destruct Hc; subst c; reflexivity).
    exact (enc2_forward B HB c p1 p2 norm OK1 OK2 EE NO HM L x k s false true HL Hx).
Qed.
Lemma stale_early n f b : N - 1 <= n -> n < 2 * (N - 1) -> layer_token p2 (first_tokens p1 n f b) (N - 1) = two_layers p1 p2 (window_tokens N n f b) (N - 1).
Proof using K NK p1 p2.
  intros H1 H2. clear - H1 H2. unfold two_layers, first_tokens. replace (length (window_tokens N n f b)) with N by (unfold window_tokens; rewrite map_length, seq_length; reflexivity).
  assert (Em : map (fun i => post p1 (plus (f b (residual_time (N - 1) n i)) (attend p1 (window_tokens N n f b) i))) (seq 0 N) = map (layer_token p1 (window_tokens N n f b)) (seq 0 N)).
  { apply map_ext_in. intros i Hi. apply in_seq in Hi. apply (first_row_early p1 f n b i); lia. }
  rewrite Em. reflexivity.
Qed.
End Two.
End P.
