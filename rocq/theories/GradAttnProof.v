(** Proofs for C81: the laws of numbers with tangents, and derivatives of attention. *)
From Coq Require Import List ZArith Bool Arith Lia Reals Lra.
From Verif Require Import Base Attn AttnSpec AttnProof AttnThm AttnMore Grad GradAttn GradAttnSpec.
From Verif Require GradReal.
Import ListNotations.

Section Laws.
Context {K : Type} {NK : Num K} {NL : NumLaws K}.
Add Ring Kring : (num_ring (K := K)).

Lemma dual_eq (a b : dual K) : pri a = pri b -> tan a = tan b -> a = b.
Proof. destruct a as [x y], b as [z w]. cbn. intros -> ->. reflexivity. Qed.

Lemma dual_numlaws : NumLaws (dual K).
Proof.
  split; intros; apply dual_eq; cbn [pri tan dual_num k0 k1 kadd kopp kmul kdiv kexp];
    fold (@ksub K NK); unfold ksub in *; try ring.
  - apply kdiv_mul.
  - rewrite (kdiv_mul (tan a)). rewrite (kdiv_mul k0). ring.
Qed.
End Laws.

Lemma real_numlaws : NumLaws R.
Proof. split; cbn; intros; try ring. unfold Rdiv. ring. Qed.
#[export] Existing Instance dual_numlaws.
#[export] Existing Instance real_numlaws.

(** *** Rules for numbers *)
Import GradReal.
Lemma dn_const a : dnum (fun _ => a) (Du a 0%R).
Proof. split; [reflexivity|]. apply derivable_pt_lim_const. Qed.
Lemma dn_0 : dnum (fun _ => k0) k0.
Proof. apply dn_const. Qed.
Lemma dn_add f g p q : dnum f p -> dnum g q -> dnum (fun t => kadd (f t) (g t)) (kadd p q).
Proof. intros [A B] [C D]. split; cbn; [congruence|]. now apply (derivable_pt_lim_plus f g). Qed.
Lemma dn_mul f g p q : dnum f p -> dnum g q -> dnum (fun t => kmul (f t) (g t)) (kmul p q).
Proof.
  intros [A B] [C D]. split; cbn; [congruence|]. rewrite <- A, <- C. now apply (mult_deriv f g).
Qed.
Lemma dn_exp f p : dnum f p -> dnum (fun t => kexp (f t)) (kexp p).
Proof.
  intros [A B]. split; cbn; [congruence|].
  apply (derivable_pt_lim_comp f exp); [exact B|]. rewrite A. apply derivable_pt_lim_exp.
Qed.
Lemma dn_div f g p q : dnum f p -> dnum g q -> pri q <> 0%R -> dnum (fun t => kdiv (f t) (g t)) (kdiv p q).
Proof.
  intros [A B] [C D] Z. split; cbn; [congruence|].
  apply (dpl_eq (div_fct f g) _ _ ((tan p * g 0%R - tan q * f 0%R) / Rsqr (g 0%R))%R).
  - apply derivable_pt_lim_div; auto. now rewrite C.
  - reflexivity.
  - rewrite A, C. unfold Rsqr. field. exact Z.
Qed.
Lemma dn_ext f g p : (forall t, f t = g t) -> dnum f p -> dnum g p.
Proof. intros E [A B]. split; [now rewrite <- E|]. eapply dpl_eq; eauto. Qed.

(** *** Lists *)
Lemma dl_map {A B C D} (T : (R -> A) -> B -> Prop) (U : (R -> C) -> D -> Prop) (f : R -> A -> C) (f' : B -> D) g p :
  (forall a b, T a b -> U (fun t => f t (a t)) (f' b)) -> dlist T g p -> dlist U (fun t => map (f t) (g t)) (map f' p).
Proof.
  intros H (gs & E & F). exists (map (fun a t => f t (a t)) gs). split.
  - intros t. rewrite E, !map_map. reflexivity.
  - clear E. induction F; cbn; constructor; auto.
Qed.
Lemma dl_seq {C D} (U : (R -> C) -> D -> Prop) (f : R -> nat -> C) (f' : nat -> D) l :
  (forall i, In i l -> U (fun t => f t i) (f' i)) -> dlist U (fun t => map (f t) l) (map f' l).
Proof.
  intros H. exists (map (fun i t => f t i) l). split; [intros t; now rewrite map_map|].
  induction l as [|a l IH]; cbn; constructor; [apply H; now left|]. apply IH. intros i Hi. apply H. now right.
Qed.

Definition ext_rel {A B} (T : (R -> A) -> B -> Prop) : Prop := forall f g p, (forall t, f t = g t) -> T f p -> T g p.
Lemma dl_ext {A B} (T : (R -> A) -> B -> Prop) : ext_rel (dlist T).
Proof. intros f g p E (gs & H & F). exists gs. split; [|exact F]. intros t. now rewrite <- E. Qed.
Lemma dl_nth {A B} (T : (R -> A) -> B -> Prop) g p a b i : ext_rel T ->
  T (fun _ => a) b -> dlist T g p -> T (fun t => nth i (g t) a) (nth i p b).
Proof.
  intros X H (gs & E & F). apply (X (fun t => nth i (map (fun f => f t) gs) a)); [intros t; now rewrite E|].
  clear E. revert i. induction F as [|x y l m Hx _ IH]; intros [|i]; cbn; auto.
Qed.
Lemma dl_nil {A B} (T : (R -> A) -> B -> Prop) : dlist T (fun _ => []) [].
Proof. exists []. split; [reflexivity|constructor]. Qed.
Lemma dl_app {A B} (T : (R -> A) -> B -> Prop) f g p q : dlist T f p -> dlist T g q -> dlist T (fun t => f t ++ g t) (p ++ q).
Proof.
  intros (fs & E & F) (gs & E' & F'). exists (fs ++ gs). split; [intros t; now rewrite map_app, E, E'|]. now apply Forall2_app.
Qed.
Lemma dl_concat {A B} (T : (R -> A) -> B -> Prop) g p : dlist (dlist T) g p -> dlist T (fun t => concat (g t)) (concat p).
Proof.
  intros (gs & E & F). apply (dl_ext T (fun t => concat (map (fun f => f t) gs))); [intros t; now rewrite E|].
  clear E. induction F as [|x y l m Hx _ IH]; cbn; [apply dl_nil|]. apply dl_app; [exact Hx|exact IH].
Qed.
Lemma dl_skipn {A B} (T : (R -> A) -> B -> Prop) g p n : dlist T g p -> dlist T (fun t => skipn n (g t)) (skipn n p).
Proof.
  intros (gs & E & F). exists (skipn n gs). split; [intros t; now rewrite E, skipn_map|].
  clear E. revert n. induction F; intros [|n]; cbn; auto.
Qed.
Lemma dl_firstn {A B} (T : (R -> A) -> B -> Prop) g p n : dlist T g p -> dlist T (fun t => firstn n (g t)) (firstn n p).
Proof.
  intros (gs & E & F). exists (firstn n gs). split; [intros t; now rewrite E, firstn_map|].
  clear E. revert n. induction F; intros [|n]; cbn; auto.
Qed.
Lemma dl_window {A B} (T : (R -> A) -> B -> Prop) g p N n : dlist T g p -> dlist T (fun t => window N n (g t)) (window N n p).
Proof. intros H. unfold window. now apply (dl_firstn T (fun t => skipn _ (g t))), dl_skipn. Qed.
Lemma dl_len {A B} (T : (R -> A) -> B -> Prop) g p : dlist T g p -> forall t, length (g t) = length p.
Proof. intros (gs & E & F) t. rewrite E, map_length. clear E. induction F; cbn; auto. Qed.

Lemma dn_sum g p : dlist dnum g p -> dnum (fun t => ksum (g t)) (ksum p).
Proof.
  intros (gs & E & F). apply (dn_ext (fun t => ksum (map (fun f => f t) gs))); [intros t; now rewrite E|].
  clear E. induction F as [|x y l m Hx _ IH]; cbn [map ksum fold_right]; [apply dn_0|]. apply dn_add; [exact Hx|exact IH].
Qed.
Lemma dl_map2 {A B A' B' C D} (T : (R -> A) -> B -> Prop) (T' : (R -> A') -> B' -> Prop) (U : (R -> C) -> D -> Prop)
  (f : R -> A -> A' -> C) f' g p g' p' :
  (forall a b a' b', T a b -> T' a' b' -> U (fun t => f t (a t) (a' t)) (f' b b')) ->
  dlist T g p -> dlist T' g' p' -> dlist U (fun t => map2 (f t) (g t) (g' t)) (map2 f' p p').
Proof.
  intros H (gs & E & F) (gs' & E' & F').
  apply (dl_ext U (fun t => map2 (f t) (map (fun f => f t) gs) (map (fun f => f t) gs'))); [intros t; now rewrite E, E'|].
  clear E E' g g'. revert gs' p' F'. induction F as [|x y l m Hx _ IH]; intros gs' p' F'; cbn; [apply dl_nil|].
  destruct F' as [|x' y' l' m' Hx' F']; cbn; [apply dl_nil|].
  destruct (IH _ _ F') as (hs & E & G). exists ((fun t => f t (x t) (x' t)) :: hs). split; [intros t; cbn; now rewrite E|].
  constructor; auto.
Qed.
Lemma dn_at v p e : dvec v p -> dnum (fun t => Attn.at_ (v t) e) (Attn.at_ p e).
Proof. intros H. unfold Attn.at_. apply (dl_nth dnum); [exact dn_ext|apply dn_0|exact H]. Qed.
Lemma dn_dot E v p w q : dvec v p -> dvec w q -> dnum (fun t => dot E (v t) (w t)) (dot E p q).
Proof.
  intros H H'. unfold dot, tab. apply (dn_sum (fun t => map (fun e => kmul (Attn.at_ (v t) e) (Attn.at_ (w t) e)) (seq 0 E))).
  apply (dl_seq dnum (fun t e => kmul (Attn.at_ (v t) e) (Attn.at_ (w t) e))). intros e _. apply dn_mul; now apply dn_at.
Qed.
Lemma dn_wexp E v p w q : dvec v p -> dvec w q -> dnum (fun t => kexp (dot E (v t) (w t))) (kexp (dot E p q)).
Proof. intros. apply (dn_exp (fun t => dot E (v t) (w t))). now apply dn_dot. Qed.

(** A sum of exponentials is not zero. *)
Lemma sum_pos E (q : vec (dual R)) ks : ks <> [] -> pri (ksum (map (fun k => kexp (dot E q k)) ks)) <> 0%R.
Proof.
  intros H. apply Rgt_not_eq.
  assert (C : forall k ks, pri (ksum (map (fun k => kexp (dot E q k)) (k :: ks))) =
    (exp (pri (dot E q k)) + pri (ksum (map (fun k => kexp (dot E q k)) ks)))%R) by reflexivity.
  assert (P : forall ks, (0 <= pri (ksum (map (fun k => kexp (dot E q k)) ks)))%R).
  { clear H ks. induction ks as [|k ks IH]; [cbn; lra|]. rewrite C. pose proof (exp_pos (pri (dot E q k))). lra. }
  destruct ks as [|k ks]; [congruence|]. rewrite C. pose proof (exp_pos (pri (dot E q k))). specialize (P ks). lra.
Qed.

Lemma dn_mean E q q' ks ks' vs vs' e : dvec q q' -> dlist dvec ks ks' -> dlist dvec vs vs' -> ks' <> [] ->
  dnum (fun t => weighted_mean E (q t) (ks t) (vs t) e) (weighted_mean E q' ks' vs' e).
Proof.
  intros Hq Hk Hv N. unfold weighted_mean.
  apply (dn_div (fun t => ksum (map2 (fun k v => kmul (kexp (dot E (q t) k)) (Attn.at_ v e)) (ks t) (vs t)))
                (fun t => ksum (map (fun k => kexp (dot E (q t) k)) (ks t)))); [| |now apply sum_pos].
  - apply (dn_sum (fun t => map2 _ (ks t) (vs t))).
    apply (dl_map2 dvec dvec dnum (fun t k v => kmul (kexp (dot E (q t) k)) (Attn.at_ v e))); auto.
    intros a b a' b' Ha Ha'. apply dn_mul; [now apply (dn_wexp E q q' a b)|now apply dn_at].
  - apply (dn_sum (fun t => map _ (ks t))). apply (dl_map dvec dnum (fun t k => kexp (dot E (q t) k))); auto.
    intros a b Ha. now apply (dn_wexp E q q' a b).
Qed.

(** *** Attention *)
Theorem attention_moves c c' q q' ks ks' vs vs' :
  dcfg c c' -> dvec q q' -> dlist dvec ks ks' -> dlist dvec vs vs' -> ks' <> [] ->
  dvec (fun t => attention (c t) (q t) (ks t) (vs t)) (attention c' q' ks' vs').
Proof.
  intros C Hq Hk Hv N. unfold attention. apply (dc_o c c' C).
  apply (dl_ext dvec (fun t => map (fun h => tab (c_E c')
        (weighted_mean (c_E c') (map (c_scale (c t)) (nth h (c_q (c t) (q t)) []))
           (map (fun k => nth h (c_k (c t) k) []) (ks t))
           (map (fun v => nth h (c_v (c t) v) []) (vs t)))) (seq 0 (c_H c')))).
  { intros t. destruct (dc_shape c c' C t) as (_ & -> & ->). reflexivity. }
  apply (dl_seq dvec (fun t h => tab (c_E c') (weighted_mean (c_E c') (map (c_scale (c t)) (nth h (c_q (c t) (q t)) []))
           (map (fun k => nth h (c_k (c t) k) []) (ks t)) (map (fun v => nth h (c_v (c t) v) []) (vs t))))).
  intros h _. unfold tab. apply (dl_seq dnum (fun t e => weighted_mean (c_E c') (map (c_scale (c t)) (nth h (c_q (c t) (q t)) []))
           (map (fun k => nth h (c_k (c t) k) []) (ks t)) (map (fun v => nth h (c_v (c t) v) []) (vs t)) e)).
  intros e _. assert (NT : forall g p, dlist dvec g p -> dvec (fun t => nth h (g t) []) (nth h p [])).
  { intros g p H. apply (dl_nth dvec); [apply dl_ext|apply dl_nil|exact H]. }
  apply (dn_mean (c_E c') (fun t => map (c_scale (c t)) (nth h (c_q (c t) (q t)) []))
           _ (fun t => map (fun k => nth h (c_k (c t) k) []) (ks t)) _ (fun t => map (fun v => nth h (c_v (c t) v) []) (vs t))).
  - apply (dl_map dnum dnum (fun t => c_scale (c t)) (c_scale c') (fun t => nth h (c_q (c t) (q t)) [])).
    + intros a b H. now apply (dc_scale c c' C).
    + apply (NT (fun t => c_q (c t) (q t))). now apply (dc_q c c' C).
  - apply (dl_map dvec dvec (fun t k => nth h (c_k (c t) k) [])); [|exact Hk]. intros a b H.
    apply (NT (fun t => c_k (c t) (a t))). now apply (dc_k c c' C).
  - apply (dl_map dvec dvec (fun t k => nth h (c_v (c t) k) [])); [|exact Hv]. intros a b H.
    apply (NT (fun t => c_v (c t) (a t))). now apply (dc_v c c' C).
  - intros E. apply N. destruct ks'; [reflexivity|discriminate E].
Qed.

(** *** Parameters *)
Lemma dn_inner w w' x x' : dvec w w' -> dvec x x' -> dnum (fun t => inner (w t) (x t)) (inner w' x').
Proof.
  intros (gs & E & F) (hs & E' & F').
  apply (dn_ext (fun t => inner (map (fun f => f t) gs) (map (fun f => f t) hs))); [intros t; now rewrite E, E'|].
  clear E E' w x. revert hs x' F'. induction F as [|a b l m Ha _ IH]; intros hs x' F'; cbn [inner map]; [apply dn_0|].
  destruct F' as [|a' b' l' m' Ha' F']; cbn [inner map]; [apply dn_0|].
  apply (dn_add (fun t => kmul (a t) (a' t)) (fun t => inner (map (fun f => f t) l) (map (fun f => f t) l'))); [now apply dn_mul|auto].
Qed.
Lemma dl_rows ws ws' x x' : dlist drow ws ws' -> dvec x x' -> dvec (fun t => rows (ws t) (x t)) (rows ws' x').
Proof.
  intros Hw Hx. unfold rows. apply (dl_map drow dnum (fun t r => kadd (inner (fst r) (x t)) (snd r))); [|exact Hw].
  intros a b [A B]. apply (dn_add (fun t => inner (fst (a t)) (x t)) (fun t => snd (a t))); [|exact B].
  now apply (dn_inner (fun t => fst (a t))).
Qed.
Theorem param_moves N E P P' : dparams P P' -> dcfg (fun t => param_cfg N E (P t)) (param_cfg N E P').
Proof.
  intros [Hi Ho [Hr Hz]]. split; cbn [param_cfg c_N c_H c_E c_scale c_q c_k c_v c_o].
  - intros t. pose proof (dl_len _ _ _ (Hi 0) t) as L. cbn beta in L. now rewrite L.
  - intros g p Hg. now apply (dn_div g (fun t => rt (P t))).
  - intros g p Hg. apply (dl_map (dlist drow) dvec (fun t ws => rows ws (g t)) _ (fun t => wi (P t) 0)); [|apply Hi].
    intros a b H. now apply dl_rows.
  - intros g p Hg. apply (dl_map (dlist drow) dvec (fun t ws => rows ws (g t)) _ (fun t => wi (P t) 1)); [|apply Hi].
    intros a b H. now apply dl_rows.
  - intros g p Hg. apply (dl_map (dlist drow) dvec (fun t ws => rows ws (g t)) _ (fun t => wi (P t) 2)); [|apply Hi].
    intros a b H. now apply dl_rows.
  - intros g p Hg. apply (dl_rows (fun t => wo (P t)) _ (fun t => concat (g t))); [exact Ho|]. now apply dl_concat.
Qed.

(** *** Streams *)
Lemma dl_toks gs ps : Forall2 dtok gs ps ->
  dlist dvec (fun t => qs_of (map (fun g => g t) gs)) (qs_of ps) /\ dlist dvec (fun t => ks_of (map (fun g => g t) gs)) (ks_of ps) /\
  dlist dvec (fun t => vs_of (map (fun g => g t) gs)) (vs_of ps).
Proof.
  intros F. assert (L : dlist dtok (fun t => map (fun g => g t) gs) ps) by (exists gs; auto).
  unfold qs_of, ks_of, vs_of. repeat split.
  - apply (dl_map dtok dvec (fun _ t => fst (fst t))); [|exact L]. intros a b H. apply H.
  - apply (dl_map dtok dvec (fun _ t => snd (fst t))); [|exact L]. intros a b H. apply H.
  - apply (dl_map dtok dvec (fun _ t => snd t)); [|exact L]. intros a b H. apply H.
Qed.

Lemma window_ne {A} N n (l : list A) : 0 < N -> N <= n + 1 -> n < length l -> window N n l <> [].
Proof. intros H H1 H2 E. apply (f_equal (@length A)) in E. unfold window in E. rewrite firstn_length_le in E; [cbn in E; lia|rewrite skipn_length; lia]. Qed.

Lemma list_nth_eq {A} (l m : list A) d : length l = length m -> (forall n, n < length l -> nth n l d = nth n m d) -> l = m.
Proof. intros. eapply nth_ext; eauto. Qed.

(** Both sides as a function of the position. *)
Lemma dl_table {A B} (T : (R -> A) -> B -> Prop) (outs : R -> list A) zs (G : R -> nat -> A) (G' : nat -> B) n a b :
  (forall t, length (outs t) = n) -> length zs = n ->
  (forall t i, i < n -> nth i (outs t) a = G t i) -> (forall i, i < n -> nth i zs b = G' i) ->
  (forall i, i < n -> T (fun t => G t i) (G' i)) -> dlist T outs zs.
Proof.
  intros L L' E E' H. replace zs with (map G' (seq 0 n)).
  - apply (dl_ext T (fun t => map (G t) (seq 0 n))).
    + intros t. apply (nth_ext _ _ (G t 0) a); rewrite map_length, seq_length; [now rewrite L|].
      intros i Hi. rewrite (E t i Hi), map_nth, seq_nth by lia. reflexivity.
    + apply dl_seq. intros i Hi. apply in_seq in Hi. apply H. lia.
  - apply (nth_ext _ _ (G' 0) b); rewrite map_length, seq_length; [now rewrite L'|].
    intros i Hi. rewrite (E' i Hi), map_nth, seq_nth by lia. reflexivity.
Qed.

Theorem re_gradients c c' gs ps h : dcfg c c' -> supported c' -> (forall t, supported (c t)) -> 2 <= c_N c' -> Forall2 dtok gs ps ->
  exists zs o' h', m_run c' (re_sdpa c') None ps h = Ok (zs, o', h') /\
    (forall n d, n < length ps -> nth n zs d = if n + 1 <? c_N c' then None
       else Some (mha_forward c' (window (c_N c') n (qs_of ps)) (window (c_N c') n (ks_of ps)) (window (c_N c') n (vs_of ps)))) /\
    exists outs, (forall t, exists o1 h1, m_run (c t) (re_sdpa (c t)) None (map (fun g => g t) gs) h = Ok (outs t, o1, h1)) /\
      dlist (dopt (dlist dvec)) outs zs.
Proof.
  intros C S' S HN F. destruct (re_step_forward c' ps h S' HN) as (zs & o' & h' & E1 & L & E2).
  exists zs, o', h'. split; [exact E1|]. split; [exact E2|].
  set (G := fun t n => if n + 1 <? c_N c' then None else Some (map (fun q => attention (c t) q
        (window (c_N c') n (ks_of (map (fun g => g t) gs))) (window (c_N c') n (vs_of (map (fun g => g t) gs))))
        (window (c_N c') n (qs_of (map (fun g => g t) gs))))).
  exists (fun t => map (G t) (seq 0 (length ps))).
  assert (LF : length gs = length ps) by (clear -F; induction F; cbn; auto).
  split.
  - intros t. destruct (dc_shape c c' C t) as (N1 & _ & _).
    destruct (re_stream (c t) (map (fun g => g t) gs) h (S t)) as (outs & o1 & h1 & R1 & R2 & R3); [lia|].
    exists o1, h1. rewrite R1. do 3 f_equal. rewrite map_length in R2, R3.
    apply (nth_ext _ _ None (G t 0)); [rewrite map_length, seq_length; lia|]. intros n Hn.
    rewrite map_nth, seq_nth by lia. rewrite R3 by lia. rewrite N1. reflexivity.
  - apply (dl_table _ _ _ G (fun n => nth n zs None) (length ps) (Some []) None).
    + intros t. now rewrite map_length, seq_length.
    + exact L.
    + intros t i Hi. rewrite (nth_indep _ (Some []) (G t 0)) by (rewrite map_length, seq_length; lia).
      rewrite map_nth, seq_nth by lia. reflexivity.
    + reflexivity.
    + intros n Hn. rewrite E2 by exact Hn. unfold G. destruct (Nat.ltb_spec (n + 1) (c_N c')) as [X|X]; cbn; [reflexivity|].
      eexists. split; [reflexivity|]. rewrite mha_forward_attention by exact S'.
      destruct (dl_toks gs ps F) as (Hq & Hk & Hv).
      apply (dl_map dvec dvec (fun t q => attention (c t) q (window (c_N c') n (ks_of (map (fun g => g t) gs))) (window (c_N c') n (vs_of (map (fun g => g t) gs)))));
        [|now apply (dl_window dvec (fun t => qs_of (map (fun g => g t) gs)))].
      intros q q' H. apply attention_moves; auto.
      * now apply (dl_window dvec (fun t => ks_of (map (fun g => g t) gs))).
      * now apply (dl_window dvec (fun t => vs_of (map (fun g => g t) gs))).
      * apply window_ne; [lia|lia|]. unfold ks_of. rewrite map_length. exact Hn.
Qed.

Theorem so_gradients c c' qi gs ps h : dcfg c c' -> supported c' -> (forall t, supported (c t)) -> 0 < c_N c' ->
  (- Z.of_nat (c_N c') <= qi < Z.of_nat (c_N c'))%Z -> Forall2 dtok gs ps ->
  exists zs o' h', m_run c' (so_sdpa c' qi) None ps h = Ok (zs, o', h') /\
    (forall n d, n < length ps -> if n + 1 <? c_N c' then nth n zs d = None
       else exists r, nth n zs d = Some r /\
         so_forward c' true qi (window (c_N c') n (qs_of ps)) (window (c_N c') n (ks_of ps)) (window (c_N c') n (vs_of ps)) = Ok r) /\
    exists outs, (forall t, exists o1 h1, m_run (c t) (so_sdpa (c t) qi) None (map (fun g => g t) gs) h = Ok (outs t, o1, h1)) /\
      dlist (dopt (dlist dvec)) outs zs.
Proof.
  intros C S' S HN Hqi F. destruct (so_step_forward c' qi ps h S' HN Hqi) as (zs & o' & h' & E1 & L & E2).
  exists zs, o', h'. split; [exact E1|]. split; [exact E2|].
  set (G := fun t n => if n + 1 <? c_N c' then None else Some [attention (c t)
        (nth (n - so_delay (c_N c') qi) (qs_of (map (fun g => g t) gs)) [])
        (window (c_N c') n (ks_of (map (fun g => g t) gs))) (window (c_N c') n (vs_of (map (fun g => g t) gs)))]).
  exists (fun t => map (G t) (seq 0 (length ps))).
  assert (LF : length gs = length ps) by (clear -F; induction F; cbn; auto).
  split.
  - intros t. destruct (dc_shape c c' C t) as (N1 & _ & _).
    destruct (so_stream (c t) qi (map (fun g => g t) gs) h (S t)) as (outs & o1 & h1 & R1 & R2 & R3); [lia|rewrite N1; exact Hqi|].
    exists o1, h1. rewrite R1. do 3 f_equal. rewrite map_length in R2, R3.
    apply (nth_ext _ _ None (G t 0)); [rewrite map_length, seq_length; lia|]. intros n Hn.
    rewrite map_nth, seq_nth by lia. specialize (R3 n None ltac:(lia)). unfold G. rewrite N1 in R3. cbn [Nat.add].
    destruct (Nat.ltb_spec (n + 1) (c_N c')) as [X|X]; [exact R3|]. destruct R3 as (q & A & B). rewrite B.
    rewrite (py_index_window (c_N c') qi n _ []) in A; [|lia|exact Hqi| |lia]; [now injection A as <-|].
    unfold qs_of. rewrite !map_length. lia.
  - apply (dl_table _ _ _ G (fun n => nth n zs None) (length ps) (Some []) None).
    + intros t. now rewrite map_length, seq_length.
    + exact L.
    + intros t i Hi. rewrite (nth_indep _ (Some []) (G t 0)) by (rewrite map_length, seq_length; lia).
      rewrite map_nth, seq_nth by lia. reflexivity.
    + reflexivity.
    + intros n Hn. specialize (E2 n None Hn). unfold G. destruct (Nat.ltb_spec (n + 1) (c_N c')) as [X|X]; [rewrite E2; cbn; reflexivity|].
      destruct E2 as (r & -> & A). unfold so_forward in A.
      rewrite (py_index_window (c_N c') qi n _ []) in A; [|lia|exact Hqi|unfold qs_of; rewrite map_length; exact Hn|lia].
      cbn [bind] in A. rewrite mha_forward_attention in A by exact S'. injection A as <-. cbn [map dopt].
      eexists. split; [reflexivity|].
      destruct (dl_toks gs ps F) as (Hq & Hk & Hv).
      eexists [_]. split; [reflexivity|]. constructor; [|constructor].
      apply attention_moves; auto.
      * apply (dl_nth dvec (fun t => qs_of (map (fun g => g t) gs))); [apply dl_ext|apply dl_nil|exact Hq].
      * now apply (dl_window dvec (fun t => ks_of (map (fun g => g t) gs))).
      * now apply (dl_window dvec (fun t => vs_of (map (fun g => g t) gs))).
      * apply window_ne; [lia|lia|]. unfold ks_of. rewrite map_length. exact Hn.
Qed.
