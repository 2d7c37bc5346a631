(** Proofs for C68: how far back the retroactive attention remembers, without any
    law of arithmetic. *)
From Coq Require Import List ZArith Bool Arith Lia ZifyBool ZifyNat.
From Verif Require Import Base Attn AttnSpec AttnProof AttnThm.
Import ListNotations.

Section FA.
Context {K : Type} {NK : Num K}.

(** *** Last entries *)

Lemma lastn_app2 {A} n (l m : list A) : length m <= n -> n <= length l + length m ->
  lastn n (l ++ m) = lastn (n - length m) l ++ m.
Proof.
  intros H1 H2. unfold lastn. rewrite app_length, skipn_app.
  replace (length l + length m - n - length l) with 0 by lia. cbn [skipn]. do 2 f_equal. lia.
Qed.

Lemma lastn_all {A} (l : list A) : lastn (length l) l = l.
Proof. unfold lastn. rewrite Nat.sub_diag. reflexivity. Qed.

Lemma lastn_tl {A} n (l : list A) : n < length l -> lastn n (tl l) = lastn n l.
Proof.
  destruct l as [|a l]; cbn [length tl]; [lia|]. intros H. unfold lastn.
  replace (length (a :: l) - n) with (S (length l - n)) by (cbn [length]; lia). reflexivity.
Qed.

Lemma skipn_map3 {A B C D} (f : A -> B -> C -> D) n : forall l m o,
  length l = length m -> length m = length o ->
  skipn n (map3 f l m o) = map3 f (skipn n l) (skipn n m) (skipn n o).
Proof.
  induction n; intros [|a l] [|b m] [|c o] H1 H2; try discriminate; try reflexivity.
  cbn [map3 skipn]. apply IHn; cbn in *; lia.
Qed.

Lemma lastn_map3 {A B C D} (f : A -> B -> C -> D) n l m o :
  length l = length m -> length m = length o ->
  lastn n (map3 f l m o) = map3 f (lastn n l) (lastn n m) (lastn n o).
Proof.
  intros H1 H2. unfold lastn. rewrite skipn_map3, map3_length by auto. rewrite <- H2, <- H1. reflexivity.
Qed.

Lemma lastn_full {A} n (l m : list A) : length l = n -> length m = n -> lastn n l = lastn n m -> l = m.
Proof.
  intros H1 H2. subst n. rewrite lastn_all. rewrite <- H2, lastn_all. auto.
Qed.

Lemma lastn_le {A} i n (l m : list A) : i <= n -> length l = length m ->
  lastn n l = lastn n m -> lastn i l = lastn i m.
Proof.
  intros Hi L H. assert (E : forall x : list A, lastn i x = lastn i (lastn n x)).
  { intros x. unfold lastn. rewrite skipn_length.
    rewrite <- (firstn_skipn (length x - n) x) at 2. rewrite skipn_app.
    rewrite firstn_length. rewrite skipn_all2 by (rewrite firstn_length; lia).
    cbn [app]. f_equal. lia. }
  rewrite (E l), (E m), H. reflexivity.
Qed.

(** *** One head *)

Definition re_wf (N : nat) (s : (@re_state K)) : Prop :=
  length (re_d s) = N - 1 /\ length (re_AV s) = N - 1 /\ length (re_Q s) = N - 1
  /\ length (re_K s) = N /\ length (re_V s) = N.

(** The parts of two memories that [j] common tokens have made equal. *)
Definition re_agr (N j : nat) (s s' : (@re_state K)) : Prop :=
  lastn (Nat.min j N) (re_K s) = lastn (Nat.min j N) (re_K s')
  /\ lastn (Nat.min j N) (re_V s) = lastn (Nat.min j N) (re_V s')
  /\ lastn (Nat.min j (N - 1)) (re_Q s) = lastn (Nat.min j (N - 1)) (re_Q s')
  /\ lastn (Nat.min (j + 1 - N) (N - 1)) (re_d s) = lastn (Nat.min (j + 1 - N) (N - 1)) (re_d s')
  /\ lastn (Nat.min (j + 1 - N) (N - 1)) (re_AV s) = lastn (Nat.min (j + 1 - N) (N - 1)) (re_AV s').

Lemma re_wf_step N E scale s q k v : 2 <= N -> re_wf N s ->
  exists o s', re_step E scale s q k v = Ok (o, s') /\ re_wf N s' /\ length o = N.
Proof.
  intros HN (H1 & H2 & H3 & H4 & H5). destruct s as [d AV Q KK V]. cbn in H1, H2, H3, H4, H5.
  destruct KK as [|k0' KK]; [cbn in H4; lia|]. destruct V as [|v0 V]; [cbn in H5; lia|].
  destruct Q as [|q0 Q]; [cbn in H3; lia|].
  unfold re_step. cbn [re_K re_V re_Q re_d re_AV first_row roll_in bind].
  eexists _, _. split; [reflexivity|].
  assert (L : forall f, length (map3 f d
     (map (fun qm => kexp (dot E qm k0')) (q0 :: Q)) (map (fun qm => kexp (dot E qm k)) (q0 :: Q))) = N - 1)
    by (intros f; intros; rewrite (map3_length (D := K)); rewrite ?map_length; lia).
  assert (L' : forall f, length (map3 f AV
     (map (fun qm => kexp (dot E qm k0')) (q0 :: Q)) (map (fun qm => kexp (dot E qm k)) (q0 :: Q))) = N - 1)
    by (intros f; intros; rewrite (map3_length (D := vec K)); rewrite ?map_length; lia).
  split; [|rewrite map2_length, app_length, L'; cbn [length]; rewrite ?app_length, ?L, ?L'; cbn [length]; lia].
  assert (T : forall A (l : list A), length (tl l) = length l - 1) by (intros A [|a l]; cbn; lia).
  unfold re_wf. cbn [re_K re_V re_Q re_d re_AV]. rewrite !T, !app_length, L, L'. cbn [length] in *. lia.
Qed.

Lemma re_agr_step N E scale j s s' q k v o o' s1 s1' : 2 <= N -> re_wf N s -> re_wf N s' ->
  re_agr N j s s' -> re_step E scale s q k v = Ok (o, s1) -> re_step E scale s' q k v = Ok (o', s1') ->
  re_agr N (S j) s1 s1' /\ (2 * N - 2 <= j -> o = o').
Proof.
  intros HN W W' (A1 & A2 & A3 & A4 & A5) E1 E2.
  destruct W as (H1 & H2 & H3 & H4 & H5), W' as (H1' & H2' & H3' & H4' & H5').
  destruct s as [d AV Q KK V], s' as [d' AV' Q' KK' V'].
  cbn [re_K re_V re_Q re_d re_AV] in *.
  destruct KK as [|k0' KK]; [cbn in H4; lia|]. destruct V as [|v0 V]; [cbn in H5; lia|].
  destruct Q as [|q0 Q]; [cbn in H3; lia|].
  destruct KK' as [|k0'' KK']; [cbn in H4'; lia|]. destruct V' as [|v0' V']; [cbn in H5'; lia|].
  destruct Q' as [|q0' Q']; [cbn in H3'; lia|].
  unfold re_step in E1, E2. cbn [re_K re_V re_Q re_d re_AV first_row roll_in bind] in E1, E2.
  set (Qm := q0 :: Q) in *. set (Qm' := q0' :: Q') in *.
  set (D := map3 _ d _ _) in E1. set (D' := map3 _ d' _ _) in E2.
  set (T := map3 _ AV _ _) in E1. set (T' := map3 _ AV' _ _) in E2.
  set (aD := ksum _) in E1. set (aD' := ksum _) in E2.
  set (aT := wsum _ _ _) in E1. set (aT' := wsum _ _ _) in E2.
  injection E1 as <- <-. injection E2 as <- <-.
  assert (LD : length D = N - 1) by (unfold D; rewrite map3_length; rewrite ?map_length; lia).
  assert (LD' : length D' = N - 1) by (unfold D'; rewrite map3_length; rewrite ?map_length; lia).
  assert (LT : length T = N - 1) by (unfold T; rewrite map3_length; rewrite ?map_length; lia).
  assert (LT' : length T' = N - 1) by (unfold T'; rewrite map3_length; rewrite ?map_length; lia).
  assert (R : forall A (x y : A) (l m : list A) (a : A) M, length l = M -> length m = M ->
    lastn (Nat.min j (S M)) (x :: l) = lastn (Nat.min j (S M)) (y :: m) ->
    lastn (Nat.min (S j) (S M)) (l ++ [a]) = lastn (Nat.min (S j) (S M)) (m ++ [a])).
  { intros A x y l m a M Ll Lm H. rewrite !lastn_app2 by (cbn [length]; lia). f_equal. cbn [length].
    replace (Nat.min (S j) (S M) - 1) with (Nat.min j M) by lia.
    change l with (tl (x :: l)). change m with (tl (y :: m)).
    rewrite !lastn_tl by (cbn [length]; lia).
    eapply lastn_le; [|cbn [length]; lia|exact H]. lia. }
  destruct N as [|M]; [lia|]. replace (S M - 1) with M in * by lia. cbn [length] in H4, H5, H4', H5'.
  assert (AK : lastn (Nat.min (S j) (S M)) (KK ++ [k]) = lastn (Nat.min (S j) (S M)) (KK' ++ [k]))
    by (eapply R; eauto; lia).
  assert (AV0 : lastn (Nat.min (S j) (S M)) (V ++ [v]) = lastn (Nat.min (S j) (S M)) (V' ++ [v]))
    by (eapply R; eauto; lia).
  assert (AQ : lastn (Nat.min (S j) M) (Q ++ [map scale q]) = lastn (Nat.min (S j) M) (Q' ++ [map scale q])).
  { destruct M as [|M]; [lia|]. eapply R; [| |exact A3]; unfold Qm, Qm' in *; cbn [length] in *; lia. }
  set (g := Nat.min (j + 1 - S M) M) in *.
  assert (P : M <= j -> lastn (S g) (D ++ [aD]) = lastn (S g) (D' ++ [aD'])
                     /\ lastn (S g) (T ++ [aT]) = lastn (S g) (T' ++ [aT'])).
  { intros Hj.
    assert (EK : KK ++ [k] = KK' ++ [k]).
    { apply (lastn_full (S M)); [rewrite app_length; cbn [length]; lia..|].
      replace (Nat.min (S j) (S M)) with (S M) in AK by lia. exact AK. }
    assert (EV : V ++ [v] = V' ++ [v]).
    { apply (lastn_full (S M)); [rewrite app_length; cbn [length]; lia..|].
      replace (Nat.min (S j) (S M)) with (S M) in AV0 by lia. exact AV0. }
    rewrite !lastn_app2 by (cbn [length]; lia). cbn [length]. replace (S g - 1) with g by lia.
    assert (a1 : aD = aD') by (unfold aD, aD'; rewrite EK; reflexivity).
    assert (a2 : aT = aT') by (unfold aT, aT'; rewrite EK, EV; reflexivity).
    rewrite <- a1, <- a2.
    destruct (Nat.eq_dec g 0) as [G|G].
    - rewrite G. unfold lastn. rewrite !Nat.sub_0_r, !skipn_all. auto.
    - assert (S M <= j) by (unfold g in G; lia).
      replace (Nat.min j (S M)) with (S M) in A1, A2 by lia.
      apply lastn_full in A1; [|cbn [length]; lia..]. apply lastn_full in A2; [|cbn [length]; lia..].
      injection A1 as <- _. injection A2 as <- _.
      replace (Nat.min j M) with M in A3 by lia. apply lastn_full in A3; [|lia..].
      split; f_equal.
      + unfold D, D'. rewrite !lastn_map3 by (rewrite ?map_length; lia). rewrite A4, A3. reflexivity.
      + unfold T, T'. rewrite !lastn_map3 by (rewrite ?map_length; lia). rewrite A5, A3. reflexivity. }
  split.
  - unfold re_agr. cbn [re_K re_V re_Q re_d re_AV]. replace (S M - 1) with M by lia.
    split; [exact AK|]. split; [exact AV0|]. split; [exact AQ|].
    destruct (le_lt_dec M j) as [Hj|Hj].
    + destruct (P Hj) as [P1 P2]. rewrite !lastn_tl by (rewrite app_length; cbn [length]; lia).
      split; (eapply lastn_le; [|rewrite !app_length; cbn [length]; lia|eassumption]); unfold g; lia.
    + replace (S j + 1 - S M) with 0 by lia. cbn [Nat.min]. unfold lastn.
      rewrite !Nat.sub_0_r, !skipn_all. auto.
  - intros Hj. destruct P as [P1 P2]; [lia|]. replace (S g) with (S M) in P1, P2 by (unfold g; lia).
    apply lastn_full in P1; [|rewrite app_length; cbn [length]; lia..].
    apply lastn_full in P2; [|rewrite app_length; cbn [length]; lia..].
    rewrite P1, P2. reflexivity.
Qed.

(** *** The module *)

Fixpoint re_after (E : nat) (scale : K -> K) (s : (@re_state K)) (l : list (tok K)) : res (@re_state K) :=
  match l with
  | [] => Ok s
  | t :: l =>
      '(_, s) <- re_step E scale s (fst (fst t)) (snd (fst t)) (snd t) ;;
      re_after E scale s l
  end.

Lemma re_after_snoc E scale l t : forall s,
  re_after E scale s (l ++ [t])
  = (s <- re_after E scale s l ;; '(_, s) <- re_step E scale s (fst (fst t)) (snd (fst t)) (snd t) ;; Ok s).
Proof.
  induction l as [|x l IH]; intros s; cbn [app re_after bind]; [reflexivity|].
  destruct (re_step _ _ s _ _ _) as [[o s1]|e]; cbn [bind]; auto.
Qed.

Lemma re_wf_default N E : re_wf N (re_default N E).
Proof. unfold re_wf, re_default. cbn. rewrite !repeat_length. auto. Qed.

Lemma re_after_agr N E scale a a' b s s' : 2 <= N ->
  (forall l, exists x, re_after E scale (re_default N E) l = Ok x /\ re_wf N x) ->
  re_after E scale (re_default N E) (a ++ b) = Ok s ->
  re_after E scale (re_default N E) (a' ++ b) = Ok s' -> re_agr N (length b) s s'.
Proof.
  intros HN HW. revert s s'. induction b as [|t b IH] using rev_ind; intros s s'.
  - intros _ _. unfold re_agr. cbn [length Nat.min]. replace (0 + 1 - N) with 0 by lia.
    cbn [Nat.min]. unfold lastn. rewrite !Nat.sub_0_r, !skipn_all. repeat split.
  - rewrite !app_assoc, !re_after_snoc, app_length. cbn [length]. rewrite Nat.add_1_r.
    destruct (HW (a ++ b)) as (x & Ex & Wx), (HW (a' ++ b)) as (x' & Ex' & Wx').
    specialize (IH _ _ Ex Ex'). rewrite Ex, Ex'. cbn [bind].
    destruct (re_step E scale x _ _ _) as [[o s1]|] eqn:E1; cbn [bind]; [|discriminate].
    destruct (re_step E scale x' _ _ _) as [[o' s1']|] eqn:E2; cbn [bind]; [|discriminate].
    intros H H'. injection H as <-. injection H' as <-.
    exact (proj1 (re_agr_step N E scale _ _ _ _ _ _ _ _ _ _ HN Wx Wx' IH E1 E2)).
Qed.

Definition re_inv' (N E : nat) (scale : K -> K) (s : (@re_state K)) (l : list (tok K)) : Prop :=
  re_after E scale (re_default N E) l = Ok s /\ re_wf N s.

Definition re_out' (N E : nat) (scale : K -> K) (l : list (tok K)) (o : list (vec K)) : Prop :=
  exists l0 q k v s s', l = l0 ++ [(q, k, v)] /\ re_inv' N E scale s l0
    /\ re_step E scale s q k v = Ok (o, s').

Lemma re_step_ok' N E scale s l q k v : 2 <= N -> re_inv' N E scale s l ->
  exists o s', re_step E scale s q k v = Ok (o, s')
    /\ re_inv' N E scale s' (l ++ [(q, k, v)]) /\ re_out' N E scale (l ++ [(q, k, v)]) o.
Proof.
  intros HN H. destruct H as [H W].
  destruct (re_wf_step N E scale s q k v HN W) as (o & s' & E1 & W' & _).
  exists o, s'. split; [exact E1|]. split.
  - split; [|exact W']. rewrite re_after_snoc, H. cbn [bind fst snd]. rewrite E1. reflexivity.
  - exists l, q, k, v, s, s'. repeat split; auto; apply W.
Qed.

Lemma re_after_total N E scale : 2 <= N -> forall l,
  exists x, re_after E scale (re_default N E) l = Ok x /\ re_wf N x.
Proof.
  intros HN l. induction l as [|[[q k] v] l IH] using rev_ind.
  - eexists. split; [reflexivity|apply re_wf_default].
  - destruct IH as (x & Ex & Wx). destruct (re_step_ok' N E scale x l q k v HN (conj Ex Wx)) as (o & s' & _ & (H & W) & _).
    eauto.
Qed.

Lemma snoc_eq {A} (l m : list A) x y : l ++ [x] = m ++ [y] -> l = m /\ x = y.
Proof. apply app_inj_tail. Qed.

Lemma re_out_agr N E scale a a' b t o o' : 2 <= N -> 2 * N - 2 <= length b ->
  re_out' N E scale ((a ++ b) ++ [t]) o -> re_out' N E scale ((a' ++ b) ++ [t]) o' -> o = o'.
Proof.
  intros HN Hb (l0 & q & k & v & s & s1 & E0 & (I & W) & E1) (l0' & q' & k' & v' & s' & s1' & E0' & (I' & W') & E1').
  apply snoc_eq in E0 as [<- ->]. apply snoc_eq in E0' as [<- E0']. injection E0' as <- <- <-.
  pose proof (re_after_agr N E scale a a' b s s' HN (re_after_total N E scale HN) I I') as G.
  exact (proj2 (re_agr_step N E scale _ _ _ _ _ _ _ _ _ _ HN W W' G E1 E1') Hb).
Qed.

Lemma hist_agr c N E scale n a a' b t os os' : 2 <= N -> 2 * N - 2 <= length b ->
  Forall2 (re_out' N E scale) (hist c n ((a ++ b) ++ [t])) os ->
  Forall2 (re_out' N E scale) (hist c n ((a' ++ b) ++ [t])) os' -> os = os'.
Proof.
  intros HN Hb. unfold hist. generalize (seq 0 n). intros hs. revert os os'.
  induction hs as [|h hs IH]; intros os os' H H'; cbn [map] in H, H'; inversion H; inversion H'; subst; [reflexivity|].
  f_equal; [|auto]. rewrite !map_app in *. cbn [map] in *.
  eapply re_out_agr; [exact HN| |eassumption|eassumption]. rewrite map_length. exact Hb.
Qed.

Lemma re_memory (c : cfg K) a a' b h h' : supported c -> 2 <= c_N c -> 2 * c_N c - 1 <= length b ->
  exists outs outs' y o o' h1 h1',
    m_run c (re_sdpa c) None (a ++ b) h = Ok (outs ++ [Some y], o, h1)
    /\ m_run c (re_sdpa c) None (a' ++ b) h' = Ok (outs' ++ [Some y], o', h1').
Proof.
  intros Hc HN Hb. destruct (exists_last (l := b)) as (b0 & t & ->); [destruct b; [cbn in Hb; lia|discriminate]|].
  rewrite app_length in Hb. cbn [length] in Hb.
  pose proof (m_run_ok c Hc (re_sdpa c) (re_inv' (c_N c) (c_E c) (c_scale c)) (re_out' (c_N c) (c_E c) (c_scale c))
    (fun s l q k v H => re_step_ok' _ _ _ s l q k v HN H) (conj eq_refl (re_wf_default _ _))) as MR.
  destruct (MR (a ++ b0 ++ [t]) None [] h eq_refl) as (outs & o & h1 & E1 & L1 & _ & O1).
  destruct (MR (a' ++ b0 ++ [t]) None [] h' eq_refl) as (outs' & o' & h1' & E1' & L1' & _ & O1').
  clear MR. rewrite !app_assoc in *. cbn [app] in O1, O1'. rewrite app_length in L1, L1'. cbn [length] in L1, L1'.
  specialize (O1 (length (a ++ b0)) None). specialize (O1' (length (a' ++ b0)) None).
  destruct O1 as (os & F1 & G1); [rewrite !app_length; cbn [length]; lia|].
  destruct O1' as (os' & F1' & G1'); [rewrite !app_length; cbn [length]; lia|].
  rewrite firstn_all2 in F1, G1 by (rewrite !app_length; cbn [length]; lia).
  rewrite firstn_all2 in F1', G1' by (rewrite !app_length; cbn [length]; lia).
  assert (Eo : os = os') by (eapply hist_agr; [| |exact F1|exact F1']; lia). subst os'.
  replace (Nat.ltb _ _) with false in G1 by (rewrite !app_length; cbn [length]; lia).
  replace (Nat.ltb _ _) with false in G1' by (rewrite !app_length; cbn [length]; lia).
  destruct (exists_last (l := outs)) as (u & z & ->); [destruct outs; [cbn in L1; lia|discriminate]|].
  destruct (exists_last (l := outs')) as (u' & z' & ->); [destruct outs'; [cbn in L1'; lia|discriminate]|].
  rewrite !app_length in *. cbn [length] in *.
  rewrite app_nth2 in G1, G1' by lia.
  replace (length a + length b0 - length u) with 0 in G1 by lia.
  replace (length a' + length b0 - length u') with 0 in G1' by lia.
  cbn [nth] in G1, G1'. subst z z'. eauto 10.
Qed.

End FA.
