(** Proofs about copies of networks. *)
From Coq Require Import List ZArith Bool Arith Lia.
From Verif Require Import Base CallMode Frames Net Calls Heap HeapSpec HeapProof HeapNet HeapThm Copy CopySpec.
Import ListNotations.

(** ** Buffers *)
Section Buffers.
Context {F : Type}.

Lemma nth_error_copy (h : heap F) r : r < length h -> nth_error (h ++ h) (length h + r) = nth_error h r.
Proof. intro H. rewrite nth_error_app2 by lia. f_equal. lia. Qed.

Lemma refs_moved n (m : hmd F) : refs (moved_net n m) = map (fun p => (n + fst p, snd p)) (refs m).
Proof.
  induction m using hmd_ind'; cbn [moved_net refs map]; try reflexivity.
  1-3: rewrite flat_map_concat_map, map_map, flat_map_concat_map, concat_map, map_map; f_equal; apply map_ext_in;
    intros a Ha; rewrite Forall_forall in H; exact (H a Ha).
  rewrite map_app. f_equal; [assumption|]. destruct b; [cbn; auto|reflexivity].
Qed.

Lemma own_moved n (m : hmd F) : own (moved_net n m) = map (Nat.add n) (own m).
Proof. unfold own. rewrite refs_moved, !map_map. reflexivity. Qed.

Lemma NoDup_shift n l : NoDup l -> NoDup (map (Nat.add n) l).
Proof.
  induction 1; cbn; constructor; auto. intro I. apply in_map_iff in I. destruct I as [y [E I]].
  replace x with y in H by lia. auto.
Qed.

Lemma obj_moved {B} {BF : Buf F B} h o : h_ref o < length h -> obj_of (B := B) (h ++ h) (move (length h) o) = obj_of h o.
Proof. intro L. unfold obj_of, buf_of, hread, move. cbn [h_ref h_idx h_str]. rewrite nth_error_copy by exact L. reflexivity. Qed.

Lemma view_moved h (m : hmd F) : (forall r, In r (own m) -> r < length h) -> view (h ++ h) (moved_net (length h) m) = view h m.
Proof.
  assert (L : forall ms : list (hmd F),
    Forall (fun m => (forall r, In r (own m) -> r < length h) -> view (h ++ h) (moved_net (length h) m) = view h m) ms ->
    (forall r, In r (map fst (flat_map refs ms)) -> r < length h) ->
    map (view (h ++ h)) (map (moved_net (length h)) ms) = map (view h) ms).
  { induction 1 as [|a t Ha Ht IH]; intro B; cbn; [reflexivity|]. cbn [flat_map] in B. rewrite map_app in B. f_equal.
    - apply Ha. intros r I. apply B, in_or_app. auto.
    - apply IH. intros r I. apply B, in_or_app. auto. }
  induction m using hmd_ind'; intro B; cbn [moved_net view]; try reflexivity.
  - f_equal. apply obj_moved, B. left. reflexivity.
  - f_equal. apply obj_moved, B. left. reflexivity.
  - f_equal. apply obj_moved, B. left. reflexivity.
  - f_equal. apply L; assumption.
  - f_equal. apply L; assumption.
  - f_equal. apply L; assumption.
  - unfold own in B. cbn [refs] in B. rewrite map_app in B. f_equal.
    + apply IHm. intros r I. apply B, in_or_app. auto.
    + destruct b as [b0|]; cbn; [|reflexivity]. f_equal. apply H; [reflexivity|]. intros r I. apply B, in_or_app. auto.
Qed.

Lemma flags_moved n (m : hmd F) : conv_flags (moved_net n m) = conv_flags m.
Proof.
  induction m using hmd_ind'; cbn [moved_net conv_flags]; try reflexivity.
  1-3: rewrite flat_map_concat_map, map_map, flat_map_concat_map; f_equal; apply map_ext_in;
    intros a Ha; rewrite Forall_forall in H; exact (H a Ha).
  f_equal; [assumption|]. destruct b; [cbn; auto|reflexivity].
Qed.

Theorem deepcopy_ok h (m : hmd F) m' h' : separate h m -> deepcopy m h = (m', h') ->
  separate h' m /\ view h' m = view h m /\ separate h' m' /\ view h' m' = view h m /\ conv_flags m' = conv_flags m /\
  (forall r, In r (own m') -> ~ In r (own m)) /\ preserved h h'.
Proof.
  intros S E. injection E as <- <-.
  assert (P : preserved h (h ++ h)).
  { intros r c N. apply nth_error_app_old. exact N. }
  assert (B : forall r, In r (own m) -> r < length h) by (intros r I; eapply sepR_lt; [exact S|exact I]).
  assert (A : agree h (h ++ h) (refs m)).
  { intros r I. apply nth_error_app1. apply B. exact I. }
  split; [eapply agree_sep; [exact S|exact A]|]. split; [apply view_agree, A|]. split; [split|].
  - rewrite own_moved. apply NoDup_shift, S.
  - intros r k I. rewrite refs_moved in I. apply in_map_iff in I. destruct I as [[r0 k0] [E I]].
    injection E as <- <-. destruct (proj2 S _ _ I) as [c [N K]]. exists c. split; [|exact K].
    cbn [fst]. rewrite nth_error_copy; [exact N|]. apply B. apply (in_map fst) in I. exact I.
  - split; [apply view_moved, B|]. split; [apply flags_moved|]. split; [|exact P].
    intros r I J. rewrite own_moved in I. apply in_map_iff in I. destruct I as [r0 [<- I]].
    apply B in J. lia.
Qed.

Context {FA : Frames F}.

Lemma both_ok cs : forall (a b : hmd F) h, separate h a -> separate h b -> (forall r, In r (own b) -> ~ In r (own a)) ->
  match both a b cs h with
  | Ok (ys, a', b', h') =>
      run_calls (view h a) (calls_of (only false cs)) = Ok (only false ys, view h' a') /\
      run_calls (view h b) (calls_of (only true cs)) = Ok (only true ys, view h' b')
  | Err e => run_calls (view h a) (calls_of (only false cs)) = Err e \/ run_calls (view h b) (calls_of (only true cs)) = Err e
  end.
Proof.
  induction cs as [|[w c] cs IH]; intros a b h Sa Sb D; [cbn; auto|].
  cbn [both].
  assert (K : forall m n : hmd F, separate h m -> separate h n -> (forall r, In r (own n) -> ~ In r (own m)) ->
    match hdo m c h with
    | Ok (y, m', h') => run_calls (view h m) (calls_of [c]) = Ok (match c with HCall _ => [y] | HTrain _ => [] end, view h' m') /\
        separate h' m' /\ separate h' n /\ view h' n = view h n /\ (forall r, In r (own n) -> ~ In r (own m'))
    | Err e => run_calls (view h m) (calls_of [c]) = Err e
    end).
  { intros m n Sm Sn Dmn. destruct (heap_refines m h [c] Sm) as [K1 K2]. cbn [hrun] in K1, K2.
    destruct (hdo m c h) as [[[y m'] h']|e] eqn:Ec; cbn [bind] in K1, K2.
    - destruct (K1 _ _ _ eq_refl) as [R [S' _]].
      destruct (no_interference m n h [c] (match c with HCall _ => [y] | HTrain _ => [] end) m' h' Sm Sn Dmn) as [N1 [N2 N3]];
        [cbn [hrun]; rewrite Ec; reflexivity|]. auto 6.
    - apply K2. reflexivity. }
  assert (C : forall (v : md F) l, run_calls v (calls_of (c :: l)) =
    '(ys, v) <- run_calls v (calls_of [c]) ;; '(zs, v) <- run_calls v (calls_of l) ;; Ok (ys ++ zs, v)).
  { intros v l. destruct c as [c|t]; cbn [calls_of run_calls bind].
    - destruct (do_call v c) as [[y v']|e]; cbn [bind]; [|reflexivity]. destruct (run_calls v' (calls_of l)) as [[zs v'']|e]; reflexivity.
    - destruct (run_calls v (calls_of l)) as [[zs v']|e]; reflexivity. }
  destruct w; unfold only; cbn [filter fst Bool.eqb map snd]; fold (only false cs); fold (only true cs).
  - rewrite C. specialize (K b a Sb Sa). assert (D' : forall r, In r (own a) -> ~ In r (own b)) by (intros r I J; exact (D r J I)).
    specialize (K D'). destruct (hdo b c h) as [[[y b1] h1]|e]; cbn [bind].
    + destruct K as [R [S1 [S2 [V D1]]]]. rewrite R. cbn [bind].
      assert (D2 : forall r, In r (own b1) -> ~ In r (own a)) by (intros r I J; exact (D1 r J I)).
      specialize (IH a b1 h1 S2 S1 D2). rewrite <- V. destruct (both a b1 cs h1) as [[[[ys a'] b'] h']|e]; cbn [bind].
      * destruct IH as [I1 I2]. split.
        { destruct c; [|exact I1]. cbn [only filter fst Bool.eqb map]. exact I1. }
        { rewrite I2. cbn [bind]. destruct c; reflexivity. }
      * destruct IH as [I|I]; [left; exact I|right]. rewrite I. reflexivity.
    + right. rewrite K. reflexivity.
  - rewrite C. specialize (K a b Sa Sb D). destruct (hdo a c h) as [[[y a1] h1]|e]; cbn [bind].
    + destruct K as [R [S1 [S2 [V D1]]]]. rewrite R. cbn [bind].
      specialize (IH a1 b h1 S1 S2 D1). rewrite <- V. destruct (both a1 b cs h1) as [[[[ys a'] b'] h']|e]; cbn [bind].
      * destruct IH as [I1 I2]. split.
        { rewrite I1. cbn [bind]. destruct c; reflexivity. }
        { destruct c; [|exact I2]. exact I2. }
      * destruct IH as [I|I]; [left|right; exact I]. rewrite I. reflexivity.
    + left. rewrite K. reflexivity.
Qed.

(** A copy and the original go on as two networks. *)
Theorem fork h (m : hmd F) m' h' cs : separate h m -> deepcopy m h = (m', h') ->
  (forall ys a b h2, both m m' cs h' = Ok (ys, a, b, h2) ->
     exists a1 h1 b1 h1', hrun m (only false cs) h = Ok (only false ys, a1, h1) /\ view h2 a = view h1 a1 /\
                          hrun m (only true cs) h = Ok (only true ys, b1, h1') /\ view h2 b = view h1' b1) /\
  (forall e, both m m' cs h' = Err e -> hrun m (only false cs) h = Err e \/ hrun m (only true cs) h = Err e).
Proof.
  intros S E. destruct (deepcopy_ok h m m' h' S E) as [S1 [V1 [S2 [V2 [_ [D _]]]]]].
  pose proof (both_ok cs m m' h' S1 S2 D) as K. rewrite V1, V2 in K.
  assert (R : forall l ws v, run_calls (view h m) (calls_of l) = Ok (ws, v) ->
    exists m1 h1, hrun m l h = Ok (ws, m1, h1) /\ v = view h1 m1).
  { intros l ws v Er. destruct (heap_refines m h l S) as [K1 K2].
    destruct (hrun m l h) as [[[ws' m1] h1]|e]; [|rewrite (proj1 (K2 e) eq_refl) in Er; discriminate].
    destruct (K1 _ _ _ eq_refl) as [Q _]. rewrite Er in Q. injection Q as -> ->. eauto. }
  split.
  - intros ys a b h2 Eb. rewrite Eb in K. destruct K as [Ka Kb].
    destruct (R _ _ _ Ka) as [a1 [h1 [Ra Va]]]. destruct (R _ _ _ Kb) as [b1 [h1' [Rb Vb]]].
    exists a1, h1, b1, h1'. auto.
  - intros e Eb. rewrite Eb in K. destruct K as [Ka|Kb]; [left|right]; apply (heap_refines m h _ S); assumption.
Qed.

(** If each of the two would run alone, they run interleaved. *)
Theorem fork_runs h (m : hmd F) m' h' cs r1 r2 : separate h m -> deepcopy m h = (m', h') ->
  hrun m (only false cs) h = Ok r1 -> hrun m (only true cs) h = Ok r2 -> exists r, both m m' cs h' = Ok r.
Proof.
  intros S E E1 E2. destruct (both m m' cs h') as [r|e] eqn:Eb; [eauto|].
  destruct (proj2 (fork h m m' h' cs S E) e Eb); congruence.
Qed.
End Buffers.

(** ** Modules *)
Section Modules.
Context {X W : Type}.
Implicit Types m M : mem W.

Lemma net_ind' (P : net -> Prop) : (forall i, P (Leaf i)) -> (forall i l, Forall P l -> P (Seq i l)) -> forall t, P t.
Proof.
  intros H1 H2. fix IH 1. intros [i|i l]; [apply H1|apply H2].
  induction l; constructor; [apply IH|assumption].
Qed.

(** What stays: sizes, parameters and stored functions everywhere; whole objects off a list. *)
Definition steady m M : Prop :=
  size M = size m /\ top M = top m /\ forall i, par (ob M i) = par (ob m i) /\ fns (ob M i) = fns (ob m i).
Definition off (l : list nat) m M : Prop := forall i, ~ In i l -> ob M i = ob m i.
Lemma steady_refl m : steady m m.
Proof. unfold steady. auto. Qed.
Lemma steady_trans m1 m2 m3 : steady m1 m2 -> steady m2 m3 -> steady m1 m3.
Proof.
  intros [A1 [A2 A3]] [B1 [B2 B3]]. split; [congruence|]. split; [congruence|].
  intro i. destruct (A3 i), (B3 i). split; congruence.
Qed.
Lemma off_refl l m : off l m m.
Proof. intros i _. reflexivity. Qed.
Lemma off_trans l m1 m2 m3 : off l m1 m2 -> off l m2 m3 -> off l m1 m3.
Proof. intros A B i I. rewrite (B i I). apply A, I. Qed.
Lemma off_weak l l' m M : (forall i, In i l -> In i l') -> off l m M -> off l' m M.
Proof. intros S A i I. apply A. auto. Qed.

Lemma set_own_ok m i v : steady m (set_own m i v) /\ off [i] m (set_own m i v) /\ own_mode (set_own m i v) i = v.
Proof.
  unfold set_own, put, steady, off, own_mode, CallMode.upd. cbn [size top ob]. split; [|split].
  - split; [reflexivity|]. split; [reflexivity|]. intro j. destruct (Nat.eqb_spec i j); subst; auto.
  - intros j I. destruct (Nat.eqb_spec i j); [|reflexivity]. subst. exfalso. apply I. left. reflexivity.
  - rewrite Nat.eqb_refl. reflexivity.
Qed.

Definition assigns (v : tref) := fold_left (fun m c => assign c v m) (A := mem W) (B := net).
Lemma assign_ok t : forall v m,
  steady m (assign t v m) /\ off (modules t) m (assign t v m) /\ forall i, In i (modules t) -> own_mode (assign t v m) i = v.
Proof.
  induction t as [i|i l IH] using net_ind'; intros v m; cbn [assign modules].
  - destruct (set_own_ok m i v) as [A [B C]]. split; [exact A|]. split; [exact B|]. intros j [<-|[]]. exact C.
  - assert (L : forall l, Forall (fun t => forall v m, steady m (assign t v m) /\ off (modules t) m (assign t v m) /\
        forall i, In i (modules t) -> own_mode (assign t v m) i = v) l ->
      forall m, steady m (assigns v l m) /\ off (flat_map modules l) m (assigns v l m) /\
        forall i, In i (flat_map modules l) \/ own_mode m i = v -> own_mode (assigns v l m) i = v).
    { clear. induction 1 as [|c l Hc _ IHl]; intro m; cbn [assigns fold_left flat_map].
      - split; [apply steady_refl|]. split; [apply off_refl|]. intros i [[]|H]; exact H.
      - destruct (Hc v m) as [A [B C]]. destruct (IHl (assign c v m)) as [A' [B' C']].
        split; [eapply steady_trans; [exact A|exact A']|]. split.
        + eapply off_trans; [eapply off_weak; [|exact B]|eapply off_weak; [|exact B']]; intros j J; apply in_or_app; auto.
        + intros j J. apply C'. destruct J as [J|J].
          * apply in_app_or in J. destruct J as [J|J]; [right; apply C, J|left; exact J].
          * destruct (in_dec Nat.eq_dec j (modules c)) as [I|I]; [right; apply C, I|]. right.
            unfold own_mode. rewrite (B j I). exact J. }
    destruct (set_own_ok m i v) as [A [B C]]. destruct (L l IH (set_own m i v)) as [A' [B' C']].
    fold (assigns v l (set_own m i v)). split; [eapply steady_trans; [exact A|exact A']|]. split.
    + eapply off_trans; [eapply off_weak; [|exact B]|eapply off_weak; [|exact B']]; intros j J; cbn; [destruct J as [<-|[]]; auto|auto].
    + intros j J. apply C'. destruct J as [<-|J]; auto.
Qed.
Lemma name_in t : In (name t) (modules t).
Proof. destruct t; left; reflexivity. Qed.
Lemma assign_name t v m : own_mode (assign t v m) (name t) = v.
Proof. apply assign_ok, name_in. Qed.
Lemma inner_in t i : In i (inner t) -> In i (modules t).
Proof. destruct t; cbn; [tauto|auto]. Qed.

Variable co_fn : meth -> W -> X -> res X.
Variable nn_fn : W -> X -> res X.
Variables unsq sq : X -> X.
Notation call_net := (call_net co_fn nn_fn unsq sq).
Notation run_net := (run_net co_fn nn_fn unsq sq).
Notation do_op := (do_op co_fn nn_fn unsq sq).
Notation do_ops := (do_ops co_fn nn_fn unsq sq).
Notation do_both := (do_both co_fn nn_fn unsq sq).

(** *** What calls leave behind *)
Lemma loop_frame scope me l :
  Forall (fun t => forall kw x m, steady m (snd (call_net scope t kw x m)) /\ off (inner t) m (snd (call_net scope t kw x m))) l ->
  forall x m, steady m (snd (child_loop (call_net scope) me l x m)) /\
              off (flat_map modules l) m (snd (child_loop (call_net scope) me l x m)).
Proof.
  induction 1 as [|c l Hc _ IH]; intros x m; cbn [child_loop flat_map].
  - split; [apply steady_refl|apply off_refl].
  - destruct (assign_ok c (mode_of me) m) as [A [B _]].
    destruct (Hc (kw_of me) x (assign c (mode_of me) m)) as [A1 B1].
    assert (S1 : steady m (snd (call_net scope c (kw_of me) x (assign c (mode_of me) m)))) by (eapply steady_trans; [exact A|exact A1]).
    assert (O1 : off (modules c) m (snd (call_net scope c (kw_of me) x (assign c (mode_of me) m)))).
    { eapply off_trans; [exact B|]. eapply off_weak; [|exact B1]. apply inner_in. }
    destruct (call_net scope c (kw_of me) x (assign c (mode_of me) m)) as [[y|e] m1]; cbn [snd] in *.
    + destruct (assign_ok c (own_mode m (name c)) m1) as [A2 [B2 _]].
      destruct (IH y (assign c (own_mode m (name c)) m1)) as [A3 B3]. split.
      * eapply steady_trans; [exact S1|]. eapply steady_trans; [exact A2|exact A3].
      * eapply off_trans; [|eapply off_weak; [|exact B3]; intros j J; apply in_or_app; auto].
        eapply off_weak; [|eapply off_trans; [exact O1|exact B2]]. intros j J. apply in_or_app. auto.
    + split; [exact S1|]. eapply off_weak; [|exact O1]. intros j J. apply in_or_app. auto.
Qed.
Lemma call_frame scope t : forall kw x m,
  steady m (snd (call_net scope t kw x m)) /\ off (inner t) m (snd (call_net scope t kw x m)).
Proof.
  induction t as [i|i l IH] using net_ind'; intros kw x m; cbn [Copy.call_net snd inner].
  - split; [apply steady_refl|apply off_refl].
  - destruct (lookup _) as [me|e]; [destruct (takes me kw)|]; try (split; [apply steady_refl|apply off_refl]).
    apply loop_frame, IH.
Qed.
Lemma run_frame scope me t x m : steady m (snd (run_net scope me t x m)) /\ off (inner t) m (snd (run_net scope me t x m)).
Proof.
  destruct t as [i|i l]; cbn [Copy.run_net snd inner]; [split; [apply steady_refl|apply off_refl]|].
  apply loop_frame. apply Forall_forall. intros t _. apply call_frame.
Qed.

(** *** The same network twice *)
Definition alike (n : nat) (l : list nat) m M : Prop :=
  forall i, In i l -> par (ob M (n + i)) = par (ob m i) /\ fns (ob M (n + i)) = None /\ fns (ob m i) = None.
Lemma alike_steady n l m M m' M' : alike n l m M -> steady m m' -> steady M M' -> alike n l m' M'.
Proof.
  intros A [_ [_ B]] [_ [_ C]] i I. destruct (A i I) as [A1 [A2 A3]], (B i), (C (n + i)).
  repeat apply conj; congruence.
Qed.
Lemma name_rename n t : name (rename n t) = n + name t.
Proof. destruct t; reflexivity. Qed.
Lemma modules_rename n t : modules (rename n t) = map (Nat.add n) (modules t).
Proof.
  induction t as [i|i l IH] using net_ind'; cbn; [reflexivity|]. f_equal.
  rewrite !flat_map_concat_map, map_map, concat_map, map_map. f_equal. apply map_ext_in.
  rewrite Forall_forall in IH. exact IH.
Qed.
Lemma inner_rename n t : inner (rename n t) = map (Nat.add n) (inner t).
Proof. pose proof (modules_rename n t) as H. destruct t; cbn in *; [reflexivity|]. congruence. Qed.

Lemma loop_sim scope n me l :
  Forall (fun t => forall kw x m M, alike n (modules t) m M ->
    current_mode scope (own_mode M (n + name t)) = current_mode scope (own_mode m (name t)) ->
    fst (call_net scope (rename n t) kw x M) = fst (call_net scope t kw x m)) l ->
  forall x m M, alike n (flat_map modules l) m M ->
    fst (child_loop (call_net scope) me (map (rename n) l) x M) = fst (child_loop (call_net scope) me l x m).
Proof.
  induction 1 as [|c l Hc _ IH]; intros x m M A; cbn [child_loop map]; [reflexivity|].
  destruct (assign_ok c (mode_of me) m) as [S1 _]. destruct (assign_ok (rename n c) (mode_of me) M) as [S2 _].
  assert (A1 : alike n (flat_map modules (c :: l)) (assign c (mode_of me) m) (assign (rename n c) (mode_of me) M))
    by (eapply alike_steady; eassumption).
  assert (E : fst (call_net scope (rename n c) (kw_of me) x (assign (rename n c) (mode_of me) M)) =
              fst (call_net scope c (kw_of me) x (assign c (mode_of me) m))).
  { apply Hc.
    - intros i I. apply A1. cbn. apply in_or_app. auto.
    - rewrite <- name_rename, !assign_name. reflexivity. }
  destruct (call_frame scope (rename n c) (kw_of me) x (assign (rename n c) (mode_of me) M)) as [S3 _].
  destruct (call_frame scope c (kw_of me) x (assign c (mode_of me) m)) as [S4 _].
  destruct (call_net scope (rename n c) (kw_of me) x (assign (rename n c) (mode_of me) M)) as [r1 M1];
    destruct (call_net scope c (kw_of me) x (assign c (mode_of me) m)) as [r2 m1]; cbn [fst snd] in *. subst r2.
  destruct r1 as [y|e]; [|reflexivity]. apply IH.
  assert (A2 : alike n (flat_map modules (c :: l)) m1 M1) by (eapply alike_steady; [exact A1|exact S4|exact S3]).
  intros i I. eapply alike_steady; [exact A2|apply assign_ok|apply assign_ok|]. cbn. apply in_or_app. auto.
Qed.
Lemma call_sim scope n t : forall kw x m M, alike n (modules t) m M ->
  current_mode scope (own_mode M (n + name t)) = current_mode scope (own_mode m (name t)) ->
  fst (call_net scope (rename n t) kw x M) = fst (call_net scope t kw x m).
Proof.
  induction t as [i|i l IH] using net_ind'; intros kw x m M A E; cbn [name] in E; cbn [rename Copy.call_net fst].
  - destruct (A i) as [A1 [A2 A3]]; [left; reflexivity|]. unfold call_leaf. rewrite A1, A2, A3, E. reflexivity.
  - rewrite E. destruct (lookup _) as [me|e]; [|reflexivity]. destruct (takes me kw); [|reflexivity].
    apply loop_sim; [exact IH|]. intros j J. apply A. right. exact J.
Qed.
Lemma run_sim scope n me t x m M : alike n (modules t) m M ->
  fst (run_net scope me (rename n t) x M) = fst (run_net scope me t x m).
Proof.
  destruct t as [i|i l]; intro A; cbn [rename Copy.run_net fst].
  - destruct (A i) as [A1 [A2 A3]]; [left; reflexivity|]. rewrite A1, A2, A3. reflexivity.
  - apply loop_sim.
    + apply Forall_forall. intros t _. apply call_sim.
    + intros j J. apply A. right. exact J.
Qed.

(** *** Histories of a network and its copy *)
Definition twin (n : nat) (t : net) m M : Prop :=
  alike n (modules t) m M /\ own_mode M (n + name t) = own_mode m (name t).
Lemma set_par_ok m i w : (forall j, fns (ob (set_par m i w) j) = fns (ob m j) /\ own_mode (set_par m i w) j = own_mode m j
    /\ par (ob (set_par m i w) j) = if Nat.eqb i j then w else par (ob m j)) /\ off [i] m (set_par m i w).
Proof.
  unfold set_par, put, own_mode, off, CallMode.upd. cbn [ob]. split.
  - intro j. destruct (Nat.eqb_spec i j); subst; auto.
  - intros j I. destruct (Nat.eqb_spec i j); [|reflexivity]. subst. exfalso. apply I. left. reflexivity.
Qed.
(** An operation keeps what it does not concern, and the copy keeps in step. *)
Lemma op_sim n t o m M : ~ In (name t) (inner t) -> twin n t m M ->
  fst (do_op n (rename n t) o M) = fst (do_op 0 t o m) /\
  twin n t (snd (do_op 0 t o m)) (snd (do_op n (rename n t) o M)).
Proof.
  intros N [A E]. destruct o as [s x|s me x|me|i w]; cbn [Copy.do_op].
  - pose proof (call_sim (option_map mode_of s) n t KwNone x m M A) as H.
    rewrite E in H. specialize (H eq_refl).
    destruct (call_frame (option_map mode_of s) (rename n t) KwNone x M) as [S1 O1].
    destruct (call_frame (option_map mode_of s) t KwNone x m) as [S2 O2].
    destruct (call_net _ (rename n t) KwNone x M) as [r1 M1]; destruct (call_net _ t KwNone x m) as [r2 m1]; cbn [fst snd] in *.
    subst. split; [reflexivity|]. split; [eapply alike_steady; eassumption|].
    unfold own_mode. rewrite O1, O2; [exact E|exact N|]. rewrite inner_rename. intro I. apply in_map_iff in I.
    destruct I as [j [Ej I]]. replace (name t) with j in N by lia. exact (N I).
  - pose proof (run_sim (option_map mode_of s) n me t x m M A) as H.
    destruct (run_frame (option_map mode_of s) me (rename n t) x M) as [S1 O1].
    destruct (run_frame (option_map mode_of s) me t x m) as [S2 O2].
    destruct (run_net _ me (rename n t) x M) as [r1 M1]; destruct (run_net _ me t x m) as [r2 m1]; cbn [fst snd] in *.
    subst. split; [reflexivity|]. split; [eapply alike_steady; eassumption|].
    unfold own_mode. rewrite O1, O2; [exact E|exact N|]. rewrite inner_rename. intro I. apply in_map_iff in I.
    destruct I as [j [Ej I]]. replace (name t) with j in N by lia. exact (N I).
  - cbn [fst snd]. split; [reflexivity|]. split.
    + eapply alike_steady; [exact A|apply assign_ok|apply assign_ok].
    + rewrite <- name_rename, !assign_name. reflexivity.
  - cbn [fst snd]. split; [reflexivity|]. destruct (set_par_ok m i w) as [P1 _]. destruct (set_par_ok M (n + i) w) as [P2 _].
    split.
    + intros j J. destruct (A j J) as [A1 [A2 A3]]. destruct (P1 j) as [Q1 [_ Q3]]. destruct (P2 (n + j)) as [R1 [_ R3]].
      cbn [Nat.add]. rewrite Q1, R1, Q3, R3. repeat apply conj; [|exact A2|exact A3].
      replace (Nat.eqb (n + i) (n + j)) with (Nat.eqb i j); [rewrite A1; reflexivity|].
      destruct (Nat.eqb_spec i j), (Nat.eqb_spec (n + i) (n + j)); auto; lia.
    + cbn [Nat.add]. rewrite (proj1 (proj2 (P1 _))), (proj1 (proj2 (P2 _))). exact E.
Qed.
Definition concerns (n : nat) (t : net) (o : op X W) : list nat :=
  map (Nat.add n) (match o with OTrain i _ => [i] | _ => modules t end).
Lemma op_off n t o M : off (concerns n t o) M (snd (do_op n (rename n t) o M)).
Proof.
  unfold concerns. destruct o as [s x|s me x|me|i w]; cbn [Copy.do_op].
  - destruct (call_frame (option_map mode_of s) (rename n t) KwNone x M) as [_ O].
    destruct (call_net _ (rename n t) KwNone x M) as [r1 M1]; cbn [snd] in *.
    eapply off_weak; [|exact O]. intros j J. apply inner_in in J. rewrite modules_rename in J. exact J.
  - destruct (run_frame (option_map mode_of s) me (rename n t) x M) as [_ O].
    destruct (run_net _ me (rename n t) x M) as [r1 M1]; cbn [snd] in *.
    eapply off_weak; [|exact O]. intros j J. apply inner_in in J. rewrite modules_rename in J. exact J.
  - cbn [snd]. rewrite <- modules_rename. apply assign_ok.
  - cbn [snd map]. apply set_par_ok.
Qed.
Lemma rename_0 t : rename 0 t = t.
Proof.
  induction t as [i|i l IH] using net_ind'; cbn; [reflexivity|]. f_equal. induction IH; cbn; congruence.
Qed.
Lemma twin_off n t m M M' : twin n t m M -> (forall i, In i (modules t) -> ob M' (n + i) = ob M (n + i)) -> twin n t m M'.
Proof.
  intros [A E] H. split.
  - intros i I. rewrite (H i I). apply A, I.
  - unfold own_mode. rewrite (H _ (name_in t)). exact E.
Qed.

Lemma both_sim n t l : (forall i, In i (modules t) -> i < n) -> ~ In (name t) (inner t) -> Forall (fun wo => trains_below n (snd wo)) l ->
  forall m1 m2 M, twin 0 t m1 M -> twin n t m2 M ->
  only false (fst (do_both n t (rename n t) l M)) = fst (do_ops 0 t (only false l) m1) /\
  only true (fst (do_both n t (rename n t) l M)) = fst (do_ops 0 t (only true l) m2).
Proof.
  intros B N. induction 1 as [|[w o] l Ho _ IH]; intros m1 m2 M T1 T2; [split; reflexivity|].
  cbn [snd] in Ho. cbn [Copy.do_both]. unfold only. cbn [filter fst Bool.eqb].
  assert (C : forall i k, i < n -> In (n + i) (concerns 0 t o) -> k).
  { intros i k L I. exfalso. unfold concerns in I. apply in_map_iff in I. destruct I as [j [Ej I]]. cbn in Ej. subst j.
    destruct o; try (apply B in I; lia). destruct I as [->|[]]. cbn in Ho. lia. }
  destruct w.
  - destruct (op_sim n t o m2 M N T2) as [E1 T2']. pose proof (op_off n t o M) as O.
    destruct (do_op n (rename n t) o M) as [y M'] eqn:Eo; cbn [fst snd] in *.
    assert (T1' : twin 0 t m1 M').
    { eapply twin_off; [exact T1|]. intros i I. cbn [Nat.add]. apply O. intro J. apply in_map_iff in J.
      destruct J as [j [Ej _]]. apply B in I. lia. }
    destruct (do_op 0 t o m2) as [y2 m2'] eqn:Eo2; cbn [fst snd] in *. subst y2.
    destruct (IH m1 m2' M' T1' T2') as [I1 I2].
    destruct (do_both n t (rename n t) l M') as [ys M2]; cbn [fst snd filter Bool.eqb map]. cbn [fst] in I1, I2.
    fold (only false l). fold (only true l). fold (only false ys). fold (only true ys). split; [exact I1|].
    cbn [Copy.do_ops]. rewrite Eo2. destruct (do_ops 0 t (only true l) m2') as [ys2 m3]. cbn [fst] in *. congruence.
  - destruct (op_sim 0 t o m1 M N T1) as [E1 T1']. pose proof (op_off 0 t o M) as O. rewrite rename_0 in E1, T1', O.
    destruct (do_op 0 t o M) as [y M'] eqn:Eo; cbn [fst snd] in *.
    assert (T2' : twin n t m2 M').
    { eapply twin_off; [exact T2|]. intros i I. apply O. intro J. exact (C i False (B i I) J). }
    destruct (do_op 0 t o m1) as [y1 m1'] eqn:Eo1; cbn [fst snd] in *. subst y1.
    destruct (IH m1' m2 M' T1' T2') as [I1 I2].
    destruct (do_both n t (rename n t) l M') as [ys M2]; cbn [fst snd filter Bool.eqb map]. cbn [fst] in I1, I2.
    fold (only false l). fold (only true l). fold (only false ys). fold (only true ys). split; [|exact I2].
    cbn [Copy.do_ops]. rewrite Eo1. destruct (do_ops 0 t (only false l) m1') as [ys1 m3]. cbn [fst] in *. congruence.
Qed.

Lemma copied_ob t m t' m' i : copy_net t m = (t', m') -> i < size m ->
  ob m' i = ob m i /\ ob m' (size m + i) = copy_object (top m) (ob m i).
Proof.
  intros E L. injection E as <- <-. cbn [ob]. destruct (Nat.ltb_spec i (size m)); [|lia].
  destruct (Nat.ltb_spec (size m + i) (size m)); [lia|]. split; [reflexivity|]. repeat f_equal. lia.
Qed.
Lemma copied_alike t m t' m' : present t m -> continual_only t m -> copy_net t m = (t', m') ->
  alike 0 (modules t) m m' /\ alike (size m) (modules t) m m'.
Proof.
  intros [B _] C E. split; intros i I; destruct (copied_ob t m t' m' i E (B i I)) as [E1 E2].
  - cbn [Nat.add]. rewrite E1. auto.
  - rewrite E2. cbn. auto.
Qed.

(** A copy of a network of continual modules, none of them called with a mode of its own. *)
Theorem copy_independent t m t' m' l : present t m -> continual_only t m -> mode (ob m (name t)) = None ->
  copy_net t m = (t', m') -> Forall (fun wo => trains_below (size m) (snd wo)) l ->
  only false (fst (do_both (size m) t t' l m')) = fst (do_ops 0 t (only false l) m) /\
  only true (fst (do_both (size m) t t' l m')) = fst (do_ops 0 t (only true l) m).
Proof.
  intros P C H E T. destruct (copied_alike t m t' m' P C E) as [A1 A2].
  assert (E' : t' = rename (size m) t) by (injection E as <- _; reflexivity). rewrite E'.
  destruct (copied_ob t m t' m' (name t) E (proj1 P _ (name_in t))) as [E1 E2].
  apply both_sim; try assumption; try apply P; split; try assumption; cbn [Nat.add]; unfold own_mode.
  - rewrite E1. reflexivity.
  - rewrite E2. cbn. rewrite H. reflexivity.
Qed.
(** By name and in a context a copy does the same, whatever the modes. *)
Theorem copy_by_name t m t' m' s me x : present t m -> continual_only t m -> copy_net t m = (t', m') ->
  fst (do_op (size m) t' (ORun s me x) m') = fst (do_op 0 t (ORun s me x) m) /\
  fst (do_op (size m) t' (OCall (Some me) x) m') = fst (do_op 0 t (OCall (Some me) x) m).
Proof.
  intros P C E. destruct (copied_alike t m t' m' P C E) as [_ A].
  assert (E' : t' = rename (size m) t) by (injection E as <- _; reflexivity). rewrite E'. cbn [Copy.do_op]. split.
  - pose proof (run_sim (option_map mode_of s) (size m) me t x m m' A) as R.
    destruct (run_net _ me (rename (size m) t) x m') as [r1 M1]; destruct (run_net _ me t x m) as [r2 m1]. cbn [fst] in *. congruence.
  - pose proof (call_sim (option_map mode_of (Some me)) (size m) t KwNone x m m' A eq_refl) as R.
    destruct (call_net _ (rename (size m) t) KwNone x m') as [r1 M1]; destruct (call_net _ t KwNone x m) as [r2 m1]. cbn [fst] in *. congruence.
Qed.
(** The mode stored in a module becomes a tensor that __call__ does not know. *)
Theorem copy_call t m t' m' x v : present t m -> continual_only t m -> modes_exist m -> copy_net t m = (t', m') ->
  mode (ob m (name t)) = Some v -> fst (do_op (size m) t' (OCall None x) m') = Err KeyError.
Proof.
  intros P C T E H. destruct (copied_ob t m t' m' (name t) E (proj1 P _ (name_in t))) as [_ E2].
  assert (E' : t' = rename (size m) t) by (injection E as <- _; reflexivity). rewrite E'. cbn [Copy.do_op option_map].
  assert (L : lookup (CTensor (own_mode m' (size m + name t))) = Err KeyError).
  { unfold own_mode. rewrite E2. cbn. rewrite H. cbn. unfold modes_exist in T. destruct (top m) as [|[|[|k]]]; [lia..|]. reflexivity. }
  pose proof (C _ (name_in t)) as Fn.
  destruct t as [i|i l]; cbn [rename Copy.call_net name] in *.
  - unfold call_leaf, current_mode. rewrite E2. cbn [copy_object fns]. rewrite Fn, L. reflexivity.
  - unfold current_mode. rewrite L. reflexivity.
Qed.

(** *** Converted torch modules *)
Lemma leaves_modules t i : In i (leaves t) -> In i (modules t).
Proof.
  revert i. induction t as [j|j l IH] using net_ind'; intros i I; cbn in *; [exact I|]. right.
  apply in_flat_map in I. destruct I as [c [Ic I]]. apply in_flat_map. exists c. rewrite Forall_forall in IH. auto.
Qed.
Lemma leaves_rename n t : leaves (rename n t) = map (Nat.add n) (leaves t).
Proof.
  induction t as [i|i l IH] using net_ind'; cbn; [reflexivity|].
  rewrite !flat_map_concat_map, map_map, concat_map, map_map. f_equal. apply map_ext_in.
  rewrite Forall_forall in IH. exact IH.
Qed.
Lemma through_map (f : nat -> X -> res X) g l : forall x, through f (map g l) x = through (fun i => f (g i)) l x.
Proof. induction l; intro x; cbn; [reflexivity|]. destruct (f (g a) x); cbn; auto. Qed.
Lemma through_ext (f g : nat -> X -> res X) l : (forall i x, In i l -> f i x = g i x) -> forall x, through f l x = through g l x.
Proof.
  induction l as [|a l IH]; intros H x; cbn; [reflexivity|]. rewrite (H a x (or_introl eq_refl)).
  destruct (g a x); cbn; [|reflexivity]. apply IH. intros i y I. apply H. right. exact I.
Qed.
Lemma through_app (f : nat -> X -> res X) l l' : forall x, through f (l ++ l') x = (y <- through f l x ;; through f l' y).
Proof. induction l as [|a l IH]; intro x; cbn; [reflexivity|]. destruct (f a x); cbn; auto. Qed.

Section Value.
Variables (scope : option tref) (me : meth) (M0 : mem W) (L : list nat) (f : nat -> X -> res X).
Hypothesis scope_ok : scope = None \/ scope = Some (mode_of me).
Definition near (M : mem W) : Prop := steady M0 M /\ off L M0 M.
Definition leaf_ok (i : nat) : Prop :=
  forall M x, near M -> own_mode M i = mode_of me -> call_leaf co_fn nn_fn unsq sq scope M i (kw_of me) x = f i x.

Lemma lookup_me v : v = mode_of me -> lookup (CTensor (current_mode scope v)) = Ok me.
Proof. intros ->. destruct scope_ok as [->| ->]; destruct me; reflexivity. Qed.
Lemma near_off M M' l : near M -> steady M M' -> off l M M' -> (forall i, In i l -> In i L) -> near M'.
Proof.
  intros [A B] C D E. split; [eapply steady_trans; [exact A|exact C]|]. eapply off_trans; [exact B|].
  eapply off_weak; [exact E|exact D].
Qed.
Lemma loop_value l : Forall (fun t => (forall i, In i (modules t) -> In i L) -> (forall i, In i (leaves t) -> leaf_ok i) ->
    forall x M, near M -> own_mode M (name t) = mode_of me -> fst (call_net scope t (kw_of me) x M) = through f (leaves t) x) l ->
  (forall i, In i (flat_map modules l) -> In i L) -> (forall i, In i (flat_map leaves l) -> leaf_ok i) ->
  forall x M, near M -> fst (child_loop (call_net scope) me l x M) = through f (flat_map leaves l) x.
Proof.
  induction 1 as [|c l Hc _ IH]; intros I1 I2 x M NM; cbn [child_loop flat_map]; [reflexivity|].
  cbn [flat_map] in I1, I2.
  assert (J1 : forall i, In i (modules c) -> In i L) by (intros i I; apply I1, in_or_app; auto).
  destruct (assign_ok c (mode_of me) M) as [A [B _]].
  assert (N1 : near (assign c (mode_of me) M)) by (eapply near_off; [exact NM|exact A|exact B|exact J1]).
  assert (E : fst (call_net scope c (kw_of me) x (assign c (mode_of me) M)) = through f (leaves c) x).
  { apply Hc; [exact J1| |exact N1|apply assign_name]. intros i I. apply I2, in_or_app. auto. }
  destruct (call_frame scope c (kw_of me) x (assign c (mode_of me) M)) as [A1 B1].
  rewrite through_app. destruct (call_net scope c (kw_of me) x (assign c (mode_of me) M)) as [[y|e] M1]; cbn [fst snd] in *;
    rewrite <- E; cbn [bind]; [|reflexivity].
  apply IH.
  - intros i I. apply I1, in_or_app. auto.
  - intros i I. apply I2, in_or_app. auto.
  - destruct (assign_ok c (own_mode M (name c)) M1) as [A2 [B2 _]].
    eapply near_off; [|exact A2|exact B2|exact J1]. eapply near_off; [exact N1|exact A1|exact B1|].
    intros i I. apply J1, inner_in, I.
Qed.
Lemma call_value t : (forall i, In i (modules t) -> In i L) -> (forall i, In i (leaves t) -> leaf_ok i) ->
  forall x M, near M -> own_mode M (name t) = mode_of me -> fst (call_net scope t (kw_of me) x M) = through f (leaves t) x.
Proof.
  induction t as [i|i l IH] using net_ind'; intros I1 I2 x M NM E; cbn [Copy.call_net fst leaves].
  - rewrite (I2 i (or_introl eq_refl) M x NM E). cbn [through]. destruct (f i x); reflexivity.
  - cbn [name] in E. rewrite (lookup_me _ E). replace (takes me (kw_of me)) with true by (destruct me; reflexivity).
    apply loop_value; [exact IH| |exact I2|exact NM]. intros j J. apply I1. right. exact J.
Qed.
Lemma run_value i l x : (forall j, In j (modules (Seq i l)) -> In j L) -> (forall j, In j (leaves (Seq i l)) -> leaf_ok j) ->
  fst (run_net scope me (Seq i l) x M0) = through f (leaves (Seq i l)) x.
Proof.
  intros I1 I2. cbn [Copy.run_net leaves]. apply loop_value.
  - apply Forall_forall. intros t _. apply call_value.
  - intros j J. apply I1. right. exact J.
  - exact I2.
  - split; [apply steady_refl|apply off_refl].
Qed.
End Value.

Lemma mode_val me : Z.eqb (t_val (mode_of me)) 0 = match me with Forward => true | _ => false end.
Proof. destruct me; reflexivity. Qed.
Lemma torch_with_mode scope me M j x : scope = None \/ scope = Some (mode_of me) -> fns (ob M j) = Some j ->
  current_mode scope (own_mode M j) = mode_of me ->
  with_mode nn_fn unsq sq scope M j (kw_of me) x = torch_fn nn_fn unsq sq me (par (ob M j)) x.
Proof.
  intros _ E C. unfold with_mode. rewrite C, mode_val, E. destruct me; cbn; reflexivity.
Qed.

(** The network itself. *)
Theorem original_computes s me i l x m : with_converted (Seq i l) m -> s = None \/ s = Some me ->
  fst (run_net (option_map mode_of s) me (Seq i l) x m) =
  computes co_fn nn_fn unsq sq me (is_converted m) (fun j => par (ob m j)) (Seq i l) x.
Proof.
  intros C Hs. unfold computes. apply run_value with (L := modules (Seq i l)).
  - destruct Hs as [->| ->]; cbn; auto.
  - auto.
  - intros j J M y [[_ [_ S]] _] E. destruct (S j) as [S1 S2]. unfold call_leaf, is_converted.
    rewrite S2. destruct (C j (leaves_modules _ _ J)) as [F|F]; rewrite F in *.
    + rewrite lookup_me with (me := me); [|destruct Hs as [->| ->]; cbn; auto|exact E]. cbn [bind].
      replace (takes me (kw_of me)) with true by (destruct me; reflexivity). rewrite S1. reflexivity.
    + rewrite torch_with_mode; [rewrite S1; reflexivity|destruct Hs as [->| ->]; cbn; auto|exact S2|].
      destruct Hs as [->| ->]; [exact E|reflexivity].
Qed.

Lemma copied_leaf s me i l m M j : present (Seq i l) m -> with_converted (Seq i l) m -> later m M -> s = None \/ s = Some me ->
  In j (leaves (Seq i l)) ->
  leaf_ok (option_map mode_of s) me M (map (Nat.add (size m)) (modules (Seq i l)))
    (fun k x => match fns (ob m (k - size m)) with
                | None => co_fn me (par (ob M k)) x
                | Some _ => with_mode nn_fn unsq sq (option_map mode_of s) M (k - size m) (kw_of me) x
                end) (size m + j).
Proof.
  intros [B _] C La Hs J M' y [[_ [_ S]] O] E. pose proof (leaves_modules _ _ J) as J'.
  destruct (La j (B j J')) as [L1 L2]. destruct (S (size m + j)) as [S1 S2].
  replace (size m + j - size m) with j by lia. unfold call_leaf. rewrite S2, L2.
  destruct (C j J') as [F|F]; rewrite F in *.
  - rewrite lookup_me with (me := me); [|destruct Hs as [->| ->]; cbn; auto|exact E]. cbn [bind].
    replace (takes me (kw_of me)) with true by (destruct me; reflexivity). rewrite S1. reflexivity.
  - assert (E1 : ob M' j = ob M j).
    { apply O. intro I. apply in_map_iff in I. destruct I as [k [Ek _]]. pose proof (B j J'). lia. }
    unfold with_mode, own_mode, stored. rewrite E1. rewrite L1. rewrite E1. reflexivity.
Qed.
Lemma copied_run s me i l m M x : present (Seq i l) m -> with_converted (Seq i l) m -> later m M -> s = None \/ s = Some me ->
  fst (run_net (option_map mode_of s) me (rename (size m) (Seq i l)) x M) =
  through (fun j x => if is_converted m j then with_mode nn_fn unsq sq (option_map mode_of s) M j (kw_of me) x
                      else co_fn me (par (ob M (size m + j))) x) (leaves (Seq i l)) x.
Proof.
  intros P C La Hs. pose proof (leaves_rename (size m) (Seq i l)) as Lr. pose proof (modules_rename (size m) (Seq i l)) as Mr.
  cbn [rename] in *. rewrite run_value with (L := map (Nat.add (size m)) (modules (Seq i l)))
    (f := fun k x => match fns (ob m (k - size m)) with
                | None => co_fn me (par (ob M k)) x
                | Some _ => with_mode nn_fn unsq sq (option_map mode_of s) M (k - size m) (kw_of me) x
                end).
  - rewrite Lr, through_map. apply through_ext. intros j y J. replace (size m + j - size m) with j by lia.
    unfold is_converted. destruct (fns (ob m j)); reflexivity.
  - destruct Hs as [->| ->]; cbn; auto.
  - intros j J. rewrite Mr in J. exact J.
  - intros j J. rewrite Lr in J. apply in_map_iff in J. destruct J as [k [<- J]].
    apply copied_leaf; assumption.
Qed.

(** The copy: forward computes with the original's torch modules. *)
Theorem copy_forward i l m M x : present (Seq i l) m -> with_converted (Seq i l) m -> later m M ->
  (forall j, In j (leaves (Seq i l)) -> is_converted m j = true -> t_val (own_mode M j) = 0%Z) ->
  fst (run_net None Forward (rename (size m) (Seq i l)) x M) =
  computes co_fn nn_fn unsq sq Forward (is_converted m)
    (fun j => par (ob M (if is_converted m j then j else size m + j))) (Seq i l) x.
Proof.
  intros P C La H. change (@None tref) with (option_map mode_of (@None meth)). rewrite copied_run; auto.
  unfold computes. apply through_ext. intros j y J. specialize (H j J). destruct (is_converted m j) eqn:E; [|reflexivity].
  unfold with_mode. cbn [option_map current_mode]. rewrite (H eq_refl). reflexivity.
Qed.
(** Stepping raises at the first torch module. *)
Theorem copy_steps me i l m M x : me <> Forward -> present (Seq i l) m -> with_converted (Seq i l) m -> later m M ->
  (forall j, In j (leaves (Seq i l)) -> is_converted m j = true -> t_val (own_mode M j) = 0%Z) ->
  fst (run_net None me (rename (size m) (Seq i l)) x M) =
  breaks co_fn me (is_converted m) (fun j => par (ob M (size m + j))) (Seq i l) x.
Proof.
  intros Hm P C La H. change (@None tref) with (option_map mode_of (@None meth)). rewrite copied_run; auto.
  unfold breaks. apply through_ext. intros j y J. specialize (H j J). destruct (is_converted m j) eqn:E; [|reflexivity].
  unfold with_mode. cbn [option_map current_mode]. rewrite (H eq_refl). destruct me; [congruence|reflexivity..].
Qed.
(** In a context stepping works, with the original's torch modules. *)
Theorem copy_in_context me i l m M x : present (Seq i l) m -> with_converted (Seq i l) m -> later m M ->
  fst (run_net (Some (mode_of me)) me (rename (size m) (Seq i l)) x M) =
  computes co_fn nn_fn unsq sq me (is_converted m)
    (fun j => par (ob M (if is_converted m j then j else size m + j))) (Seq i l) x.
Proof.
  intros P C La. change (Some (mode_of me)) with (option_map mode_of (Some me)). rewrite copied_run; auto.
  unfold computes. apply through_ext. intros j y J. destruct (is_converted m j) eqn:E; [|reflexivity].
  apply leaves_modules in J. destruct (La j (proj1 P j J)) as [L1 _]. unfold is_converted in E.
  destruct (C j J) as [F|F]; rewrite F in E; [discriminate|]. apply torch_with_mode; [auto|congruence|reflexivity].
Qed.

(** Copying makes such a memory, and histories keep it. *)
Lemma op_fns n t o M k : fns (ob (snd (do_op n t o M)) k) = fns (ob M k).
Proof.
  destruct o as [s x|s me x|me|i w]; cbn [Copy.do_op].
  - destruct (call_frame (option_map mode_of s) t KwNone x M) as [S _]. destruct (call_net _ t KwNone x M); cbn [snd] in *. apply S.
  - destruct (run_frame (option_map mode_of s) me t x M) as [S _]. destruct (run_net _ me t x M); cbn [snd] in *. apply S.
  - cbn [snd]. apply assign_ok.
  - cbn [snd]. apply set_par_ok.
Qed.
Theorem later_after t m t' m' l : copy_net t m = (t', m') -> later m (snd (do_both (size m) t t' l m')).
Proof.
  intro E. assert (L0 : later m m').
  { intros i I. destruct (copied_ob t m t' m' i E I) as [E1 E2]. rewrite E1, E2. auto. }
  revert L0. generalize m'. induction l as [|[w o] l IH]; intros M La; cbn [Copy.do_both]; [exact La|].
  assert (La' : later m (snd (if w then do_op (size m) t' o M else do_op 0 t o M))).
  { intros i I. destruct w; rewrite !op_fns; apply La, I. }
  destruct (if w then do_op (size m) t' o M else do_op 0 t o M) as [y M1]. cbn [snd] in La'. specialize (IH M1 La').
  destruct (do_both (size m) t t' l M1). exact IH.
Qed.

Lemma through_err (f : nat -> X -> res X) j l : In j l -> (forall x, exists e, f j x = Err e) -> forall x, exists e, through f l x = Err e.
Proof.
  intros I H. induction l as [|a l IH]; intro x; [destruct I|]. cbn. destruct I as [->|I].
  - destruct (H x) as [e E]. rewrite E. cbn. eauto.
  - destruct (f a x); cbn; eauto.
Qed.
Theorem copy_never_steps me i l m M x j : me <> Forward -> present (Seq i l) m -> with_converted (Seq i l) m -> later m M ->
  (forall j, In j (leaves (Seq i l)) -> is_converted m j = true -> t_val (own_mode M j) = 0%Z) ->
  In j (leaves (Seq i l)) -> is_converted m j = true ->
  exists e, fst (run_net None me (rename (size m) (Seq i l)) x M) = Err e.
Proof.
  intros Hm P C La H J Cj. rewrite copy_steps by assumption. unfold breaks. eapply through_err; [exact J|].
  intro y. rewrite Cj. eauto.
Qed.
Theorem copy_keeps_torch me i l m M x j w : present (Seq i l) m -> with_converted (Seq i l) m -> later m M ->
  (forall j, In j (leaves (Seq i l)) -> is_converted m j = true -> t_val (own_mode M j) = 0%Z) ->
  j < size m -> is_converted m j = true ->
  fst (run_net None Forward (rename (size m) (Seq i l)) x (set_par M (size m + j) w)) =
    fst (run_net None Forward (rename (size m) (Seq i l)) x M) /\
  fst (run_net (Some (mode_of me)) me (rename (size m) (Seq i l)) x (set_par M (size m + j) w)) =
    fst (run_net (Some (mode_of me)) me (rename (size m) (Seq i l)) x M).
Proof.
  intros P C La H Lj Cj. destruct (set_par_ok M (size m + j) w) as [S _].
  assert (La' : later m (set_par M (size m + j) w)).
  { intros k K. destruct (La k K). destruct (S k) as [-> _]. destruct (S (size m + k)) as [-> _]. auto. }
  assert (Eq : forall k, In k (leaves (Seq i l)) ->
    par (ob (set_par M (size m + j) w) (if is_converted m k then k else size m + k)) =
    par (ob M (if is_converted m k then k else size m + k))).
  { intros k K. apply leaves_modules in K. pose proof (proj1 P k K) as Lk. destruct (is_converted m k) eqn:Ck.
    - destruct (S k) as [_ [_ ->]]. destruct (Nat.eqb_spec (size m + j) k); [lia|reflexivity].
    - destruct (S (size m + k)) as [_ [_ ->]]. destruct (Nat.eqb_spec (size m + j) (size m + k)); [|reflexivity].
      replace k with j in Ck by lia. congruence. }
  split.
  - rewrite !copy_forward; try assumption.
    + unfold computes. apply through_ext. intros k y K. rewrite (Eq k K). reflexivity.
    + intros k K Ck. destruct (S k) as [_ [-> _]]. auto.
  - rewrite !copy_in_context; try assumption. unfold computes. apply through_ext. intros k y K. rewrite (Eq k K). reflexivity.
Qed.
End Modules.
