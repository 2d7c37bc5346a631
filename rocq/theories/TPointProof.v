(** Lemmas about [TPoint.v]. *)
From Coq Require Import List ZArith Bool Arith Lia.
From Coq Require Import ZifyBool ZifyNat.
From Verif Require Import Base Attn Frames Tensor TensorProof TAttn TPoint TPointSpec.
Import ListNotations.

Lemma nth_put k v l m : k < length l -> nth m (put k v l) 0 = if Nat.eqb m k then v else nth m l 0.
Proof.
  unfold put. revert l m. induction k as [|k IH]; intros [|a l] m H; cbn in H; try lia.
  - destruct m; reflexivity.
  - destruct m as [|m]; [reflexivity|]. cbn [firstn skipn app nth Nat.eqb]. apply IH. lia.
Qed.
Lemma put_len k v l : k < length l -> length (put k v l) = length l.
Proof. intros H. unfold put. rewrite app_length, firstn_length. cbn [length]. rewrite skipn_length. lia. Qed.
Lemma nth_exchanged i j l m : nth m (exchanged i j l) 0 = if Nat.ltb m (length l) then nth (exchange i j m) l 0 else 0.
Proof.
  unfold exchanged. destruct (Nat.ltb_spec m (length l)) as [H|H].
  - rewrite nth_indep with (d' := (fun k => nth (exchange i j k) l 0) 0) by (rewrite map_length, seq_length; exact H).
    rewrite (map_nth (fun k => nth (exchange i j k) l 0)), seq_nth by exact H. reflexivity.
  - apply nth_overflow. rewrite map_length, seq_length. exact H.
Qed.
Lemma exchanged_len i j l : length (exchanged i j l) = length l.
Proof. unfold exchanged. rewrite map_length, seq_length. reflexivity. Qed.
Lemma nth_eq (l l' : list nat) : length l = length l' -> (forall m, m < length l -> nth m l 0 = nth m l' 0) -> l = l'.
Proof. intros H1 H2. apply nth_ext with (d := 0) (d' := 0); assumption. Qed.
Lemma last_nth' (l : list nat) : last l 0 = nth (length l - 1) l 0.
Proof.
  induction l as [|a l IH]; [reflexivity|]. destruct l as [|b l]; [reflexivity|].
  change (last (a :: b :: l) 0) with (last (b :: l) 0). rewrite IH. cbn [length]. replace (S (S (length l)) - 1) with (S (S (length l) - 1)) by lia. reflexivity.
Qed.
Lemma relast v l : l <> [] -> removelast l ++ [v] = put (length l - 1) v l.
Proof.
  intros H. unfold put. rewrite removelast_firstn_len. f_equal; [f_equal; lia|]. f_equal. symmetry. apply skipn_all2. destruct l; [congruence|cbn; lia].
Qed.
Lemma inr_nth ix s : inr ix s <-> length ix = length s /\ forall m, m < length s -> nth m ix 0 < nth m s 0.
Proof.
  split.
  - intros H. induction H as [|a b l l' Hab _ [IH1 IH2]]; [split; [reflexivity|cbn; lia]|]. split; [cbn; lia|].
    intros [|m] Hm; [exact Hab|]. apply IH2. cbn in Hm. lia.
  - revert s. induction ix as [|a ix IH]; intros [|b s] [H1 H2]; cbn in H1; try discriminate; [constructor|].
    constructor; [apply (H2 0); cbn; lia|]. apply IH. split; [lia|]. intros m Hm. apply (H2 (S m)). cbn; lia.
Qed.
Lemma exchange_lt i j m n : i < n -> j < n -> m < n -> exchange i j m < n.
Proof. unfold exchange. destruct (Nat.eqb m i), (Nat.eqb m j); lia. Qed.
Lemma inr_exchanged i j ix s : i < length s -> j < length s -> inr ix s -> inr (exchanged i j ix) (exchanged i j s).
Proof.
  intros Hi Hj H. apply inr_nth in H as [H1 H2]. apply inr_nth. rewrite !exchanged_len. split; [exact H1|].
  intros m Hm. rewrite !nth_exchanged, H1. destruct (Nat.ltb_spec m (length s)); [|lia]. apply H2, exchange_lt; assumption.
Qed.
Ltac dm := repeat match goal with
  | |- context [Nat.eqb ?a ?b] => is_var a; is_var b; destruct (Nat.eqb_spec a b)
  | |- context [Nat.ltb ?a (length ?b)] => is_var a; destruct (Nat.ltb_spec a (length b)) end.
Lemma exchanged2 i j l : i < length l -> j < length l -> exchanged i j (exchanged i j l) = l.
Proof.
  intros Hi Hj. apply nth_eq; rewrite !exchanged_len; [reflexivity|]. intros m Hm. rewrite !nth_exchanged, exchanged_len. unfold exchange.
  dm; subst; try lia; reflexivity.
Qed.
Lemma exchanged_put i j v l : i < length l -> j < length l -> exchanged i j (put j v (exchanged i j l)) = put i v l.
Proof.
  intros Hi Hj. assert (L : j < length (exchanged i j l)) by (rewrite exchanged_len; exact Hj).
  apply nth_eq; rewrite ?exchanged_len, ?put_len, ?exchanged_len; auto. intros m Hm.
  rewrite nth_exchanged, put_len, exchanged_len by exact L. unfold exchange.
  rewrite nth_put by exact L. rewrite nth_exchanged, nth_put by exact Hi. unfold exchange.
  dm; subst; try lia; reflexivity.
Qed.
Lemma exchanged_put' i j v l : i < length l -> j < length l -> put j v (exchanged i j l) = exchanged i j (put i v l).
Proof. intros Hi Hj. rewrite <- (exchanged_put i j v l) by assumption. rewrite exchanged2; [reflexivity| |]; rewrite put_len, exchanged_len; rewrite ?exchanged_len; assumption. Qed.

Section P.
Context {K : Type} {SC : Scal K}.

Lemma flinear_eq cin cout w b (x : tens K) : sh x <> [] ->
  flinear cin cout w b x =
  let k := length (sh x) - 1 in
  if Nat.eqb (nth k (sh x) 0) cin then Ok (T (put k cout (sh x)) (tab (put k cout (sh x)) (lin_at k cin cout w b x))) else Err RuntimeError.
Proof.
  intros Hn. cbv zeta. unfold flinear. destruct (sh x) as [|a r] eqn:E; [congruence|]. rewrite <- E in *. rewrite last_nth'.
  destruct Nat.eqb; [|reflexivity]. rewrite relast by exact Hn. f_equal. f_equal. apply tab_ext. intros ix Hix.
  assert (Hl : 0 < length (sh x)) by (destruct (sh x); [congruence|cbn; lia]).
  assert (L : length ix = length (sh x)) by (apply inr_nth in Hix as [-> _]; apply put_len; lia).
  unfold lin_at. rewrite last_nth', L. f_equal. f_equal. apply map_ext. intros i. f_equal. f_equal. f_equal.
  rewrite relast by (destruct ix; [cbn in L; lia|discriminate]). rewrite L. reflexivity.
Qed.

Lemma axis_lt n d k : 1 <= n -> axis n d = Ok k -> k < n.
Proof. intros Hn. unfold axis. rewrite Nat.max_r by exact Hn. cbv zeta. destruct (_ && _) eqn:E; [|discriminate]. intros [= <-]. destruct (Z.ltb d 0) eqn:E2; lia. Qed.
Lemma axis_last n : 1 <= n -> axis n (-1) = Ok (n - 1).
Proof. intros Hn. unfold axis. rewrite Nat.max_r by exact Hn. cbv zeta. destruct (_ && _) eqn:E; [|lia]. cbn [Z.ltb Z.compare]. f_equal. lia. Qed.

Theorem linear_axis d k cin cout w b (x : tens K) : sh x <> [] -> axis (length (sh x)) d = Ok k ->
  tl_forward d cin cout w b x =
  if Nat.eqb (nth k (sh x) 0) cin then Ok (T (put k cout (sh x)) (tab (put k cout (sh x)) (lin_at k cin cout w b x))) else Err RuntimeError.
Proof.
  intros Hn Hk. assert (Hl : 1 <= length (sh x)) by (destruct (sh x); [congruence|cbn; lia]).
  pose proof (axis_lt _ _ _ Hl Hk) as Hlt. unfold tl_forward. destruct (Z.eqb_spec d (-1)) as [->|Hd].
  - cbn [bind]. rewrite flinear_eq by exact Hn. rewrite axis_last in Hk by exact Hl. injection Hk as <-. cbv zeta.
    destruct Nat.eqb; reflexivity.
  - unfold swapaxes at 1. rewrite Hk, axis_last by exact Hl. cbn [bind].
    set (j := length (sh x) - 1). assert (Hj : j < length (sh x)) by (unfold j; lia).
    rewrite flinear_eq by (cbn [sh]; intros E; apply (f_equal (@length _)) in E; rewrite exchanged_len in E; cbn in E; lia).
    cbn [sh dat]. rewrite exchanged_len. fold j. cbv zeta. rewrite nth_exchanged. destruct (Nat.ltb_spec j (length (sh x))); [|lia].
    assert (exchange k j j = k) as -> by (unfold exchange; dm; subst; lia).
    destruct (Nat.eqb_spec (nth k (sh x) 0) cin) as [Hc|]; [|reflexivity]. cbn [bind].
    unfold swapaxes. cbn [sh dat]. rewrite put_len, exchanged_len by (rewrite exchanged_len; exact Hj).
    rewrite Hk, axis_last by exact Hl. cbn [bind]. fold j. rewrite exchanged_put by assumption. f_equal. f_equal.
    apply tab_ext. intros ix Hix. assert (L : length ix = length (sh x)) by (apply inr_nth in Hix as [-> _]; apply put_len; exact Hlt).
    rewrite at_tab_in.
    2:{ rewrite exchanged_put' by assumption. apply inr_exchanged; rewrite ?put_len; assumption. }
    unfold lin_at. cbn [sh dat]. rewrite nth_exchanged, L. destruct (Nat.ltb_spec j (length (sh x))); [|lia].
    assert (exchange k j j = k) as -> by (unfold exchange; dm; subst; lia).
    f_equal. f_equal. apply map_ext_seq. intros i Hi. f_equal. rewrite exchanged_put' by (rewrite L; assumption).
    rewrite at_tab_in.
    + rewrite exchanged2 by (rewrite put_len; rewrite L; assumption). reflexivity.
    + apply inr_exchanged; [assumption|assumption|]. apply inr_nth in Hix as [_ H2]. apply inr_nth. rewrite put_len by (rewrite L; exact Hlt). split; [exact L|].
      intros m Hm. rewrite nth_put by (rewrite L; exact Hlt). specialize (H2 m). rewrite put_len, nth_put in H2 by exact Hlt. destruct (Nat.eqb_spec m k); [subst; lia|]. apply H2. exact Hm.
Qed.
Theorem linear_no_axis d cin cout w b (x : tens K) : axis (length (sh x)) d = Err IndexError ->
  tl_forward d cin cout w b x = Err IndexError.
Proof.
  intros H. unfold tl_forward. destruct (Z.eqb_spec d (-1)) as [->|Hd].
  - exfalso. revert H. unfold axis. destruct (_ && _) eqn:E; [discriminate|]. lia.
  - unfold swapaxes. rewrite H. reflexivity.
Qed.
Theorem linear_scalar d cin cout w b (x : tens K) : sh x = [] ->
  tl_forward d cin cout w b x = if Z.eqb d (-1) || Z.eqb d 0 then Err RuntimeError else Err IndexError.
Proof.
  intros E. unfold tl_forward. destruct (Z.eqb_spec d (-1)) as [->|Hd]; cbn [orb].
  - cbn [bind]. unfold flinear. rewrite E. reflexivity.
  - unfold swapaxes. rewrite E. cbn [length]. destruct (Z.eqb_spec d 0) as [->|H0].
    + reflexivity.
    + unfold axis at 1. destruct (_ && _) eqn:E2; [lia|]. reflexivity.
Qed.
End P.
