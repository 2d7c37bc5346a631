(** Lemmas about tensors. *)
From Coq Require Import List ZArith Bool Arith Lia.
From Verif Require Import Base Frames Tensor.
Import ListNotations.

Lemma map_ext_seq {A} (f g : nat -> A) a n : (forall i, a <= i < a + n -> f i = g i) -> map f (seq a n) = map g (seq a n).
Proof. intros H. apply map_ext_in. intros i Hi. apply in_seq in Hi. apply H. lia. Qed.

Definition inr (ix sh : list nat) : Prop := Forall2 lt ix sh.
Fixpoint inside (sh : list nat) (ix : list Z) : bool :=
  match sh, ix with
  | [], [] => true
  | n :: r, i :: ix' => (Z.leb 0 i && Z.ltb i (Z.of_nat n)) && inside r ix'
  | _, _ => false
  end.

Section P.
Context {K : Type}.

Lemma flat_map_ext_in {A B} (f g : A -> list B) l : (forall a, In a l -> f a = g a) -> flat_map f l = flat_map g l.
Proof. induction l as [|a l IH]; intros H; [reflexivity|]. cbn. rewrite H by (left; reflexivity). f_equal. apply IH. intros. apply H. right. assumption. Qed.
Lemma tab_ext sh : forall f g : list nat -> K, (forall ix, inr ix sh -> f ix = g ix) -> tab sh f = tab sh g.
Proof.
  induction sh as [|n r IH]; intros f g H; cbn.
  - rewrite H; [reflexivity|constructor].
  - apply flat_map_ext_in. intros i Hi. apply in_seq in Hi. apply IH. intros ix Hx. apply H. constructor; [lia|exact Hx].
Qed.
Lemma flat_map_len {A} (g : nat -> list A) m n : forall a, (forall i, length (g i) = m) -> length (flat_map g (seq a n)) = n * m.
Proof. induction n as [|n IH]; intros a H; cbn; [reflexivity|]. rewrite app_length, H, IH by exact H. reflexivity. Qed.
Lemma tab_len sh : forall f : list nat -> K, length (tab sh f) = size sh.
Proof.
  induction sh as [|n r IH]; intros f; cbn; [reflexivity|].
  rewrite (flat_map_len _ (size r)); [reflexivity|]. intros. apply IH.
Qed.
Lemma flat_map_nth {A} (g : nat -> list A) d m : (forall i, length (g i) = m) ->
  forall n a i o, i < n -> o < m -> nth (i * m + o) (flat_map g (seq a n)) d = nth o (g (a + i)) d.
Proof.
  intros H. induction n as [|n IH]; intros a i o Hi Ho; [lia|]. cbn [seq flat_map]. destruct i as [|i].
  - cbn [Nat.mul Nat.add]. rewrite app_nth1 by (rewrite H; lia). rewrite Nat.add_0_r. reflexivity.
  - rewrite app_nth2 by (rewrite H; cbn; lia). rewrite H. replace (S i * m + o - m) with (i * m + o) by (cbn; lia).
    rewrite IH by lia. f_equal. f_equal. lia.
Qed.
Lemma offset_inside sh : forall ix, offset sh ix = None <-> inside sh ix = false.
Proof.
  induction sh as [|n r IH]; intros [|i ix]; cbn; try (split; congruence).
  destruct (Z.leb 0 i && Z.ltb i (Z.of_nat n)) eqn:E; cbn; [|tauto].
  rewrite <- IH. destruct (offset r ix); cbn; split; congruence.
Qed.
Lemma offset_lt sh : forall ix o, offset sh ix = Some o -> o < size sh.
Proof.
  induction sh as [|n r IH]; intros [|i ix] o; cbn; try discriminate.
  - intros [= <-]. lia.
  - destruct (Z.leb 0 i && Z.ltb i (Z.of_nat n)) eqn:E; [|discriminate].
    destruct (offset r ix) eqn:Eo; [|discriminate]. cbn. intros [= <-]. specialize (IH _ _ Eo).
    apply andb_true_iff in E as [E1 E2]. apply Z.leb_le in E1. apply Z.ltb_lt in E2.
    assert (Z.to_nat i < n) by lia. fold (size r). nia.
Qed.
Lemma offset_nth sh : forall (f : list nat -> K) ix o d, offset sh ix = Some o -> nth o (tab sh f) d = f (map Z.to_nat ix).
Proof.
  induction sh as [|n r IH]; intros f [|i ix] o d; cbn; try discriminate.
  - intros [= <-]. reflexivity.
  - destruct (Z.leb 0 i && Z.ltb i (Z.of_nat n)) eqn:E; [|discriminate].
    destruct (offset r ix) eqn:Eo; [|discriminate]. cbn. intros [= <-].
    apply andb_true_iff in E as [E1 E2]. apply Z.leb_le in E1. apply Z.ltb_lt in E2.
    rewrite (flat_map_nth (fun i => tab r (fun ix => f (i :: ix))) d (size r)).
    + cbn. rewrite (IH _ _ _ _ Eo). reflexivity.
    + intros. apply tab_len.
    + lia.
    + eapply offset_lt; eauto.
Qed.
Lemma inside_nat sh : forall ix, inr ix sh -> inside sh (map Z.of_nat ix) = true.
Proof.
  intros ix H. induction H as [|i n ix r Hi _ IH]; [reflexivity|]. cbn. rewrite IH, andb_true_r.
  apply andb_true_iff. split; [apply Z.leb_le|apply Z.ltb_lt]; lia.
Qed.
Lemma inside_inr sh : forall ix, inside sh ix = true -> inr (map Z.to_nat ix) sh.
Proof.
  induction sh as [|n r IH]; intros [|i ix]; cbn; try discriminate; intros H; [constructor|].
  apply andb_true_iff in H as [H1 H2]. apply andb_true_iff in H1 as [H1 H3].
  apply Z.leb_le in H1. apply Z.ltb_lt in H3. constructor; [lia|]. apply IH. exact H2.
Qed.
Lemma to_of ix : map Z.to_nat (map Z.of_nat ix) = ix.
Proof. induction ix as [|i ix IH]; cbn; [reflexivity|]. rewrite Nat2Z.id, IH. reflexivity. Qed.
Lemma of_to sh : forall ix, inside sh ix = true -> map Z.of_nat (map Z.to_nat ix) = ix.
Proof.
  induction sh as [|n r IH]; intros [|i ix]; cbn; try discriminate; intros H; [reflexivity|].
  apply andb_true_iff in H as [H1 H2]. apply andb_true_iff in H1 as [H1 H3]. apply Z.leb_le in H1.
  rewrite IH by exact H2. f_equal. lia.
Qed.
Lemma inside_len sh : forall ix, inside sh ix = true -> length ix = length sh.
Proof.
  induction sh as [|n r IH]; intros [|i ix]; cbn; try discriminate; intros H; [reflexivity|].
  apply andb_true_iff in H as [_ H]. f_equal. apply IH. exact H.
Qed.

Context {SC : Scal K} {SL : ScalLaws K}.
Lemma at_tab sh (f : list nat -> K) ix : at_ sh (tab sh f) ix = if inside sh ix then f (map Z.to_nat ix) else s0.
Proof.
  unfold at_. destruct (offset sh ix) eqn:E.
  - rewrite (offset_nth _ _ _ _ _ E). destruct (inside sh ix) eqn:E2; [reflexivity|].
    apply offset_inside in E2. congruence.
  - apply offset_inside in E. rewrite E. reflexivity.
Qed.
Lemma at_tab_in sh (f : list nat -> K) ix : inr ix sh -> at_ sh (tab sh f) (map Z.of_nat ix) = f ix.
Proof. intros H. rewrite at_tab, inside_nat by exact H. rewrite to_of. reflexivity. Qed.
Lemma at_out sh x ix : inside sh ix = false -> at_ sh x ix = s0.
Proof. intros H. unfold at_. apply offset_inside in H. rewrite H. reflexivity. Qed.
Lemma at_zeros sh n ix : at_ sh (repeat s0 n) ix = s0.
Proof. unfold at_. destruct (offset sh ix); [apply nth_repeat|reflexivity]. Qed.

Lemma unoffset sh : forall i, i < size sh -> exists ix, inr ix sh /\ offset sh (map Z.of_nat ix) = Some i.
Proof.
  induction sh as [|n r IH]; intros i Hi.
  - cbn in Hi. exists []. split; [constructor|]. cbn. f_equal. lia.
  - cbn in Hi. fold (size r) in Hi. assert (size r <> 0) by nia.
    destruct (IH (i mod size r)) as (ix & H1 & H2); [apply Nat.mod_upper_bound; assumption|].
    assert (i / size r < n) by (apply Nat.div_lt_upper_bound; [assumption|lia]).
    exists (i / size r :: ix). split; [constructor; assumption|]. cbn [map offset].
    assert (Z.leb 0 (Z.of_nat (i / size r)) && Z.ltb (Z.of_nat (i / size r)) (Z.of_nat n) = true) as ->.
    { apply andb_true_iff. split; [apply Z.leb_le|apply Z.ltb_lt]; lia. }
    rewrite H2. cbn. rewrite Nat2Z.id. f_equal. pose proof (Nat.div_mod i (size r) H). lia.
Qed.
Lemma tab_at sh x : length x = size sh -> tab sh (fun ix => at_ sh x (map Z.of_nat ix)) = x.
Proof.
  intros H. apply nth_ext with (d := s0) (d' := s0); rewrite tab_len; [symmetry; exact H|].
  intros i Hi. destruct (unoffset _ _ Hi) as (ix & H1 & H2).
  rewrite (offset_nth _ _ _ _ _ H2), to_of. unfold at_. rewrite H2. reflexivity.
Qed.
Lemma at_ext sh x y : length x = size sh -> length y = size sh ->
  (forall ix, inr ix sh -> at_ sh x (map Z.of_nat ix) = at_ sh y (map Z.of_nat ix)) -> x = y.
Proof. intros Hx Hy H. rewrite <- (tab_at sh x Hx), <- (tab_at sh y Hy). apply tab_ext. exact H. Qed.

(** Sums. *)
Lemma sadd_0_r a : sadd a s0 = a.
Proof. rewrite sadd_comm. apply sadd_0_l. Qed.
Lemma ksum_app a b : ksum (a ++ b) = sadd (ksum a) (ksum b).
Proof. induction a as [|x a IH]; cbn; [rewrite sadd_0_l; reflexivity|]. fold (ksum (a ++ b)). rewrite IH, sadd_assoc. reflexivity. Qed.
Lemma ksum_flat {A} (g : A -> list K) l : ksum (flat_map g l) = ksum (map (fun a => ksum (g a)) l).
Proof. induction l as [|a l IH]; [reflexivity|]. cbn [flat_map map]. rewrite ksum_app, IH. reflexivity. Qed.
Lemma sadd_swap a b c d : sadd (sadd a b) (sadd c d) = sadd (sadd a c) (sadd b d).
Proof. rewrite <- !sadd_assoc. f_equal. rewrite !sadd_assoc. f_equal. apply sadd_comm. Qed.
Lemma ksum_add {A} (f g : A -> K) l : ksum (map (fun a => sadd (f a) (g a)) l) = sadd (ksum (map f l)) (ksum (map g l)).
Proof. induction l as [|a l IH]; cbn; [rewrite sadd_0_l; reflexivity|]. fold (ksum (map (fun a => sadd (f a) (g a)) l)). rewrite IH. apply sadd_swap. Qed.
Lemma ksum_zero {A} (f : A -> K) l : (forall a, In a l -> f a = s0) -> ksum (map f l) = s0.
Proof. induction l as [|a l IH]; intros H; [reflexivity|]. cbn. fold (ksum (map f l)). rewrite H by (left; reflexivity). rewrite sadd_0_l. apply IH. intros. apply H. right. assumption. Qed.
Lemma ksum_swap {A B} (f : A -> B -> K) l m :
  ksum (map (fun a => ksum (map (f a) m)) l) = ksum (map (fun b => ksum (map (fun a => f a b) l)) m).
Proof.
  induction l as [|a l IH]; cbn.
  - symmetry. apply ksum_zero. reflexivity.
  - fold (ksum (map (fun a => ksum (map (f a) m)) l)). rewrite IH. rewrite <- ksum_add. reflexivity.
Qed.
Lemma ksum_tab n r (f : list nat -> K) : ksum (tab (n :: r) f) = ksum (map (fun i => ksum (tab r (fun ix => f (i :: ix)))) (seq 0 n)).
Proof. cbn [tab]. apply ksum_flat. Qed.
(** Move the second index outside. *)
Lemma ksum_tab2 n m r (f : list nat -> K) :
  ksum (tab (n :: m :: r) f) =
  ksum (map (fun i => ksum (tab (n :: r) (fun ix => match ix with c :: k => f (c :: i :: k) | _ => s0 end))) (seq 0 m)).
Proof.
  rewrite ksum_tab. erewrite map_ext by (intros; apply ksum_tab). rewrite ksum_swap.
  apply f_equal, map_ext. intros i. rewrite ksum_tab. reflexivity.
Qed.
Lemma ksum_tab_ext sh (f g : list nat -> K) : (forall ix, inr ix sh -> f ix = g ix) -> ksum (tab sh f) = ksum (tab sh g).
Proof. intros H. f_equal. apply tab_ext. exact H. Qed.

Lemma zadd_nil_r a : zadd a [] = a.
Proof. destruct a; reflexivity. Qed.
Lemma zadd_app a b c d : length a = length c -> zadd (a ++ b) (c ++ d) = zadd a c ++ zadd b d.
Proof. revert c. induction a as [|x a IH]; intros [|y c] H; try discriminate; [reflexivity|]. cbn. f_equal. apply IH. injection H as H. exact H. Qed.
Lemma zadd_tab sh : forall f g : list nat -> K, zadd (tab sh f) (tab sh g) = tab sh (fun ix => sadd (f ix) (g ix)).
Proof.
  induction sh as [|n r IH]; intros f g; [reflexivity|]. cbn [tab]. generalize 0. induction n as [|n IHn]; intros a; [reflexivity|].
  cbn [seq flat_map]. rewrite zadd_app by (rewrite !tab_len; reflexivity). rewrite IH, IHn. reflexivity.
Qed.
Lemma zadd_comm a b : zadd a b = zadd b a.
Proof. revert b. induction a as [|x a IH]; intros [|y b]; try reflexivity. cbn. rewrite sadd_comm, IH. reflexivity. Qed.
Lemma zadd_assoc a b c : zadd a (zadd b c) = zadd (zadd a b) c.
Proof. revert b c. induction a as [|x a IH]; intros [|y b] [|z c]; try reflexivity. cbn. rewrite sadd_assoc, IH. reflexivity. Qed.
Lemma zadd_zeros x n : length x = n -> zadd x (repeat s0 n) = x.
Proof. intros <-. induction x as [|a x IH]; [reflexivity|]. cbn. rewrite sadd_0_r, IH. reflexivity. Qed.
Lemma zadd_len a b : length a = length b -> length (zadd a b) = length a.
Proof. revert b. induction a as [|x a IH]; intros [|y b] H; try discriminate; [reflexivity|]. cbn. f_equal. apply IH. injection H as H. exact H. Qed.
Lemma zlike_repeat x : zlike x = repeat s0 (length x).
Proof. induction x as [|a x IH]; [reflexivity|]. cbn. f_equal. exact IH. Qed.
Lemma tab_zero sh : forall f : list nat -> K, (forall ix, inr ix sh -> f ix = s0) -> tab sh f = repeat s0 (size sh).
Proof.
  intros f H. rewrite (tab_ext sh f (fun _ => s0)) by exact H. clear. induction sh as [|n r IH]; [reflexivity|].
  cbn [tab size fold_right]. fold (size r). generalize 0. induction n as [|n IHn]; intros a; [reflexivity|]. cbn [seq flat_map Nat.mul].
  rewrite repeat_app. f_equal; [exact IH|apply IHn].
Qed.
End P.

(** Tensors of all shapes as frames; the empty list stands for the zeros of any
    shape.  Used only to apply the theorems about abstract frames. *)
#[export] Instance tensor_frames (K : Type) (SC : Scal K) : Frames (list K) := {|
  f0 := []; finf := []; fadd := zadd
|}.
#[export] Instance tensor_laws (K : Type) (SC : Scal K) (SL : ScalLaws K) : FrameLaws (list K) := {|
  fadd_comm := zadd_comm; fadd_assoc := zadd_assoc; fadd_0_l := fun a => eq_refl
|}.
