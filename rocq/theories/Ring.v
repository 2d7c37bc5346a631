(** Ring buffers: content after n writes at index (n mod N). *)
From Coq Require Import List ZArith Bool Arith Lia Permutation ZifyBool ZifyNat.
From Verif Require Import Base.
Import ListNotations.
Ltac Zify.zify_post_hook ::= Z.div_mod_to_equations.

Lemma nth_error_set_nth {A} (l : list A) i a j :
  (i < length l)%nat ->
  nth_error (set_nth l i a) j = if Nat.eqb i j then Some a else nth_error l j.
Proof.
  revert i j; induction l as [|x l IH]; simpl; intros i j Hi; [lia|].
  destruct i, j; simpl; try reflexivity.
  rewrite IH by lia. reflexivity.
Qed.

Lemma length_set_nth {A} (l : list A) i a : length (set_nth l i a) = length l.
Proof. revert i; induction l; intros [|i]; simpl; auto. Qed.

Lemma nth_error_ext {A} (l l' : list A) :
  (forall j, nth_error l j = nth_error l' j) -> l = l'.
Proof.
  revert l'; induction l as [|x l IH]; intros [|y l'] H; auto.
  - specialize (H 0%nat); discriminate.
  - specialize (H 0%nat); discriminate.
  - pose proof (H 0%nat) as H0; simpl in H0; injection H0 as ->.
    f_equal. apply IH. intros j. exact (H (S j)).
Qed.

Lemma nth_error_map_seq {A} (f : nat -> A) a n j :
  nth_error (map f (seq a n)) j = if Nat.ltb j n then Some (f (a + j)%nat) else None.
Proof.
  destruct (Nat.ltb j n) eqn:E.
  - apply map_nth_error. 
    rewrite nth_error_nth' with (d := 0%nat) by (rewrite seq_length; lia).
    rewrite seq_nth by lia. reflexivity.
  - apply nth_error_None. rewrite map_length, seq_length. lia.
Qed.

Lemma setz_ok {A} (l : list A) i a :
  (0 <= i < Z.of_nat (length l))%Z -> setz l i a = Ok (set_nth l (Z.to_nat i) a).
Proof.
  intros H. unfold setz.
  replace (Z.ltb i 0) with false by lia.
  replace (Nat.ltb (Z.to_nat i) (length l)) with true by lia. reflexivity.
Qed.

Lemma getz_nth {A} (l : list A) i (d : A) :
  (0 <= i < Z.of_nat (length l))%Z -> getz l i = Ok (nth (Z.to_nat i) l d).
Proof.
  intros H. unfold getz. replace (Z.ltb i 0) with false by lia.
  rewrite nth_error_nth' with (d := d) by lia. reflexivity.
Qed.

Lemma mapM_ok {A B} (f : A -> res B) (g : A -> B) l :
  (forall a, In a l -> f a = Ok (g a)) -> mapM f l = Ok (map g l).
Proof.
  induction l as [|a l IH]; simpl; intros H; auto.
  rewrite H by auto. simpl. rewrite IH by (intros; apply H; auto). reflexivity.
Qed.

Section Ring.
Context {B : Type}.
Open Scope Z_scope.

Definition ring (N : nat) (h : Z -> B) (n : Z) : list B :=
  map (fun j => h (n - Z.of_nat N + ((Z.of_nat j - n) mod Z.of_nat N))) (seq 0 N).

Lemma ring_length N h n : length (ring N h n) = N.
Proof. unfold ring. now rewrite map_length, seq_length. Qed.

Lemma ring_init N h v : (forall z, z < 0 -> h z = v) -> ring N h 0 = repeat v N.
Proof.
  intros H. unfold ring.
  transitivity (map (fun _ : nat => v) (seq 0 N)).
  - apply map_ext_in. intros j Hj%in_seq. apply H.
    rewrite Z.sub_0_r, Z.mod_small by lia. lia.
  - clear H. generalize 0%nat. induction N; simpl; intros; auto. now rewrite IHN.
Qed.

Lemma mod_shift_unique n m j N :
  0 < N -> 0 <= j < N -> 0 <= m < N -> (m + n) mod N = j -> (j - n) mod N = m.
Proof.
  intros HN Hj Hm E. rewrite <- E.
  rewrite Zminus_mod_idemp_l. replace (m + n - n) with m by lia.
  apply Z.mod_small; lia.
Qed.

Lemma ring_get N h n m :
  (0 < N)%nat -> 0 <= m < Z.of_nat N ->
  getz (ring N h n) ((m + n) mod Z.of_nat N) = Ok (h (n - Z.of_nat N + m)).
Proof.
  intros HN Hm. unfold getz.
  assert (0 <= (m + n) mod Z.of_nat N < Z.of_nat N) by (apply Z.mod_pos_bound; lia).
  replace (Z.ltb ((m + n) mod Z.of_nat N) 0) with false by lia.
  unfold ring. rewrite nth_error_map_seq.
  replace (Nat.ltb _ _) with true by lia.
  do 2 f_equal. f_equal. rewrite Nat.add_0_l, Z2Nat.id by lia.
  apply mod_shift_unique with (N := Z.of_nat N); lia.
Qed.

Lemma ring_set N h n v :
  (0 < N)%nat -> v = h n ->
  setz (ring N h n) (n mod Z.of_nat N) v = Ok (ring N h (n + 1)).
Proof.
  intros HN ->.
  assert (0 <= n mod Z.of_nat N < Z.of_nat N) by (apply Z.mod_pos_bound; lia).
  rewrite setz_ok by (rewrite ring_length; lia). f_equal.
  apply nth_error_ext. intros j.
  rewrite nth_error_set_nth by (rewrite ring_length; lia).
  unfold ring. rewrite !nth_error_map_seq, !Nat.add_0_l.
  destruct (Nat.eqb _ j) eqn:E.
  - replace (Nat.ltb j N) with true by lia. f_equal. f_equal.
    assert (Z.of_nat j = n mod Z.of_nat N) as -> by lia.
    rewrite Zminus_mod_idemp_l. replace (n - (n + 1)) with (-1) by lia.
    replace ((-1) mod Z.of_nat N) with (Z.of_nat N - 1); [lia|].
    apply Z.mod_unique_pos with (q := -1); lia.
  - destruct (Nat.ltb j N) eqn:E2; auto. f_equal. f_equal.
    assert (0 <= (Z.of_nat j - n) mod Z.of_nat N < Z.of_nat N) by (apply Z.mod_pos_bound; lia).
    assert ((Z.of_nat j - n) mod Z.of_nat N <> 0).
    { intros Hz. apply Z.mod_divide in Hz; [|lia]. destruct Hz as [q Hq].
      assert (n mod Z.of_nat N = Z.of_nat j).
      { symmetry. apply Z.mod_unique_pos with (q := - q); lia. }
      lia. }
    assert ((Z.of_nat j - (n + 1)) mod Z.of_nat N = (Z.of_nat j - n) mod Z.of_nat N - 1).
    { symmetry. 
      apply Z.mod_unique_pos with (q := (Z.of_nat j - n) / Z.of_nat N); [lia|].
      pose proof (Z.div_mod (Z.of_nat j - n) (Z.of_nat N)). lia. }
    lia.
Qed.

Lemma mod_sub_mod a N : 0 < N -> (a - N) mod N = a mod N.
Proof.
  intros. replace (a - N) with (a + (-1) * N) by lia. apply Z.mod_add. lia.
Qed.

Lemma ring_perm N h n :
  (0 < N)%nat ->
  Permutation (ring N h n) (map (fun i => h (n - Z.of_nat N + Z.of_nat i)) (seq 0 N)).
Proof.
  intros HN.
  transitivity (map (fun i => h (n - Z.of_nat N + Z.of_nat i))
     (map (fun j => Z.to_nat ((Z.of_nat j - n) mod Z.of_nat N)) (seq 0 N))).
  - rewrite map_map. unfold ring.
    replace (map _ (seq 0 N)) with
     (map (fun x : nat => h (n - Z.of_nat N + Z.of_nat (Z.to_nat ((Z.of_nat x - n) mod Z.of_nat N)))) (seq 0 N)); [reflexivity|].
    apply map_ext. intros j. f_equal. rewrite Z2Nat.id; auto. apply Z.mod_pos_bound; lia.
  - apply Permutation_map. apply NoDup_Permutation_bis.
    + apply NoDup_nth_error. rewrite map_length, seq_length. intros i j Hi.
      rewrite !nth_error_map_seq. replace (Nat.ltb i N) with true by lia. simpl.
      destruct (Nat.ltb j N) eqn:Ej; [|discriminate]. intros [= E].
      assert (0 <= (Z.of_nat i - n) mod Z.of_nat N < Z.of_nat N) by (apply Z.mod_pos_bound; lia).
      assert (0 <= (Z.of_nat j - n) mod Z.of_nat N < Z.of_nat N) by (apply Z.mod_pos_bound; lia).
      assert (E' : (Z.of_nat i - n) mod Z.of_nat N = (Z.of_nat j - n) mod Z.of_nat N) by lia.
      pose proof (Z.div_mod (Z.of_nat i - n) (Z.of_nat N)) as D1.
      pose proof (Z.div_mod (Z.of_nat j - n) (Z.of_nat N)) as D2.
      set (qi := (Z.of_nat i - n) / Z.of_nat N) in *.
      set (qj := (Z.of_nat j - n) / Z.of_nat N) in *.
      assert (Z.of_nat i - Z.of_nat j = Z.of_nat N * (qi - qj)) by lia.
      assert (qi - qj = 0) by nia. lia.
    + rewrite map_length. lia.
    + intros x Hx. apply in_map_iff in Hx as (j & <- & Hj). apply in_seq.
      assert (0 <= (Z.of_nat j - n) mod Z.of_nat N < Z.of_nat N) by (apply Z.mod_pos_bound; lia).
      lia.
Qed.

End Ring.
