(** Proofs for C68: what a step of a convolution or a pooling computes, without
    any law of arithmetic. *)
From Coq Require Import List ZArith Bool Arith Lia ZifyBool ZifyNat.
From Verif Require Import Base Frames CoMod Leaf Spec LeafSpec Ring LeafProof Rnn Net NetSpec Batch FloatSpec.
Import ListNotations.

Section ConvF.
Context {F : Type} {FA : Frames F}.

Definition lrow (c : conv_cfg F) (f : nat -> F) : list F := map (fun j => f (ck c - 2 - j)) (seq 0 (ck c - 1)).

Lemma xcorr_lawfree c x : 2 <= ck c ->
  xcorr (cW c) None (ck c) 1 (repeat f0 (ck c - 1) ++ [x] ++ repeat f0 (ck c - 1))
  = Ok (tap c (ck c - 1) x :: lrow c (fun m => tap c m x)).
Proof.
  intros Hk. unfold xcorr. rewrite !app_length, !repeat_length. replace (length [x]) with 1 by reflexivity.
  replace (Nat.ltb _ _) with false by lia. f_equal. rewrite Nat.div_1_r.
  replace (ck c - 1 + (1 + (ck c - 1)) - ck c + 1) with (1 + (ck c - 1)) by lia.
  rewrite seq_app, map_app. cbn [seq map app add_bias].
  change (x :: repeat f0 (ck c - 1)) with ([x] ++ repeat f0 (ck c - 1)). f_equal.
  - unfold tap. f_equal. apply map_ext_in. intros i Hi%in_seq. f_equal. rewrite (nth_pads x) by lia.
    replace (0 * 1 + i =? ck c - 1) with (i =? ck c - 1) by lia. reflexivity.
  - unfold lrow. change (0 + 1) with 1. rewrite <- seq_shift, map_map. apply map_ext_in. intros j Hj%in_seq.
    unfold tap. f_equal. apply map_ext_in. intros i Hi%in_seq. f_equal. rewrite (nth_pads x) by lia.
    replace (S j * 1 + i =? ck c - 1) with (i =? ck c - 2 - j) by lia. reflexivity.
Qed.

Lemma lrow_get c f m : m < ck c - 1 -> getz (lrow c f) (Z.of_nat (ck c - 1 - 1 - m)) = Ok (f m).
Proof.
  intros Hm. unfold getz. replace (Z.ltb _ _) with false by lia. unfold lrow. rewrite nth_error_map_seq, Nat2Z.id.
  replace (Nat.ltb _ _) with true by lia. do 2 f_equal. lia.
Qed.

Definition lstate (c : conv_cfg F) (xs : list F) (n : nat) : obj (list F) :=
  Obj (ring (ck c - 1) (fun z => lrow c (fun m => stored c xs m z)) (Z.of_nat n))
      (Z.of_nat n mod Z.of_nat (ck c - 1))
      (str_at (Z.of_nat (cs c) - Z.of_nat (ck c) + Z.of_nat (cp c)) (cs c) n).

Definition lout (c : conv_cfg F) (xs : list F) (n : nat) : option F :=
  if emits (ck c - 1 - cp c) (cs c) n then Some (conv_value c xs n) else None.

Lemma lgather c xs n : 2 <= ck c ->
  conv_gather (ring (ck c - 1) (fun z => lrow c (fun m => stored c xs m z)) (Z.of_nat n)) (Z.of_nat n mod Z.of_nat (ck c - 1)) (ck c - 1)
  = Ok (map (fun m => stored c xs m (Z.of_nat n - Z.of_nat (ck c - 1) + Z.of_nat m)%Z) (seq 0 (ck c - 1))).
Proof.
  intros Hk. unfold conv_gather. apply mapM_ok. intros m Hm%in_seq. rewrite Zplus_mod_idemp_r, ring_get by lia.
  cbn [bind]. rewrite lrow_get by lia. reflexivity.
Qed.

Lemma lstep c xs n : 2 <= ck c -> 1 <= cs c -> cp c <= ck c - 1 ->
  conv_fstep c (nth n xs f0) (Some (lstate c xs n)) = Ok (lout c xs n, Some (lstate c xs (S n))).
Proof.
  intros Hk Hs Hp. unfold conv_fstep.
  assert (Es : conv_stateless c = false) by (unfold conv_stateless; lia). rewrite Es. simpl pad_time. simpl bind.
  change (repeat f0 (ck c - 1) ++ nth n xs f0 :: repeat f0 (ck c - 1))
   with (repeat f0 (ck c - 1) ++ [nth n xs f0] ++ repeat f0 (ck c - 1)).
  rewrite xcorr_lawfree by auto. unfold getz at 1. cbn [Z.ltb Z.compare Z.to_nat nth_error bind skipn o_buf o_idx o_str lstate].
  replace (Z.of_nat (cs c) - Z.of_nat (ck c) + Z.of_nat (cp c))%Z with (Z.of_nat (cs c) - 1 - Z.of_nat (ck c - 1 - cp c))%Z by lia.
  rewrite str_at_valid by lia. replace (Nat.ltb 1 (ck c)) with true by lia.
  rewrite ring_set with (h := fun z => lrow c (fun m => stored c xs m z)); [|lia|].
  2:{ unfold lrow, stored. replace (Z.of_nat n <? 0)%Z with false by lia. now rewrite Nat2Z.id. }
  rewrite lgather by auto.
  assert (Hnext : lstate c xs (S n) =
     Obj (ring (ck c - 1) (fun z : Z => lrow c (fun m => stored c xs m z)) (Z.of_nat n + 1))
         ((Z.of_nat n mod Z.of_nat (ck c - 1) + 1) mod Z.of_nat (ck c - 1))
         (let ns := (str_at (Z.of_nat (cs c) - 1 - Z.of_nat (ck c - 1 - cp c)) (cs c) n + 1)%Z in
          if Z.ltb 0 ns then (ns mod Z.of_nat (cs c))%Z else ns)).
  { unfold lstate. rewrite str_at_next by lia. rewrite Zplus_mod_idemp_l.
    replace (Z.of_nat (S n)) with (Z.of_nat n + 1)%Z by lia. f_equal. f_equal. lia. }
  rewrite Hnext. unfold lout, conv_value. cbv zeta. destruct (emits _ _ n); reflexivity.
Qed.

Lemma lfirst c x xs : 2 <= ck c -> 1 <= cs c -> cp c <= ck c - 1 ->
  conv_fstep c x None = Ok (lout c (x :: xs) 0, Some (lstate c (x :: xs) 1)).
Proof.
  intros Hk Hs Hp. rewrite <- lstep by auto. unfold conv_fstep.
  assert (Es : conv_stateless c = false) by (unfold conv_stateless; lia). rewrite Es. simpl pad_time. cbn [bind nth].
  change (repeat f0 (ck c - 1) ++ x :: repeat f0 (ck c - 1)) with (repeat f0 (ck c - 1) ++ [x] ++ repeat f0 (ck c - 1)).
  rewrite xcorr_lawfree by auto. unfold getz at 1. cbn [Z.ltb Z.compare Z.to_nat nth_error bind skipn].
  assert (E : conv_init c (lrow c (fun m => tap c m x)) = lstate c (x :: xs) 0).
  { unfold conv_init, lstate. rewrite repeat_length. change (Z.of_nat 0) with 0%Z.
    rewrite ring_init with (v := lrow c (fun m => make_padding (cfill c) (tap c m x))).
    2:{ intros z Hz. unfold lrow, stored. replace (z <? 0)%Z with true by lia. reflexivity. }
    rewrite Z.mod_0_l by lia. rewrite str_at_0 by lia. f_equal; [|lia]. f_equal. unfold lrow. now rewrite map_map. }
  rewrite E. reflexivity.
Qed.

Theorem conv_feed_lawfree c xs : 2 <= ck c -> 1 <= cs c -> cp c <= ck c - 1 ->
  exists o, feed (fun o x => conv_forward_step c o x true) obj_init xs
  = Ok (map (fun n => if emits (ck c - 1 - cp c) (cs c) n then Some (conv_value c xs n) else None) (seq 0 (length xs)), o).
Proof.
  intros Hk Hs Hp. destruct xs as [|x0 xt] eqn:Ex; [exists obj_init; reflexivity|]. rewrite <- Ex.
  assert (E : xs = clip (fun i => nth i xs f0) 0 (length xs)).
  { unfold clip. apply nth_error_ext. intros j. rewrite nth_error_map_seq. destruct (Nat.ltb_spec j (length xs)).
    - now rewrite (nth_error_nth' _ f0).
    - apply nth_error_None. lia. }
  exists (match length xs with O => obj_init | S n => lstate c xs (S n) end). rewrite E at 1.
  refine (feed_closed obj_get obj_set (conv_fstep c) (fun i => nth i xs f0)
    (fun n => match n with O => None | S n => Some (lstate c xs (S n)) end) (lout c xs) 0 _
    (fun n => match n with O => obj_init | S n => lstate c xs (S n) end) _ _ 0 (length xs) _); [| | |lia].
  - intros [|n] _; [subst xs; now apply lfirst|now apply lstep].
  - intros [|n] _; [reflexivity|]. unfold obj_get, lstate. cbn [o_buf]. destruct (ring _ _ _) eqn:Er; auto.
    apply (f_equal (@length _)) in Er. rewrite ring_length in Er. simpl in Er. lia.
  - intros n _. eexists. split; reflexivity.
Qed.

Lemma nth_newest {A} k n (xs : list A) d i : i < k -> k <= S n -> nth i (newest k n xs) d = nth (S n - k + i) xs d.
Proof.
  intros Hi Hk. unfold newest. rewrite <- (firstn_skipn (S n - k) xs) at 2.
  destruct (Nat.le_gt_cases (length xs) (S n - k)).
  - rewrite (skipn_all2 xs) by auto. rewrite firstn_nil. rewrite app_nil_r, nth_overflow by (simpl; lia).
    symmetry. apply nth_overflow. rewrite firstn_length. lia.
  - rewrite app_nth2 by (rewrite firstn_length; lia). rewrite firstn_length.
    replace (S n - k + i - Nat.min (S n - k) (length xs)) with i by lia.
    set (l := skipn (S n - k) xs). clearbody l. clear - Hi. revert k i Hi. induction l; intros [|k] [|i] Hi; simpl; auto; try lia. apply IHl. lia.
Qed.

(** Once the window is full, the value is a function of the window. *)
Theorem conv_value_window c xs n : 2 <= ck c -> ck c - 1 <= n -> conv_value c xs n = conv_window c (newest (ck c) n xs).
Proof.
  intros Hk Hn. unfold conv_value, conv_window. f_equal. f_equal.
  - f_equal. rewrite nth_newest by lia. f_equal. lia.
  - f_equal. apply map_ext_in. intros m Hm%in_seq. unfold stored. rewrite nth_newest by lia.
    replace (_ <? 0)%Z with false by lia. do 2 f_equal. lia.
Qed.

(* ------------------------------------------------------------------ *)
(** ** Pooling *)

Definition pooled (c : pool_cfg F) (xs : list F) (z : Z) : F :=
  if Z.ltb z 0 then make_padding (pfill c) (psp c (hd f0 xs)) else psp c (nth (Z.to_nat z) xs f0).

Definition pout (c : pool_cfg F) (xs : list F) (n : nat) : option F :=
  if emits (pk c - 1 - pp c) (ps c) n then Some (pagg c (ring (pk c) (pooled c xs) (Z.of_nat n + 1))) else None.

Lemma pstep c xs n : 1 <= pk c -> 1 <= ps c -> pp c <= pk c - 1 -> pd c = 1 ->
  pool_fstep c (nth n xs f0) (Some (pool_state c (pooled c xs) n)) = Ok (pout c xs n, Some (pool_state c (pooled c xs) (S n))).
Proof.
  intros Hk Hs Hp Hd. unfold pool_fstep. cbn [o_buf o_idx o_str pool_state].
  rewrite ring_set with (h := pooled c xs); [|lia|].
  2:{ unfold pooled. replace (_ <? 0)%Z with false by lia. now rewrite Nat2Z.id. }
  cbn [bind]. replace (Z.of_nat (ps c) - Z.of_nat (pk c) + Z.of_nat (pp c))%Z
    with (Z.of_nat (ps c) - 1 - Z.of_nat (pk c - 1 - pp c))%Z by lia.
  rewrite str_at_valid by lia. unfold pout. rewrite Hd. cbn [Nat.eqb bind].
  assert (Hnext : pool_state c (pooled c xs) (S n) =
     Obj (ring (pk c) (pooled c xs) (Z.of_nat n + 1)) ((Z.of_nat n mod Z.of_nat (pk c) + 1) mod Z.of_nat (pk c))
     (let ns := (str_at (Z.of_nat (ps c) - 1 - Z.of_nat (pk c - 1 - pp c)) (ps c) n + 1)%Z in
          if Z.ltb 0 ns then (ns mod Z.of_nat (ps c))%Z else ns)).
  { unfold pool_state. rewrite str_at_next by lia. rewrite Zplus_mod_idemp_l.
    replace (Z.of_nat (S n)) with (Z.of_nat n + 1)%Z by lia. f_equal. f_equal. lia. }
  rewrite Hnext. cbv zeta. destruct (emits _ _ n); reflexivity.
Qed.

Lemma pfirst c x xs : 1 <= pk c -> 1 <= ps c -> pp c <= pk c - 1 -> pd c = 1 ->
  pool_fstep c x None = Ok (pout c (x :: xs) 0, Some (pool_state c (pooled c (x :: xs)) 1)).
Proof.
  intros Hk Hs Hp Hd. rewrite <- pstep by auto. cbn [nth].
  assert (E : pool_init c (psp c x) = pool_state c (pooled c (x :: xs)) 0).
  { unfold pool_init, pool_state, pool_buflen. rewrite Hd. change (Z.of_nat 0) with 0%Z.
    replace (1 * (pk c - 1) + 1) with (pk c) by lia.
    rewrite ring_init with (v := make_padding (pfill c) (psp c x)).
    2:{ intros z Hz. unfold pooled. replace (z <? 0)%Z with true by lia. reflexivity. }
    rewrite Z.mod_0_l by lia. rewrite str_at_0 by lia. reflexivity. }
  unfold pool_fstep. cbv zeta. rewrite E. reflexivity.
Qed.

Lemma pool_feed_lawfree c xs : 1 <= pk c -> 1 <= ps c -> pp c <= pk c - 1 -> pd c = 1 ->
  exists o, feed (fun o x => pool_forward_step c o x true) obj_init xs = Ok (map (pout c xs) (seq 0 (length xs)), o).
Proof.
  intros Hk Hs Hp Hd. destruct xs as [|x0 xt] eqn:Ex; [exists obj_init; reflexivity|]. rewrite <- Ex.
  assert (E : xs = clip (fun i => nth i xs f0) 0 (length xs)).
  { unfold clip. apply nth_error_ext. intros j. rewrite nth_error_map_seq. destruct (Nat.ltb_spec j (length xs)).
    - now rewrite (nth_error_nth' _ f0).
    - apply nth_error_None. lia. }
  exists (pool_O c (pooled c xs) (length xs)). rewrite E at 1.
  refine (feed_closed obj_get obj_set (pool_fstep c) (fun i => nth i xs f0)
    (pool_S c (pooled c xs)) (pout c xs) 0 _ (pool_O c (pooled c xs)) _ _ 0 (length xs) _); [| | |lia].
  - intros [|n] _; [subst xs; now apply pfirst|now apply pstep].
  - intros [|n] _; [reflexivity|]. unfold obj_get, pool_O, pool_S, pool_state. cbn [o_buf]. destruct (ring _ _ _) eqn:Er; auto.
    apply (f_equal (@length _)) in Er. rewrite ring_length in Er. simpl in Er. lia.
  - intros n _. apply pool_Ob.
Qed.

Lemma nth_skipn {A} (l : list A) a j d : nth j (skipn a l) d = nth (a + j) l d.
Proof. revert l j. induction a; intros [|x l] j; simpl; auto. now destruct j. Qed.
Lemma nth_firstn {A} (l : list A) a j d : j < a -> nth j (firstn a l) d = nth j l d.
Proof. revert l j. induction a; intros [|x l] [|j] H; simpl; auto; try lia. apply IHa. lia. Qed.

Lemma ring_rotated c xs n : 1 <= pk c -> pk c - 1 <= n < length xs ->
  ring (pk c) (pooled c xs) (Z.of_nat n + 1) = rotated (pk c) n (map (psp c) (newest (pk c) n xs)).
Proof.
  intros Hk Hn. set (k := pk c) in *.
  assert (Lw : length (map (psp c) (newest k n xs)) = k).
  { rewrite map_length. unfold newest. rewrite firstn_length, skipn_length. lia. }
  set (w := map _ _) in *. set (r := S n mod k). assert (Hr : r < k) by (unfold r; apply Nat.mod_upper_bound; lia).
  assert (Wn : forall i, i < k -> nth i w f0 = pooled c xs (Z.of_nat n + 1 - Z.of_nat k + Z.of_nat i)).
  { intros i Hi. rewrite nth_indep with (d' := psp c f0) by lia. unfold w. rewrite map_nth, nth_newest by lia.
    unfold pooled. replace (_ <? 0)%Z with false by lia. do 2 f_equal. lia. }
  apply (nth_ext _ _ f0 f0).
  - rewrite ring_length. unfold rotated. rewrite app_length, skipn_length, firstn_length. fold r. lia.
  - rewrite ring_length. intros j Hj. unfold ring. rewrite nth_indep with (d' := pooled c xs (Z.of_nat n + 1 - Z.of_nat k + (Z.of_nat 0 - (Z.of_nat n + 1)) mod Z.of_nat k)) by (rewrite map_length, seq_length; lia).
    rewrite (map_nth (fun j => pooled c xs (Z.of_nat n + 1 - Z.of_nat k + (Z.of_nat j - (Z.of_nat n + 1)) mod Z.of_nat k))), seq_nth by auto.
    rewrite Nat.add_0_l. unfold rotated. fold r.
    assert (Er : (Z.of_nat n + 1 = Z.of_nat k * Z.of_nat (S n / k) + Z.of_nat r)%Z).
    { pose proof (Nat.div_mod (S n) k). unfold r. lia. }
    set (q := S n / k) in *. clearbody q.
    destruct (Nat.ltb_spec j r).
    + rewrite app_nth1 by (rewrite skipn_length; lia). rewrite nth_skipn, Wn by lia. f_equal.
      replace ((Z.of_nat j - (Z.of_nat n + 1)) mod Z.of_nat k)%Z with (Z.of_nat (k - r + j)); [lia|].
      apply Z.mod_unique_pos with (q := (- Z.of_nat q - 1)%Z); lia.
    + rewrite app_nth2 by (rewrite skipn_length; lia). rewrite skipn_length, nth_firstn, Wn by lia. f_equal.
      replace ((Z.of_nat j - (Z.of_nat n + 1)) mod Z.of_nat k)%Z with (Z.of_nat (j - (length w - (k - r)))); [lia|].
      apply Z.mod_unique_pos with (q := (- Z.of_nat q)%Z); lia.
Qed.

Theorem pool_rotated c xs : 1 <= pk c -> 1 <= ps c -> pp c <= pk c - 1 -> pd c = 1 ->
  exists ys o, feed (fun o x => pool_forward_step c o x true) obj_init xs = Ok (ys, o) /\
    forall n, pk c - 1 <= n < length xs ->
      nth_error ys n = Some (if emits (pk c - 1 - pp c) (ps c) n
        then Some (pagg c (rotated (pk c) n (map (psp c) (newest (pk c) n xs)))) else None).
Proof.
  intros Hk Hs Hp Hd. destruct (pool_feed_lawfree c xs Hk Hs Hp Hd) as [o E]. do 2 eexists. split; [exact E|].
  intros n Hn. rewrite nth_error_map_seq. replace (n <? length xs) with true by lia. simpl. unfold pout.
  rewrite ring_rotated by auto. reflexivity.
Qed.
End ConvF.
