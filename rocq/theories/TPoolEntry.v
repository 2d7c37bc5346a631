(** Every entry that torch's pooling returns, as a window of the input. *)
From Coq Require Import List ZArith Bool Arith Lia ZifyBool ZifyNat Permutation.
From Verif Require Import Base Frames CoMod Tensor TensorProof TPool TPoolSpec TPoolProof.
Import ListNotations.

(** ** One dimension *)

Lemma window_in d k s p dl i t : In t (window d k s p dl i) <-> t < d /\ exists j, j < k /\ t + p = i * s + j * dl.
Proof.
  unfold window. rewrite filter_In, in_seq, existsb_exists. split.
  - intros [H (j & J & E)]. rewrite in_seq in J. split; [lia|]. exists j. split; [lia|]. apply Nat.eqb_eq. exact E.
  - intros [H (j & J & E)]. split; [lia|]. exists j. rewrite in_seq. split; [lia|]. apply Nat.eqb_eq. exact E.
Qed.
Lemma window_nodup d k s p dl i : NoDup (window d k s p dl i).
Proof. apply NoDup_filter, seq_NoDup. Qed.

(** The kernel positions whose input position is inside. *)
Definition hits (d k s p dl i : nat) : list nat :=
  filter (fun j => Nat.leb p (i * s + j * dl) && Nat.ltb (i * s + j * dl) (d + p)) (seq 0 k).
Lemma hits_window d k s p dl i : 1 <= dl ->
  Permutation (map (fun j => i * s + j * dl - p) (hits d k s p dl i)) (window d k s p dl i).
Proof.
  intros D. apply NoDup_Permutation.
  - unfold hits. assert (N : NoDup (seq 0 k)) by apply seq_NoDup. revert N. generalize (seq 0 k) as l.
    induction l as [|j l IH]; intros N; [constructor|]. inversion N as [|x xs Nj Nl]. subst. cbn [filter].
    destruct (_ && _) eqn:E; [|apply IH, Nl]. cbn [map]. constructor; [|apply IH, Nl].
    rewrite in_map_iff. intros (j' & E' & I'). apply filter_In in I' as [I' C']. apply andb_true_iff in C' as [C1 C2], E as [E1 E2].
    apply Nj. replace j with j' by nia. exact I'.
  - apply window_nodup.
  - intros t. rewrite window_in, in_map_iff. unfold hits. split.
    + intros (j & <- & I). apply filter_In in I as [I C]. rewrite in_seq in I. apply andb_true_iff in C as [C1 C2]. split; [lia|].
      exists j. split; lia.
    + intros (T & j & J & E). exists j. split; [lia|]. apply filter_In. rewrite in_seq. split; [lia|]. apply andb_true_iff. split; lia.
Qed.
Lemma window_length d k s p i :
  length (window d k s p 1 i) = Z.to_nat (Z.min (Z.of_nat (i * s) - Z.of_nat p + Z.of_nat k) (Z.of_nat d) - Z.max (Z.of_nat (i * s) - Z.of_nat p) 0).
Proof.
  set (a := i * s - p). set (n := Z.to_nat _).
  enough (Permutation (window d k s p 1 i) (seq a n)) as P by (rewrite (Permutation_length P); apply seq_length).
  apply NoDup_Permutation; [apply window_nodup|apply seq_NoDup|]. intros t. rewrite window_in, in_seq. unfold a, n. split.
  - intros (T & j & J & E). lia.
  - intros H. split; [lia|]. exists (t + p - i * s). split; lia.
Qed.

Lemma has_window_lt ceil d k s p dl i : 1 <= d -> 1 <= s -> 2 * p <= k -> (k = 0 -> p = 0) -> 1 <= dl -> dl * (k - 1) + 1 <= d + 2 * p ->
  (i < pool_out_dim ceil d k s p dl <-> has_window ceil d k s p dl i).
Proof.
  intros D S Pk P0 DL F. unfold pool_out_dim, has_window, out_dim.
  assert (Q : forall a b, b / s < a <-> b < a * s).
  { intros a b. split; intros H.
    - pose proof (Nat.mul_succ_div_gt b s ltac:(lia)). nia.
    - apply Nat.div_lt_upper_bound; nia. }
  set (e := dl * (k - 1) + 1) in *. assert (Pe : p <= e) by (unfold e; nia).
  replace ((i - 1) * s + dl * (k - 1) + 1) with ((i - 1) * s + e) by (unfold e; lia).
  replace (i * s + dl * (k - 1) + 1) with (i * s + e) by (unfold e; lia).
  destruct ceil.
  - set (o := (d + 2 * p - e + s - 1) / s).
    assert (O : forall x, o < x <-> d + 2 * p - e + s - 1 < x * s) by (intros; apply Q).
    rewrite Nat.add_sub. destruct (Nat.leb_spec (d + p) (o * s)).
    + pose proof (O i) as Oi. pose proof (O o) as Oo. split.
      * intros L. split; [|destruct i; [left; reflexivity|right]]; nia.
      * intros [A B]. destruct (Nat.lt_ge_cases i o) as [L|L]; [exact L|]. nia.
    + pose proof (O i) as Oi. split.
      * intros L. split; [nia|]. destruct i; [left; reflexivity|right]. nia.
      * intros [A B]. destruct (Nat.lt_ge_cases i (o + 1)) as [L|L]; [exact L|]. exfalso.
        destruct B as [->|B]; [lia|]. assert (o < i) by lia. rewrite Oi in H0. nia.
  - pose proof (Q i (d + 2 * p - e)) as Qi. split; intros H.
    + destruct (Nat.lt_ge_cases (d + 2 * p) (i * s + e)); [|lia]. assert ((d + 2 * p - e) / s < i) by (apply Qi; nia). lia.
    + destruct (Nat.lt_ge_cases i ((d + 2 * p - e) / s + 1)) as [L|L]; [exact L|]. assert ((d + 2 * p - e) / s < i) as X by lia.
      apply Qi in X. nia.
Qed.

(** ** All dimensions *)

Section Entry.
Context {K : Type} {P : Pool K} {PL : PoolLaws K}.

Lemma sum_hits (F : Z -> K) d k s p dl i : 1 <= dl -> (forall z, (z < 0 \/ Z.of_nat d <= z)%Z -> F z = s0) ->
  ksum (map (fun j => F (Z.of_nat (i * s) - Z.of_nat p + Z.of_nat (j * dl))%Z) (seq 0 k))
  = ksum (map (fun t => F (Z.of_nat t)) (window d k s p dl i)).
Proof.
  intros D O. rewrite <- (ksum_perm _ _ (Permutation_map (fun t => F (Z.of_nat t)) (hits_window d k s p dl i D))).
  rewrite map_map. unfold hits. generalize (seq 0 k) as l. induction l as [|j l IH]; [reflexivity|]. cbn [map filter ksum fold_right].
  fold (ksum (map (fun j => F (Z.of_nat (i * s) - Z.of_nat p + Z.of_nat (j * dl))%Z) l)). rewrite IH.
  destruct (_ && _) eqn:E.
  - apply andb_true_iff in E as [E1 E2]. cbn [map ksum fold_right]. f_equal. f_equal. lia.
  - rewrite (O _) by (apply andb_false_iff in E as [E|E]; lia). apply sadd_0_l.
Qed.

Lemma sum_windows dims : forall ks ss ps ds q (F : list Z -> K),
  length ks = length dims -> length ss = length dims -> length ps = length dims -> length ds = length dims -> length q = length dims ->
  Forall (fun dl => 1 <= dl) ds -> (forall ix, inside dims ix = false -> F ix = s0) ->
  ksum (tab ks (fun kp => F (wpos q ss ps kp ds))) = ksum (map (fun ix => F (map Z.of_nat ix)) (windows window dims ks ss ps ds q)).
Proof.
  induction dims as [|d dims IH]; intros [|k ks] [|s ss] [|p ps] [|dl ds] [|i q] F; try discriminate; intros L1 L2 L3 L4 L5 D O; [reflexivity|].
  inversion D as [|x y D1 D2]. subst. cbn [length] in *. rewrite ksum_tab. cbn [wpos windows].
  pose (G := fun z => ksum (tab ks (fun ix => F (z :: wpos q ss ps ix ds)))).
  change (ksum (map (fun j => G (Z.of_nat (i * s) - Z.of_nat p + Z.of_nat (j * dl))%Z) (seq 0 k))
          = ksum (map (fun ix => F (map Z.of_nat ix)) (flat_map (fun t => map (cons t) (windows window dims ks ss ps ds q)) (window d k s p dl i)))).
  rewrite (sum_hits G d k s p dl i D1).
  - rewrite flat_map_concat_map, concat_map, map_map, <- flat_map_concat_map, ksum_flat. f_equal. apply map_ext_in. intros t T.
    apply window_in in T as [T _]. rewrite map_map. cbn [map]. unfold G.
    apply (IH ks ss ps ds q (fun ix => F (Z.of_nat t :: ix))); try lia; [exact D2|]. intros ix N. apply O. cbn [inside]. rewrite N. apply andb_false_r.
  - intros z Z0. unfold G. rewrite (ksum_tab_ext ks _ (fun _ => s0)).
    + rewrite tab_zero by reflexivity. induction (size ks) as [|n IHn]; [reflexivity|].
      cbn [repeat]. unfold ksum in *. cbn [fold_right]. rewrite IHn. apply sadd_0_l.
    + intros ix _. apply O. cbn [inside]. destruct (Z.leb_spec 0 z); [|reflexivity]. destruct (Z.ltb_spec z (Z.of_nat d)); [lia|reflexivity].
Qed.

Lemma win_size_windows cip dims : forall ks ss ps ds q,
  length ks = length dims -> length ss = length dims -> length ps = length dims -> length ds = length dims -> length q = length dims ->
  Forall (fun dl => dl = 1) ds ->
  win_size cip dims ks ss ps q = length (windows (if cip then pwindow else window) dims ks ss ps ds q).
Proof.
  induction dims as [|d dims IH]; intros [|k ks] [|s ss] [|p ps] [|dl ds] [|i q]; try discriminate; intros L1 L2 L3 L4 L5 D; [reflexivity|].
  inversion D as [|x y D1 D2]. subst. cbn [length] in *. cbn [win_size windows]. rewrite (IH ks ss ps ds q) by (lia || assumption).
  set (w := windows _ dims ks ss ps ds q). assert (E : win_len cip d k s p i = length ((if cip then pwindow else window) d k s p 1 i)).
  { unfold win_len. destruct cip; [unfold pwindow|]; rewrite window_length; f_equal; lia. }
  rewrite E. generalize ((if cip then pwindow else window) d k s p 1 i) as l. induction l as [|t l IHl]; [reflexivity|].
  cbn [flat_map length]. rewrite app_length, map_length, <- IHl. reflexivity.
Qed.

Lemma pool_entry B C dims ks ss ps ds ceil cip div x y b ch q :
  length ks = length dims -> length ss = length dims -> length ps = length dims -> length ds = length dims ->
  Forall (fun dl => 1 <= dl) ds -> (forall n (v : K), pscale n v = v) \/ Forall (fun dl => dl = 1) ds ->
  poolnd B C dims ks ss ps ds ceil cip div x = Ok y ->
  b < B -> ch < C -> inr q (pool_out_dims ceil dims ks ss ps ds) ->
  at_ (B :: C :: pool_out_dims ceil dims ks ss ps ds) y (map Z.of_nat (b :: ch :: q)) =
  pscale (match div with Some n => n | None => length (windows (if cip then pwindow else window) dims ks ss ps ds q) end)
    (ksum (map (fun ix => at_ (B :: C :: dims) x (map Z.of_nat (b :: ch :: ix))) (windows window dims ks ss ps ds q))).
Proof.
  intros L1 L2 L3 L4 D SC H Hb Hc Hq. unfold poolnd in H. destruct (_ && _) in H; [|discriminate].
  apply (f_equal (fun r => match r with Ok v => v | Err _ => y end)) in H. cbv beta iota in H. rewrite <- H.
  rewrite at_tab_in by (constructor; [|constructor]; assumption). unfold pool_elem.
  assert (Lq : length q = length dims).
  { clear -L1 L2 L3 L4 Hq. revert ks ss ps ds L1 L2 L3 L4 q Hq. induction dims as [|d dims IH]; intros [|k ks] [|s ss] [|p ps] [|dl ds]; try discriminate; cbn [pool_out_dims]; intros L1 L2 L3 L4 q Hq; inversion Hq; subst; [reflexivity|].
    cbn [length] in *. f_equal. eapply (IH ks ss ps ds); eauto. }
  rewrite (sum_windows dims ks ss ps ds q (fun ix => at_ (B :: C :: dims) x (Z.of_nat b :: Z.of_nat ch :: ix))); try assumption.
  - destruct SC as [SC|SC]; [rewrite !SC; reflexivity|]. destruct div; [reflexivity|]. rewrite (win_size_windows cip dims ks ss ps ds q) by assumption. reflexivity.
  - intros ix N. apply at_out. cbn [inside]. rewrite N. rewrite !andb_false_r. reflexivity.
Qed.

Lemma out_windows ceil dims : forall ks ss ps ds q,
  length ks = length dims -> length ss = length dims -> length ps = length dims -> length ds = length dims ->
  forallb (Nat.leb 1) dims = true -> Forall (fun s => 1 <= s) ss -> Forall (fun dl => 1 <= dl) ds ->
  halves ks ps = true -> fits dims ks ps ds = true ->
  (inr q (pool_out_dims ceil dims ks ss ps ds) <-> have_windows ceil dims ks ss ps ds q).
Proof.
  induction dims as [|d dims IH]; intros [|k ks] [|s ss] [|p ps] [|dl ds] q; try discriminate; cbn [length forallb halves fits pool_out_dims]; intros L1 L2 L3 L4 Hd Hs Hl Hh Hf.
  - destruct q as [|i q]; cbn [have_windows]; split; intros H; auto; try constructor; inversion H.
  - apply andb_true_iff in Hd as [Hd1 Hd2], Hh as [Hh1 Hh2], Hf as [Hf1 Hf2]. inversion Hs as [|x y Hs1 Hs2]. inversion Hl as [|x' y' Hl1 Hl2]. subst.
    destruct q as [|i q]; cbn [have_windows]; [split; intros H; inversion H|].
    rewrite <- (IH ks ss ps ds q) by (lia || assumption). rewrite <- has_window_lt by lia. split; intros H.
    + inversion H; subst. split; assumption.
    + destruct H. constructor; assumption.
Qed.
End Entry.

(** The arguments of a pooling module fit together. *)
Lemma forward_entry {K} {P : Pool K} {PL : PoolLaws K} B C sp (c : tpool) T X Y :
  length (p_ks c) = length sp -> length (p_ss c) = length sp -> length (p_ps c) = length sp -> length (p_ds c) = length sp ->
  Forall (fun s => 1 <= s) (p_s c :: p_ss c) -> Forall (fun d => 1 <= d) (p_ds c) ->
  (forall n (v : K), pscale n v = v) \/ Forall (fun d => d = 1) (p_ds c) ->
  p_forward B C sp c T X = Ok Y ->
  forall b ch q, b < B -> ch < C ->
  let W w := windows w (T :: sp) (p_k c :: p_ks c) (p_s c :: p_ss c) (p_p c :: p_ps c) (1 :: p_ds c) q in
  let od := pool_out_dims (p_ceil c) (T :: sp) (p_k c :: p_ks c) (p_s c :: p_ss c) (p_p c :: p_ps c) (1 :: p_ds c) in
  have_windows (p_ceil c) (T :: sp) (p_k c :: p_ks c) (p_s c :: p_ss c) (p_p c :: p_ps c) (1 :: p_ds c) q ->
  offset (B :: C :: od) (map Z.of_nat (b :: ch :: q)) <> None /\
  at_ (B :: C :: od) Y (map Z.of_nat (b :: ch :: q)) =
  pscale (match p_div c with Some n => n | None => length (W (if p_cip c then pwindow else window)) end)
    (ksum (map (fun ix => at_ (B :: C :: T :: sp) X (map Z.of_nat (b :: ch :: ix))) (W window))).
Proof.
  intros L1 L2 L3 L4 S D SC H b ch q Hb Hc W od HW. unfold p_forward in H.
  assert (G : fits (T :: sp) (p_k c :: p_ks c) (p_p c :: p_ps c) (1 :: p_ds c) && halves (p_k c :: p_ks c) (p_p c :: p_ps c)
              && forallb (Nat.leb 1) (T :: sp) = true) by (unfold poolnd in H; destruct (_ && _); [reflexivity|discriminate]).
  apply andb_true_iff in G as [G G3]. apply andb_true_iff in G as [G1 G2].
  assert (D' : Forall (fun d => 1 <= d) (1 :: p_ds c)) by (constructor; [lia|exact D]).
  assert (Q : inr q od) by (apply out_windows; cbn [length]; auto).
  split.
  - rewrite offset_inside. rewrite inside_nat; [discriminate|]. constructor; [exact Hb|]. constructor; [exact Hc|exact Q].
  - apply (pool_entry B C (T :: sp)) with (ceil := p_ceil c); cbn [length]; auto. destruct SC as [SC|SC]; [left; exact SC|right]. constructor; auto.
Qed.
