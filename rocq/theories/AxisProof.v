(** Proofs for C86. *)
From Coq Require Import List ZArith Bool Arith Lia.
From Verif Require Import Base Frames Tensor TensorProof Axis.
Import ListNotations.

Section P.
Context {K : Type} {SC : Scal K}.

Lemma merge_inr ax : forall sh ix p, length ax = length sh -> inr ix sh -> inr p (pick ax sh) -> inr (merge ax ix p) sh.
Proof.
  induction ax as [|[] ax IH]; intros [|n sh] ix p L Hi Hp; try discriminate L.
  - inversion Hi; subst. constructor.
  - inversion Hi as [|i ? ix' ? H1 H2]; subst. cbn [pick] in Hp. inversion Hp as [|j ? p' ? H3 H4]; subst. cbn [merge]. constructor; [exact H3|].
    apply IH; auto.
  - inversion Hi as [|i ? ix' ? H1 H2]; subst. cbn [pick merge] in *. constructor; [exact H1|]. apply IH; auto.
Qed.

Lemma tab_one B C sp (f : list nat -> K) :
  tab (B :: C :: 1 :: sp) f = tab (B :: C :: sp) (fun ix => match ix with b :: c :: q => f (b :: c :: 0 :: q) | _ => s0 end).
Proof.
  cbn [tab]. apply flat_map_ext_in. intros b _. apply flat_map_ext_in. intros c _. cbn [seq flat_map]. apply app_nil_r.
Qed.

Variables (B C T : nat) (sp : list nat).

Lemma slice_at (X : list K) t b c q : t < T -> inr (b :: c :: 0 :: q) (B :: C :: 1 :: sp) ->
  at_ (B :: C :: 1 :: sp) (slice2 B C T sp X t) (map Z.of_nat (b :: c :: 0 :: q)) = at_ (B :: C :: T :: sp) X (map Z.of_nat (b :: c :: t :: q)).
Proof.
  intros Ht Hi. unfold slice2.
  replace (tab (B :: C :: sp) _) with (tab (B :: C :: 1 :: sp)
    (fun ix => match ix with b :: c :: _ :: q => at_ (B :: C :: T :: sp) X (map Z.of_nat (b :: c :: t :: q)) | _ => s0 end)).
  - rewrite at_tab_in by exact Hi. reflexivity.
  - rewrite tab_one. apply tab_ext. intros ix Hx. inversion Hx as [|b' ? ? ? ? H2]; subst. inversion H2; subst. reflexivity.
Qed.

Lemma slice_along a b ar g (X : list K) t : length ar = length sp -> t < T ->
  slice2 B C T sp (ax_forward (a :: b :: false :: ar) g B C T sp X) t = ax_step (a :: b :: false :: ar) g B C sp (slice2 B C T sp X t).
Proof.
  intros L Ht. unfold ax_forward, ax_step, along. rewrite tab_one. unfold slice2 at 1. apply tab_ext. intros ix Hx.
  inversion Hx as [|i ? ix1 ? Hi H1]; subst. inversion H1 as [|c ? q ? Hc Hq]; subst.
  assert (Hf : inr (i :: c :: t :: q) (B :: C :: T :: sp)) by (repeat constructor; assumption).
  change (at_ (B :: C :: T :: sp) (tab (B :: C :: T :: sp) (fun ix => g (tab (pick (a :: b :: false :: ar) (B :: C :: T :: sp))
    (fun p => at_ (B :: C :: T :: sp) X (map Z.of_nat (merge (a :: b :: false :: ar) ix p)))) (pick (a :: b :: false :: ar) ix))) (map Z.of_nat (i :: c :: t :: q))
    = g (tab (pick (a :: b :: false :: ar) (B :: C :: 1 :: sp)) (fun p => at_ (B :: C :: 1 :: sp) (slice2 B C T sp X t)
      (map Z.of_nat (merge (a :: b :: false :: ar) (i :: c :: 0 :: q) p)))) (pick (a :: b :: false :: ar) (i :: c :: 0 :: q))).
  rewrite at_tab_in by exact Hf.
  assert (Hs : inr (i :: c :: 0 :: q) (B :: C :: 1 :: sp)) by (repeat constructor; auto).
  assert (E : forall n m : nat, pick (a :: b :: false :: ar) (B :: C :: n :: sp) = pick (a :: b :: false :: ar) (B :: C :: m :: sp)) by (destruct a, b; reflexivity).
  assert (E2 : pick (a :: b :: false :: ar) (i :: c :: t :: q) = pick (a :: b :: false :: ar) (i :: c :: 0 :: q)) by (destruct a, b; reflexivity).
  rewrite E2, (E T 1). f_equal. apply tab_ext. intros p Hp.
  assert (Hm : inr (merge (a :: b :: false :: ar) (i :: c :: 0 :: q) p) (B :: C :: 1 :: sp)) by (apply merge_inr; [cbn [length]; lia|exact Hs|exact Hp]).
  destruct a, b; cbn [pick] in Hp; repeat (inversion Hp as [|? ? ? ? ? Hp']; subst; clear Hp; rename Hp' into Hp);
    cbn [merge] in Hm |- *; symmetry; apply slice_at; assumption.
Qed.

Lemma all_false_merge (q : list nat) : forall ar, length ar = length q -> Forall (fun a => a = false) ar -> forall p, merge ar q p = q.
Proof.
  induction q as [|i q IH]; intros [|[] ar] L H p; try discriminate L; try reflexivity.
  - inversion H; discriminate.
  - cbn [merge]. f_equal. apply IH; [injection L; auto|inversion H; auto].
Qed.
Lemma all_false_pick {A} (q : list A) : forall ar, Forall (fun a => a = false) ar -> pick ar q = [].
Proof. induction q as [|i q IH]; intros [|[] ar] H; try reflexivity; inversion H; subst; [discriminate|]. cbn [pick]. apply IH. assumption. Qed.

Lemma time_step ar g (x : list K) : length ar = length sp -> Forall (fun a => a = false) ar -> length x = size (B :: C :: sp) ->
  ax_step (false :: false :: true :: ar) g B C sp x = map (fun v => g [v] [0]) x.
Proof.
  intros L Hf Lx. unfold ax_step, along.
  assert (Lx' : length x = size (B :: C :: 1 :: sp)) by (rewrite Lx; unfold size; cbn [fold_right]; lia).
  apply (at_ext (B :: C :: 1 :: sp)); [apply tab_len|rewrite map_length; exact Lx'|].
  intros ix Hx. rewrite at_tab_in by exact Hx.
  inversion Hx as [|b ? ix1 ? Hb H1]; subst. inversion H1 as [|c ? ix2 ? Hc H2]; subst. inversion H2 as [|t ? q ? Ht Hq]; subst.
  assert (t = 0) by lia. subst t. cbn [pick merge]. rewrite !all_false_pick by exact Hf. cbn [tab seq flat_map app].
  rewrite all_false_merge; [|rewrite L; symmetry; clear -Hq; induction Hq; cbn; congruence|exact Hf].
  unfold at_. destruct (offset _ (map Z.of_nat (b :: c :: 0 :: q))) as [o|] eqn:Eo;
    [|exfalso; apply offset_inside in Eo; rewrite (inside_nat _ _ Hx) in Eo; discriminate Eo].
  pose proof (offset_lt _ _ _ Eo) as Ho.
  rewrite (nth_indep (map _ x) s0 (g [s0] [0])) by (rewrite map_length, Lx'; exact Ho). rewrite (map_nth (fun v => g [v] [0])). reflexivity.
Qed.
End P.

Lemma dimension_time rank dim : 3 <= rank -> (dimension rank dim = Ok 2 <-> (dim = 2 \/ dim = 2 - Z.of_nat rank)%Z).
Proof.
  intros Hr. unfold dimension. destruct (Z.leb_spec 0 dim), (Z.ltb_spec dim (Z.of_nat rank)); cbn [andb].
  - split; [intros E; injection E; lia|intros [-> | ->]; f_equal; lia].
  - destruct (Z.leb_spec (- Z.of_nat rank) dim), (Z.ltb_spec dim 0); cbn [andb]; split; intros E; try discriminate E; try lia.
  - destruct (Z.leb_spec (- Z.of_nat rank) dim), (Z.ltb_spec dim 0); cbn [andb]; split; intros E; try discriminate E; try lia; [injection E; lia|f_equal; lia].
  - lia.
Qed.

Section M.
Context {K : Type} {SC : Scal K}.
Variables (B C T : nat) (sp : list nat).

Lemma seq3 n : seq 0 (S (S (S n))) = 0 :: 1 :: 2 :: seq 3 n. Proof. reflexivity. Qed.

Lemma dim_agree dim d g (X : list K) : dimension (3 + length sp) dim = Ok d -> d <> 2 ->
  exists y, dim_module dim g (B :: C :: T :: sp) X = Ok y
    /\ forall t, t < T -> dim_module dim g (B :: C :: 1 :: sp) (slice2 B C T sp X t) = Ok (slice2 B C T sp y t).
Proof.
  intros Hd Hn. unfold dim_module. cbn [length]. cbn [plus] in Hd. rewrite Hd. eexists. split; [reflexivity|]. intros t Ht. apply (f_equal Ok).
  assert (E : one_axis (S (S (S (length sp)))) d = Nat.eqb d 0 :: Nat.eqb d 1 :: false :: map (Nat.eqb d) (seq 3 (length sp))).
  { unfold one_axis. rewrite seq3. cbn [map]. repeat f_equal. apply Nat.eqb_neq. exact Hn. }
  rewrite E. symmetry. pose proof (slice_along B C T sp (Nat.eqb d 0) (Nat.eqb d 1) (map (Nat.eqb d) (seq 3 (length sp))) g X t) as H.
  unfold ax_forward, ax_step in H. apply H; [rewrite map_length, seq_length; reflexivity|exact Ht].
Qed.

Lemma dim_time dim g (x : list K) : dimension (3 + length sp) dim = Ok 2 -> length x = size (B :: C :: sp) ->
  dim_module dim g (B :: C :: 1 :: sp) x = Ok (map (fun v => g [v] [0]) x).
Proof.
  intros Hd Lx. unfold dim_module. cbn [length]. cbn [plus] in Hd. rewrite Hd. apply (f_equal Ok).
  assert (E : one_axis (S (S (S (length sp)))) 2 = false :: false :: true :: map (Nat.eqb 2) (seq 3 (length sp))) by reflexivity.
  rewrite E. pose proof (time_step B C sp (map (Nat.eqb 2) (seq 3 (length sp))) g x) as H.
  unfold ax_step in H. apply H; [rewrite map_length, seq_length; reflexivity| |exact Lx].
  apply Forall_forall. intros a Ha. apply in_map_iff in Ha. destruct Ha as (j & <- & Hj). apply in_seq in Hj. apply Nat.eqb_neq. lia.
Qed.

Lemma dim_err dim g sh (x : list K) e : dimension (length sh) dim = Err e -> dim_module dim g sh x = Err e.
Proof. intros H. unfold dim_module. rewrite H. reflexivity. Qed.

Lemma ln_agree ns g (X y : list K) : length ns <= length sp -> layer_norm ns g (B :: C :: T :: sp) X = Ok y ->
  forall t, t < T -> layer_norm ns g (B :: C :: 1 :: sp) (slice2 B C T sp X t) = Ok (slice2 B C T sp y t).
Proof.
  intros L H t Ht. unfold layer_norm in *. cbn [length] in *.
  replace (S (S (S (length sp))) - length ns) with (S (S (S (length sp - length ns)))) in * by lia. cbn [skipn] in *.
  destruct (list_eq_dec Nat.eq_dec _ ns) as [_|]; [|discriminate H].
  assert (E : last_axes (S (S (S (length sp)))) (length ns) = false :: false :: false :: map (Nat.leb (S (S (S (length sp))) - length ns)) (seq 3 (length sp))).
  { unfold last_axes. rewrite seq3. cbn [map]. repeat f_equal; apply Nat.leb_gt; lia. }
  assert (Ey : y = along (last_axes (S (S (S (length sp)))) (length ns)) g (B :: C :: T :: sp) X) by congruence.
  rewrite Ey, E. apply (f_equal Ok). symmetry.
  pose proof (slice_along B C T sp false false (map (Nat.leb (S (S (S (length sp))) - length ns)) (seq 3 (length sp))) g X t) as H'.
  unfold ax_forward, ax_step in H'. apply H'; [rewrite map_length, seq_length; reflexivity|exact Ht].
Qed.

Lemma ln_time ns g (X y x : list K) : length sp < length ns -> length ns <= 3 + length sp -> T <> 1 ->
  layer_norm ns g (B :: C :: T :: sp) X = Ok y -> layer_norm ns g (B :: C :: 1 :: sp) x = Err RuntimeError.
Proof.
  intros L1 L2 HT H. unfold layer_norm in *. cbn [length] in *.
  remember (S (S (S (length sp))) - length ns) as m eqn:Em.
  destruct (list_eq_dec Nat.eq_dec (skipn m (B :: C :: T :: sp)) ns) as [E|]; [|discriminate H].
  destruct (list_eq_dec Nat.eq_dec (skipn m (B :: C :: 1 :: sp)) ns) as [E'|]; [|reflexivity]. exfalso.
  pose proof (eq_trans E (eq_sym E')) as E2. clear E E'.
  destruct m as [|[|[|n]]]; cbn [skipn] in E2; [injection E2; intros; lia..|lia].
Qed.
End M.

(** What the modules compute, entry by entry. *)
Section E.
Context {K : Type} {SC : Scal K}.

Lemma above_false k d n : d < k -> Forall (fun a => a = false) (map (Nat.eqb d) (seq k n)).
Proof. intros H. apply Forall_forall. intros a Ha. apply in_map_iff in Ha. destruct Ha as (j & <- & Hj). apply in_seq in Hj. apply Nat.eqb_neq. lia. Qed.

Lemma pick_one : forall (l : list nat) k d, d < length l -> pick (map (Nat.eqb (k + d)) (seq k (length l))) l = [nth d l 0].
Proof.
  induction l as [|a l IH]; intros k d H; [cbn in H; lia|]. cbn [length seq map]. destruct d as [|d].
  - rewrite Nat.add_0_r, Nat.eqb_refl. cbn [pick nth]. rewrite all_false_pick; [reflexivity|apply above_false; lia].
  - replace (Nat.eqb (k + S d) k) with false by (symmetry; apply Nat.eqb_neq; lia). cbn [pick nth].
    replace (k + S d) with (S k + d) by lia. apply IH. cbn [length] in H. lia.
Qed.
Lemma merge_one j : forall (l : list nat) k d, d < length l ->
  merge (map (Nat.eqb (k + d)) (seq k (length l))) l [j] = firstn d l ++ j :: skipn (S d) l.
Proof.
  induction l as [|a l IH]; intros k d H; [cbn in H; lia|]. cbn [length seq map]. destruct d as [|d].
  - rewrite Nat.add_0_r, Nat.eqb_refl. cbn [merge firstn app skipn]. f_equal. apply all_false_merge; [rewrite map_length, seq_length; reflexivity|apply above_false; lia].
  - replace (Nat.eqb (k + S d) k) with false by (symmetry; apply Nat.eqb_neq; lia). cbn [merge]. cbn [firstn app]. f_equal.
    replace (k + S d) with (S k + d) by lia. rewrite IH by (cbn [length] in H; lia). reflexivity.
Qed.

Lemma inr_len (ix sh : list nat) : inr ix sh -> length ix = length sh.
Proof. induction 1; cbn; congruence. Qed.

Lemma flat_map_one {A} (f : nat -> A) l : flat_map (fun j => [f j]) l = map f l.
Proof. induction l as [|a l IH]; [reflexivity|]. cbn [flat_map map app]. rewrite IH. reflexivity. Qed.

Lemma dim_entry dim d g sh (x : list K) ix : dimension (length sh) dim = Ok d -> d < length sh -> inr ix sh ->
  exists y, dim_module dim g sh x = Ok y /\ length y = size sh
    /\ at_ sh y (map Z.of_nat ix)
       = g (map (fun j => at_ sh x (map Z.of_nat (firstn d ix ++ j :: skipn (S d) ix))) (seq 0 (nth d sh 0))) [nth d ix 0].
Proof.
  intros Hd Hlt Hx. unfold dim_module. rewrite Hd. eexists. split; [reflexivity|]. unfold along. split; [apply tab_len|].
  rewrite at_tab_in by exact Hx. unfold one_axis. pose proof (inr_len _ _ Hx) as L.
  pose proof (pick_one sh 0 d Hlt) as P1. cbn [plus] in P1. rewrite P1.
  pose proof (pick_one ix 0 d) as P2. cbn [plus] in P2. rewrite L in P2. rewrite (P2 Hlt). f_equal. cbn [tab]. rewrite flat_map_one.
  apply map_ext. intros j. pose proof (merge_one j ix 0 d) as P3. cbn [plus] in P3. rewrite L in P3. rewrite (P3 Hlt). reflexivity.
Qed.

Lemma all_true_pick (l : list nat) : forall k m, m <= k -> pick (map (Nat.leb m) (seq k (length l))) l = l.
Proof.
  induction l as [|a l IH]; intros k m H; [reflexivity|]. cbn [length seq map]. rewrite (proj2 (Nat.leb_le m k) H). cbn [pick]. f_equal. apply IH. lia.
Qed.
Lemma all_true_merge (l : list nat) : forall k m r, m <= k -> length r = length l -> merge (map (Nat.leb m) (seq k (length l))) l r = r.
Proof.
  induction l as [|a l IH]; intros k m [|j r] H L; try discriminate L; [reflexivity|]. cbn [length seq map]. rewrite (proj2 (Nat.leb_le m k) H). cbn [merge].
  f_equal. apply IH; [lia|injection L; auto].
Qed.
Lemma last_pick (q : list nat) : forall p k, pick (map (Nat.leb (k + length q)) (seq k (length q + length p))) (q ++ p) = p.
Proof.
  induction q as [|a q IH]; intros p k; cbn [length plus app].
  - apply all_true_pick. lia.
  - cbn [seq map]. replace (Nat.leb (k + S (length q)) k) with false by (symmetry; apply Nat.leb_gt; lia). cbn [pick].
    replace (k + S (length q)) with (S k + length q) by lia. apply IH.
Qed.
Lemma last_merge r (q : list nat) : forall p k, length r = length p -> merge (map (Nat.leb (k + length q)) (seq k (length q + length p))) (q ++ p) r = q ++ r.
Proof.
  induction q as [|a q IH]; intros p k L; cbn [length plus app].
  - apply all_true_merge; [lia|exact L].
  - cbn [seq map]. replace (Nat.leb (k + S (length q)) k) with false by (symmetry; apply Nat.leb_gt; lia). cbn [merge]. f_equal.
    replace (k + S (length q)) with (S k + length q) by lia. apply IH. exact L.
Qed.

Lemma ln_entry os ns g (x : list K) q p : inr q os -> inr p ns ->
  exists y, layer_norm ns g (os ++ ns) x = Ok y /\ length y = size (os ++ ns)
    /\ at_ (os ++ ns) y (map Z.of_nat (q ++ p)) = g (tab ns (fun r => at_ (os ++ ns) x (map Z.of_nat (q ++ r)))) p.
Proof.
  intros Hq Hp. pose proof (inr_len _ _ Hq) as Lq. pose proof (inr_len _ _ Hp) as Lp. unfold layer_norm. rewrite app_length.
  replace (length os + length ns - length ns) with (length os) by lia. rewrite skipn_app, skipn_all, Nat.sub_diag. cbn [skipn app].
  destruct (list_eq_dec Nat.eq_dec ns ns) as [_|N]; [|contradiction N; reflexivity].
  eexists. split; [reflexivity|]. unfold along. split; [apply tab_len|].
  assert (Hx : inr (q ++ p) (os ++ ns)) by (apply Forall2_app; assumption).
  rewrite at_tab_in by exact Hx. unfold last_axes. replace (length os + length ns - length ns) with (length os) by lia.
  pose proof (last_pick os ns 0) as P1. cbn [plus] in P1. rewrite P1.
  pose proof (last_pick q p 0) as P2. cbn [plus] in P2. rewrite Lq, Lp in P2. rewrite P2. f_equal. apply tab_ext. intros r Hr.
  pose proof (last_merge r q p 0) as P3. cbn [plus] in P3. rewrite Lq, Lp in P3. rewrite P3; [reflexivity|]. exact (inr_len _ _ Hr).
Qed.
End E.

Lemma dimension_all rank dim :
  match dimension rank dim with
  | Ok d => d < rank /\ (dim = Z.of_nat d \/ dim = Z.of_nat d - Z.of_nat rank)%Z
  | Err e => e = IndexError /\ (dim < - Z.of_nat rank \/ Z.of_nat rank <= dim)%Z
  end.
Proof.
  unfold dimension. destruct (Z.leb_spec 0 dim), (Z.ltb_spec dim (Z.of_nat rank)); cbn [andb]; [lia| | |lia];
    destruct (Z.leb_spec (- Z.of_nat rank) dim), (Z.ltb_spec dim 0); cbn [andb]; try (split; [reflexivity|]); lia.
Qed.
