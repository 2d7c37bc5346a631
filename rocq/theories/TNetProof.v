(** Networks of tensor modules (C65). *)
From Coq Require Import List ZArith Bool Arith Lia.
From Verif Require Import Base Attn Frames CoMod Leaf Spec LeafSpec LeafProof LeafMore NetRel RelProof NetOk Tensor TensorProof
  TConv TConvSpec TConvProof TPool TPoolSpec TPoolProof TAttn TAttnProof TRnn TRnnSpec TRnnProof TNet TNetSpec.
Import ListNotations.

(* ------------------------------------------------------------------ *)
(** ** Schedules *)

Section Sched.
Context {A B : Type}.
Fixpoint weave (ys : list (option A)) (zs : list (option B)) : list (option B) :=
  match ys with
  | [] => []
  | None :: t => None :: weave t zs
  | Some _ :: t => match zs with z :: zt => z :: weave t zt | [] => [] end
  end.
Lemma weave_none ys : forall zs, length zs = length (somes ys) -> weave (ys ++ [None]) zs = weave ys zs ++ [None].
Proof.
  induction ys as [|[a|] ys IH]; intros zs H; cbn in *; [reflexivity| |].
  - destruct zs as [|z zs]; [discriminate|]. cbn. f_equal. apply IH. injection H as H. exact H.
  - f_equal. apply IH. exact H.
Qed.
Lemma weave_some ys a z : forall zs, length zs = length (somes ys) -> weave (ys ++ [Some a]) (zs ++ [z]) = weave ys zs ++ [z].
Proof.
  induction ys as [|[a'|] ys IH]; intros zs H; cbn in *.
  - destruct zs; [reflexivity|discriminate].
  - destruct zs as [|z' zs]; [discriminate|]. cbn. f_equal. apply IH. injection H as H. exact H.
  - f_equal. apply IH. exact H.
Qed.
Lemma weave_somes ys : forall zs, length zs = length (somes ys) -> somes (weave ys zs) = somes zs.
Proof.
  induction ys as [|[a'|] ys IH]; intros zs H; cbn in *.
  - destruct zs; [reflexivity|discriminate].
  - destruct zs as [|z' zs]; [discriminate|]. cbn. rewrite IH by (injection H as H; exact H). reflexivity.
  - apply IH. exact H.
Qed.

(** Number of emissions before step [n]. *)
Definition cnt (d s n : nat) : nat := (n - d + s - 1) / s.
Lemma cnt_emit d s n : 1 <= s -> emits d s n = true -> (n - d) / s = cnt d s n /\ cnt d s (S n) = S (cnt d s n).
Proof.
  intros Hs H. unfold emits in H. apply andb_true_iff in H as [H1 H2]. apply Nat.leb_le in H1. apply Nat.eqb_eq in H2.
  unfold cnt. pose proof (Nat.div_mod (n - d) s ltac:(lia)) as E. rewrite H2, Nat.add_0_r in E.
  set (q := (n - d) / s) in *.
  assert (Q1 : (n - d + s - 1) / s = q) by (symmetry; apply (Nat.div_unique _ _ q (s - 1)); lia).
  assert (Q2 : (S n - d + s - 1) / s = S q) by (symmetry; apply (Nat.div_unique _ _ (S q) 0); lia).
  rewrite Q1, Q2. auto.
Qed.
Lemma cnt_none d s n : 1 <= s -> emits d s n = false -> cnt d s (S n) = cnt d s n.
Proof.
  intros Hs H. unfold emits in H. apply andb_false_iff in H. unfold cnt. destruct (Nat.leb_spec d n) as [Hd|Hd].
  - destruct H as [H|H]; [discriminate|]. apply Nat.eqb_neq in H.
    pose proof (Nat.div_mod (n - d) s ltac:(lia)) as E. pose proof (Nat.mod_upper_bound (n - d) s ltac:(lia)) as L.
    set (q := (n - d) / s) in *. set (r := (n - d) mod s) in *.
    transitivity (q + 1); [symmetry; apply (Nat.div_unique _ _ (q + 1) r)|apply (Nat.div_unique _ _ (q + 1) (r - 1))]; lia.
  - f_equal. lia.
Qed.
Lemma cnt_le d s n L : 1 <= s -> n <= d + s * L -> cnt d s n <= L.
Proof. intros Hs H. unfold cnt. apply Nat.lt_succ_r. apply Nat.div_lt_upper_bound; nia. Qed.

Lemma emits_comp d1 s1 d2 s2 n : 1 <= s1 -> 1 <= s2 ->
  emits (d1 + s1 * d2) (s1 * s2) n = emits d1 s1 n && emits d2 s2 ((n - d1) / s1).
Proof.
  intros H1 H2. unfold emits. destruct (Nat.leb_spec d1 n) as [Hd|Hd]; cbn [andb].
  2: { destruct (Nat.leb_spec (d1 + s1 * d2) n); [nia|reflexivity]. }
  pose proof (Nat.div_mod (n - d1) s1 ltac:(lia)) as E. pose proof (Nat.mod_upper_bound (n - d1) s1 ltac:(lia)) as L.
  set (q := (n - d1) / s1) in *. set (r := (n - d1) mod s1) in *.
  destruct (Nat.leb_spec d2 q) as [Hq|Hq]; cbn [andb].
  2: { rewrite andb_false_r. destruct (Nat.leb_spec (d1 + s1 * d2) n); [nia|reflexivity]. }
  destruct (Nat.leb_spec (d1 + s1 * d2) n) as [Hn|Hn]; [|nia]. cbn [andb].
  replace (n - (d1 + s1 * d2)) with (r + s1 * (q - d2)) by nia.
  rewrite Nat.mod_mul_r by lia.
  assert (Ea : (r + s1 * (q - d2)) mod s1 = r) by (rewrite Nat.add_comm, Nat.mul_comm, Nat.add_comm; rewrite Nat.mod_add by lia; apply Nat.mod_small; lia).
  assert (Eb : (r + s1 * (q - d2)) / s1 = q - d2) by (symmetry; apply (Nat.div_unique _ _ _ r); lia).
  rewrite Ea, Eb. destruct (Nat.eqb_spec r 0) as [E0|E0]; cbn [andb].
  - subst r. rewrite E0. cbn [Nat.add]. destruct (Nat.eqb_spec ((q - d2) mod s2) 0) as [Em|Em].
    + rewrite Em, Nat.mul_0_r. reflexivity.
    + apply Nat.eqb_neq. nia.
  - apply Nat.eqb_neq. lia.
Qed.

Lemma somes_snoc (l : list (option A)) o : somes (l ++ [o]) = somes l ++ match o with Some a => [a] | None => [] end.
Proof. induction l as [|[a|] l IH]; cbn; [destruct o; reflexivity| |]; rewrite ?IH; reflexivity. Qed.
Lemma seq_snoc n : seq 0 (S n) = seq 0 n ++ [n].
Proof. rewrite seq_S. reflexivity. Qed.

Lemma sched_somes d s (ls : list A) n : 1 <= s -> n <= d + s * length ls ->
  somes (map (scheduled d s ls) (seq 0 n)) = firstn (cnt d s n) ls.
Proof.
  intros Hs. induction n as [|n IH]; intros Hn.
  - cbn [seq map somes]. assert (cnt d s 0 = 0) as -> by (unfold cnt; apply Nat.div_small; lia). reflexivity.
  - rewrite seq_snoc, map_app. cbn [map]. rewrite somes_snoc, IH by lia. unfold scheduled.
    destruct (emits d s n) eqn:E.
    + destruct (cnt_emit d s n Hs E) as [E1 E2]. rewrite E1, E2.
      assert (Hl : cnt d s n < length ls) by (pose proof (cnt_le d s (S n) (length ls) Hs Hn); lia).
      destruct (nth_error ls (cnt d s n)) as [a|] eqn:En; [|apply nth_error_None in En; lia].
      clear -En. revert En. generalize (cnt d s n). induction ls as [|x ls IH]; intros [|k] En; cbn in *; try discriminate.
      * injection En as ->. reflexivity.
      * f_equal. apply IH. exact En.
    + rewrite (cnt_none d s n Hs E), app_nil_r. reflexivity.
Qed.
Lemma sched_count d s (ls : list A) n : 1 <= s -> n <= d + s * length ls ->
  length (somes (map (scheduled d s ls) (seq 0 n))) = cnt d s n.
Proof. intros Hs Hn. rewrite sched_somes by assumption. apply firstn_length_le. apply cnt_le; assumption. Qed.

Lemma weave_sched d1 s1 (ls : list A) d2 s2 (ms : list B) n : 1 <= s1 -> 1 <= s2 -> n <= d1 + s1 * length ls ->
  weave (map (scheduled d1 s1 ls) (seq 0 n)) (map (scheduled d2 s2 ms) (seq 0 (cnt d1 s1 n))) =
  map (scheduled (d1 + s1 * d2) (s1 * s2) ms) (seq 0 n).
Proof.
  intros H1 H2. induction n as [|n IH]; intros Hn; [reflexivity|].
  rewrite seq_snoc, !map_app. cbn [map]. rewrite <- IH by lia.
  assert (Es : scheduled (d1 + s1 * d2) (s1 * s2) ms n =
               if emits d1 s1 n then scheduled d2 s2 ms ((n - d1) / s1) else None).
  { unfold scheduled at 1. rewrite emits_comp by assumption. destruct (emits d1 s1 n) eqn:E; cbn [andb]; [|reflexivity].
    unfold scheduled. destruct (emits d2 s2 ((n - d1) / s1)) eqn:E2; [|reflexivity]. f_equal.
    rewrite <- Nat.div_div by lia. f_equal. unfold emits in E, E2. apply andb_true_iff in E as [L1 M1]. apply andb_true_iff in E2 as [L2 _].
    apply Nat.leb_le in L1, L2. apply Nat.eqb_eq in M1. pose proof (Nat.div_mod (n - d1) s1 ltac:(lia)) as E. rewrite M1, Nat.add_0_r in E.
    set (q := (n - d1) / s1) in *. symmetry. apply (Nat.div_unique _ _ _ 0); nia. }
  rewrite Es. unfold scheduled at 2. destruct (emits d1 s1 n) eqn:E.
  - destruct (cnt_emit d1 s1 n H1 E) as [E1 E2]. rewrite E1, E2, seq_snoc, map_app. cbn [map].
    assert (Hl : cnt d1 s1 n < length ls) by (pose proof (cnt_le d1 s1 (S n) (length ls) H1 Hn); lia).
    destruct (nth_error ls (cnt d1 s1 n)) as [a|] eqn:En; [|apply nth_error_None in En; lia].
    apply weave_some. rewrite map_length, seq_length, sched_count by (assumption || lia). reflexivity.
  - rewrite (cnt_none d1 s1 n H1 E). apply weave_none. rewrite map_length, seq_length, sched_count by (assumption || lia). reflexivity.
Qed.
End Sched.

(* ------------------------------------------------------------------ *)
(** ** Clips and frames *)

Section Indep.
Context {K : Type}.
Lemma at_indep (S1 S2 : Scal K) s (x : list K) ix : length x = size s -> inr ix s ->
  @at_ K S1 s x (map Z.of_nat ix) = @at_ K S2 s x (map Z.of_nat ix).
Proof.
  intros Hl Hi. unfold at_. destruct (offset s (map Z.of_nat ix)) as [o|] eqn:E.
  - apply nth_indep. rewrite Hl. exact (offset_lt _ _ _ E).
  - exfalso. apply offset_inside in E. rewrite inside_nat in E by exact Hi. discriminate.
Qed.
Lemma slice_indep (S1 S2 : Scal K) B C t dims (x : list K) i : length x = size (B :: C :: t :: dims) -> i < t ->
  @slice2 K S1 B C t dims x i = @slice2 K S2 B C t dims x i.
Proof.
  intros Hl Hi. unfold slice2. apply tab_ext. intros ix H. destruct (inr2 _ _ _ _ H) as (b & c & q & -> & Hb & Hc & Hq).
  apply at_indep; [exact Hl|]. repeat (constructor; [assumption|]). exact Hq.
Qed.
Lemma stack_indep (S1 S2 : Scal K) B C dims (l : list (list K)) : Forall (fun x => length x = size (B :: C :: dims)) l ->
  @stack2 K S1 B C dims l = @stack2 K S2 B C dims l.
Proof.
  intros HF. unfold stack2. apply tab_ext. intros ix H. destruct (inr2 _ _ _ _ H) as (b & c & q & -> & Hb & Hc & Hq).
  inversion Hq as [|t x q' y Ht Hq']; subst. apply at_indep; [|repeat (constructor; [assumption|]); exact Hq'].
  rewrite Forall_forall in HF. apply HF. apply nth_In. exact Ht.
Qed.
End Indep.

Section Net.
Context {K : Type} {SC : Scal K} {SL : ScalLaws K}.

Definition fr (B C : nat) (sp : list nat) (x : tens K) : Prop := sh x = B :: C :: sp /\ length (dat x) = size (B :: C :: sp).
Definition clip (B C : nat) (sp : list nat) (xs : list (tens K)) : tens K :=
  T (B :: C :: length xs :: sp) (stack2 B C sp (map dat xs)).

Lemma fr_eq B C sp x : fr B C sp x -> T (B :: C :: sp) (dat x) = x.
Proof. intros [E _]. rewrite <- E. destruct x; reflexivity. Qed.
Lemma fr_dats B C sp xs : Forall (fr B C sp) xs -> Forall (fun x => length x = size (B :: C :: sp)) (map dat xs).
Proof. intros H. apply Forall_map. eapply Forall_impl; [|exact H]. intros x [_ L]. exact L. Qed.
Lemma fr_map B C sp xs : Forall (fr B C sp) xs -> map (T (B :: C :: sp)) (map dat xs) = xs.
Proof. induction 1 as [|x xs Hx _ IH]; [reflexivity|]. cbn. rewrite IH, (fr_eq _ _ _ _ Hx). reflexivity. Qed.

Lemma slice_stack B C sp (l : list (list K)) i : Forall (fun x => length x = size (B :: C :: sp)) l -> i < length l ->
  slice2 B C (length l) sp (stack2 B C sp l) i = nth i l [].
Proof.
  intros HF Hi. unfold slice2, stack2.
  assert (Hl : length (nth i l []) = size (B :: C :: sp)) by (rewrite Forall_forall in HF; apply HF, nth_In, Hi).
  rewrite <- (tab_at (B :: C :: sp) (nth i l []) Hl). apply tab_ext. intros ix H.
  destruct (inr2 _ _ _ _ H) as (b & c & q & -> & Hb & Hc & Hq). rewrite at_tab_in; [reflexivity|].
  repeat (constructor; [assumption|]). exact Hq.
Qed.
Lemma slices_stack B C sp (l : list (list K)) n : Forall (fun x => length x = size (B :: C :: sp)) l -> n <= length l ->
  map (slice2 B C (length l) sp (stack2 B C sp l)) (seq 0 n) = firstn n l.
Proof.
  intros HF Hn. transitivity (map (fun i => nth i l []) (seq 0 n)).
  - apply map_ext_seq. intros i Hi. apply slice_stack; [exact HF|lia].
  - clear HF. revert l Hn. induction n as [|n IH]; intros l Hn; [reflexivity|]. destruct l as [|x l]; [cbn in Hn; lia|].
    cbn [seq map firstn nth]. f_equal. rewrite <- seq_shift, map_map. apply IH. cbn in Hn. lia.
Qed.
Lemma stack_len B C sp (l : list (list K)) : length (stack2 B C sp l) = size (B :: C :: length l :: sp).
Proof. apply tab_len. Qed.
Lemma frames_clip B C sp xs : Forall (fr B C sp) xs -> frames_of (clip B C sp xs) = xs.
Proof.
  intros HF. unfold frames_of, clip. cbn [sh dat].
  transitivity (map (T (B :: C :: sp)) (map (slice2 B C (length (map dat xs)) sp (stack2 B C sp (map dat xs))) (seq 0 (length (map dat xs))))).
  - rewrite map_map, map_length. reflexivity.
  - rewrite slices_stack by (apply fr_dats, HF || lia). rewrite firstn_all. apply fr_map, HF.
Qed.
Lemma clip_frames B C t sp X : whole X -> sh X = B :: C :: t :: sp ->
  clip B C sp (frames_of X) = X /\ Forall (fr B C sp) (frames_of X) /\ length (frames_of X) = t.
Proof.
  intros W E. unfold whole in W. rewrite E in W. unfold frames_of, clip. rewrite E. rewrite !map_length, seq_length. repeat split.
  - rewrite map_map. cbn [dat]. rewrite stack_slices by exact W. rewrite <- E. destruct X; reflexivity.
  - apply Forall_map. apply Forall_forall. intros i _. split; [reflexivity|]. apply slice_len.
Qed.
Lemma clip_of_clip B C sp xs : Forall (fr B C sp) xs -> xs <> [] -> clip_of xs = Some (clip B C sp xs).
Proof.
  intros HF Hn. destruct xs as [|x xs]; [congruence|]. inversion HF as [|? ? [E _] _]; subst. unfold clip_of. rewrite E. reflexivity.
Qed.
Lemma firstn_fr B C sp n xs : Forall (fr B C sp) xs -> Forall (fr B C sp) (firstn n xs).
Proof. intros H. apply Forall_forall. intros x Hx. rewrite Forall_forall in H. apply H. rewrite <- (firstn_skipn n xs). apply in_or_app. left. exact Hx. Qed.

(** *** The contract of a module *)

Definition sched (m : kmod K) (ys : list (tens K)) (n : nat) : list (option (tens K)) :=
  map (scheduled (kdel m) (kstr m) ys) (seq 0 n).
Record good (B : nat) (m : kmod K) (C : nat) (sp : list nat) (C' : nat) (sp' : list nat) (t : nat) : Prop := {
  g_str : 1 <= kstr m;
  g_len : 1 <= klen m t;
  g_cov : t <= kdel m + kstr m * klen m t;
  g_run : forall xs, length xs = t -> Forall (fr B C sp) xs ->
    exists ys, Forall (fr B C' sp') ys /\ length ys = klen m t /\
      kfwd m (clip B C sp xs) = Ok (clip B C' sp' ys) /\
      (forall n, n <= t -> exists m',
         feed kstep m (firstn n xs) = Ok (sched m ys n, m') /\
         (1 <= n -> ksteps false m (clip B C sp (firstn n xs)) = Ok (clip_of (somes (sched m ys n)), m'))) /\
      exists m', ksteps true m (clip B C sp xs) = Ok (Some (clip B C' sp' ys), m')
}.

(** Feeding frames to a leaf that keeps plain data. *)
Section Wrap.
Context {O : Type} (W : O -> kmod K) (st : O -> list K -> res (option (list K) * O)) (ish osh : list nat).
Hypothesis H : forall o x, sh x = ish -> kstep (W o) x = bind (st o (dat x)) (fun p => Ok (option_map (T osh) (fst p), W (snd p))).
Lemma feed_lift xs : Forall (fun x => sh x = ish) xs -> forall o ys o', feed st o (map dat xs) = Ok (ys, o') ->
  feed kstep (W o) xs = Ok (map (option_map (T osh)) ys, W o').
Proof.
  induction 1 as [|x xs Hx _ IH]; intros o ys o' E; cbn [map feed] in *.
  - injection E as <- <-. reflexivity.
  - rewrite H by exact Hx. destruct (st o (dat x)) as [[y o1]|]; [|discriminate]. cbn [bind fst snd] in *.
    destruct (feed st o1 (map dat xs)) as [[ys1 o2]|] eqn:E1; [|discriminate]. cbn [bind] in E. injection E as <- <-.
    rewrite (IH o1 ys1 o2 E1). reflexivity.
Qed.
End Wrap.

(** Without padding, [forward_steps] of a CoModule is a loop of steps. *)
Definition full {St} (s : option (obj St)) : Prop := match s with Some o => o_buf o <> [] | None => True end.
Section Loop.
Context {F St : Type} (fs : F -> option (obj St) -> res (option F * option (obj St))).
Hypothesis Hf : forall x s y s', fs x s = Ok (y, s') -> full s -> full s' /\ (s' = None -> s = None).
Lemma get_full (o : obj St) : full (obj_get o).
Proof. unfold obj_get, full. destruct (o_buf o) eqn:E; [exact I|]. rewrite E. discriminate. Qed.
Lemma loop_of_feed xs : forall o ys o',
  feed (fun o x => co_forward_step obj_get obj_set fs o x true) o xs = Ok (ys, o') ->
  exists s, co_loop fs xs (obj_get o) = Ok (somes ys, s) /\ (s = None -> o' = o /\ obj_get o = None) /\ (forall v, s = Some v -> o' = v \/ (o' = o /\ obj_get o = Some v)).
Proof.
  induction xs as [|x xs IH]; intros o ys o' E; cbn [feed] in E.
  - injection E as <- <-. exists (obj_get o). cbn. repeat split; auto.
  - unfold co_forward_step in E at 1. destruct (fs x (obj_get o)) as [[y s1]|] eqn:Ef; [|discriminate]. cbn [bind] in E.
    destruct (Hf _ _ _ _ Ef (get_full o)) as [Hs1 Hn1].
    set (o1 := match s1 with Some s => obj_set o s | None => o end) in *.
    assert (G : obj_get o1 = s1).
    { unfold o1. destruct s1 as [s|]; [|apply Hn1; reflexivity]. unfold obj_set, obj_get. cbn [full] in Hs1. destruct (o_buf s); [congruence|reflexivity]. }
    destruct (feed _ o1 xs) as [[ys1 o2]|] eqn:E1; [|discriminate]. cbn [bind] in E. injection E as <- <-.
    destruct (IH o1 ys1 o2 E1) as (s & L & N & V). rewrite G in L. exists s. cbn [co_loop]. rewrite Ef. cbn [bind]. rewrite L. cbn [bind somes].
    split; [destruct y; reflexivity|]. split.
    + intros ->. destruct (N eq_refl) as [-> N2]. rewrite G in N2. unfold o1. rewrite N2. split; [reflexivity|]. apply Hn1. exact N2.
    + intros v ->. destruct (V v eq_refl) as [->|[-> V2]]; [left; reflexivity|]. rewrite G in V2. left. unfold o1. rewrite V2. reflexivity.
Qed.
Lemma steps_of_feed mkp pad xs o ys o' :
  feed (fun o x => co_forward_step obj_get obj_set fs o x true) o xs = Ok (ys, o') ->
  co_forward_steps obj_get obj_set fs mkp pad o xs false true = Ok (stack_outs (somes ys), o').
Proof.
  intros E. destruct (loop_of_feed xs o ys o' E) as (s & L & N & V). unfold co_forward_steps. rewrite L. cbn [bind]. rewrite app_nil_r.
  do 2 f_equal. destruct s as [v|].
  - destruct (V v eq_refl) as [->|[-> V2]]; [reflexivity|]. unfold obj_get in V2. destruct (o_buf o); [discriminate|]. injection V2 as ->. reflexivity.
  - destruct (N eq_refl) as [-> _]. reflexivity.
Qed.
End Loop.

Lemma somes_map {A A'} (f : A -> A') l : somes (map (option_map f) l) = map f (somes l).
Proof. induction l as [|[a|] l IH]; cbn; rewrite ?IH; reflexivity. Qed.
Lemma stack_outs_clip s (l : list (list K)) :
  match stack_outs l with Some ys => clip_of (map (T s) ys) | None => None end = clip_of (map (T s) l).
Proof. destruct l; reflexivity. Qed.

End Net.
