(** Proofs on the construction of containers. *)
From Coq Require Import String Ascii Decimal DecimalString DecimalNat DecimalFacts List ZArith Bool Arith Lia.
From Verif Require Import Base Frames CoMod Leaf Rnn Net Calls NetAlg Build BuildSpec.
Import ListNotations.

(* ------------------------------------------------------------------ *)
(** ** Names *)

Lemma to_uint_nonnil n : Nat.to_uint n <> Nil.
Proof. rewrite <- (Unsigned.of_to n), Unsigned.to_of. apply unorm_nonnil. Qed.
Lemma str_inj i j : str i = str j -> i = j.
Proof.
  unfold str. intros E. apply (f_equal NilZero.uint_of_string) in E.
  rewrite !NilZero.usu in E by apply to_uint_nonnil.
  injection E as E. now apply Unsigned.to_uint_inj.
Qed.

Lemma has_dot_uint u : has_dot (NilEmpty.string_of_uint u) = false.
Proof. induction u; cbn; auto. Qed.
Lemma str_dot n : has_dot (str n) = false.
Proof. unfold str, NilZero.string_of_uint. destruct (Nat.to_uint n); try apply has_dot_uint; reflexivity. Qed.
Lemma str_ne n : String.eqb (str n) "" = false.
Proof. unfold str, NilZero.string_of_uint. destruct (Nat.to_uint n); reflexivity. Qed.

Lemma has_dot_iff s : has_dot s = true <-> exists a b, s = (a ++ "." ++ b)%string.
Proof.
  split.
  - induction s as [|c s IH]; cbn; [discriminate|]. intros H. apply orb_prop in H as [H|H].
    + apply Ascii.eqb_eq in H as ->. exists EmptyString, s. reflexivity.
    + destruct (IH H) as (a & b & ->). exists (String c a), b. reflexivity.
  - intros (a & b & ->). induction a as [|c a IH]; [reflexivity|]. change (Ascii.eqb c "." || has_dot (a ++ "." ++ b) = true)%string%bool. rewrite IH. apply orb_true_r.
Qed.

Section Build.
Context {F : Type} {FA : Frames F} {FL : FrameLaws F}.
Variable reserved : string -> bool.

Definition ok_name k := negb (reserved k) && negb (has_dot k) && negb (String.eqb k "").
Lemma ok_name_good k : ok_name k = true <-> good_name reserved k.
Proof.
  unfold ok_name, good_name. split.
  - intros H. apply andb_prop in H as [H H3]. apply andb_prop in H as [H1 H2]. apply negb_true_iff in H1, H2, H3.
    split; [now apply String.eqb_neq|]. split; [auto|]. intros a b E.
    assert (has_dot k = true) by (apply has_dot_iff; eauto). congruence.
  - intros (H1 & H2 & H3). rewrite H2. apply String.eqb_neq in H1. rewrite H1.
    destruct (has_dot k) eqn:E; [|reflexivity]. apply has_dot_iff in E as (a & b & E). now apply H3 in E.
Qed.
Lemma ok_name_str n : numerals_free reserved -> ok_name (str n) = true.
Proof. intros H. unfold ok_name. now rewrite H, str_dot, str_ne. Qed.

Lemma has_key_in (d : named F) k : has_key d k = true <-> In k (map fst d).
Proof.
  unfold has_key. rewrite existsb_exists. split.
  - intros (x & Hx & E). apply String.eqb_eq in E as <-. now apply in_map.
  - intros H. apply in_map_iff in H as (x & <- & Hx). exists x. split; auto. apply String.eqb_refl.
Qed.
Lemma has_key_false (d : named F) k : has_key d k = false <-> ~ In k (map fst d).
Proof. rewrite <- has_key_in. destruct (has_key d k); split; congruence. Qed.

Lemma dict_set_new (d : named F) k m : ~ In k (map fst d) -> dict_set d k m = d ++ [(k, m)].
Proof.
  induction d as [|[k' m'] d IH]; cbn; [reflexivity|]. intros H.
  destruct (String.eqb_spec k' k); [tauto|]. rewrite IH; tauto.
Qed.

Lemma dict_set_old (a b : named F) k m0 m : ~ In k (map fst a) -> dict_set (a ++ (k, m0) :: b) k m = a ++ (k, m) :: b.
Proof.
  induction a as [|[k' m'] a IH]; cbn; intros H.
  - now rewrite String.eqb_refl.
  - destruct (String.eqb_spec k' k); [tauto|]. rewrite IH; tauto.
Qed.

Lemma add_module_ok (d : named F) k m : ok_name k = true -> add_module reserved d k m = Ok (dict_set d k m).
Proof.
  unfold ok_name, add_module. intros H. apply andb_prop in H as [H H3]. apply andb_prop in H as [H1 H2].
  apply negb_true_iff in H1, H2, H3. now rewrite H1, H2, H3.
Qed.
Lemma add_module_bad (d : named F) k m : ok_name k = false -> ~ In k (map fst d) -> add_module reserved d k m = Err KeyError.
Proof.
  unfold ok_name, add_module. intros H Hk. apply has_key_false in Hk. rewrite Hk.
  destruct (reserved k), (has_dot k), (String.eqb k ""); cbn in *; congruence.
Qed.

Lemma add_all_ok (l : named F) : forall d, NoDup (map fst (d ++ l)) -> (forall k, In k (map fst l) -> ok_name k = true) ->
  add_all reserved d l = Ok (d ++ l).
Proof.
  induction l as [|[k m] l IH]; intros d Hn Hk; cbn [add_all]; [now rewrite app_nil_r|].
  rewrite add_module_ok by (apply Hk; now left). cbn [bind].
  rewrite map_app in Hn. cbn [map fst] in Hn. pose proof (NoDup_remove_2 _ _ _ Hn) as Hk'. rewrite in_app_iff in Hk'.
  rewrite dict_set_new by tauto. rewrite IH.
  - now rewrite <- app_assoc.
  - rewrite <- app_assoc, map_app. exact Hn.
  - intros k' H. apply Hk. now right.
Qed.

Lemma add_all_bad (l : named F) k : In k (map fst l) -> ok_name k = false -> forall d, NoDup (map fst (d ++ l)) ->
  add_all reserved d l = Err KeyError.
Proof.
  induction l as [|[k0 m] l IH]; intros Hi Hb d Hn; cbn [add_all]; [destruct Hi|].
  rewrite map_app in Hn. cbn [map fst] in Hn. pose proof (NoDup_remove_2 _ _ _ Hn) as Hk'. rewrite in_app_iff in Hk'.
  destruct (ok_name k0) eqn:E.
  - rewrite add_module_ok by auto. cbn [bind]. rewrite dict_set_new by tauto. apply IH; auto.
    + destruct Hi as [Hi|Hi]; [cbn in Hi; congruence|auto].
    + rewrite <- app_assoc, map_app. exact Hn.
  - rewrite add_module_bad; [reflexivity|auto|tauto].
Qed.

Lemma map_combine_fst {A B} (a : list A) (b : list B) : length a = length b -> map fst (combine a b) = a.
Proof. revert b. induction a; destruct b; cbn; intros; try congruence; f_equal; auto. Qed.
Lemma map_combine_snd {A B} (a : list A) (b : list B) : length a = length b -> map snd (combine a b) = b.
Proof. revert b. induction a; destruct b; cbn; intros; try congruence; f_equal; auto. Qed.

Lemma infer_cons (m : md F) t : exists m', infer_streams (m :: t) = m' :: infer_streams t.
Proof. destruct m; cbn [infer_streams]; eauto. destruct t as [|[] ?]; eauto. Qed.
Lemma infer_len (ms : list (md F)) : length (infer_streams ms) = length ms.
Proof. induction ms as [|m t IH]; [reflexivity|]. destruct (infer_cons m t) as [m' ->]. cbn. auto. Qed.
Lemma auto_len (ms : list (md F)) : length (auto_delay ms) = length ms.
Proof. unfold auto_delay. apply map_length. Qed.

Lemma on_values_fst f (d : named F) : (forall l, length (f l) = length l) -> map fst (on_values f d) = map fst d.
Proof. intros H. unfold on_values. apply map_combine_fst. rewrite H, !map_length. reflexivity. Qed.
Lemma on_values_snd f (d : named F) : (forall l, length (f l) = length l) -> map snd (on_values f d) = f (map snd d).
Proof. intros H. unfold on_values. apply map_combine_snd. rewrite H, !map_length. reflexivity. Qed.

(** Numbered children. *)
Definition numbered (ms : list (md F)) : named F := combine (map str (seq 0 (length ms))) ms.
Lemma num_len (ms : list (md F)) : length (map str (seq 0 (length ms))) = length ms.
Proof. now rewrite map_length, seq_length. Qed.
Lemma numbered_fst (ms : list (md F)) : map fst (numbered ms) = map str (seq 0 (length ms)).
Proof. apply map_combine_fst, num_len. Qed.
Lemma numbered_snd (ms : list (md F)) : map snd (numbered ms) = ms.
Proof. apply map_combine_snd, num_len. Qed.
Lemma strs_nodup a n : NoDup (map str (seq a n)).
Proof. apply FinFun.Injective_map_NoDup; [intros x y; apply str_inj|apply seq_NoDup]. Qed.
Lemma numbered_app (ms ls : list (md F)) : numbered (ms ++ ls)
  = numbered ms ++ combine (map str (seq (length ms) (length ls))) ls.
Proof.
  unfold numbered. rewrite app_length, seq_app, map_app. cbn [Nat.add]. 
  assert (G : forall (a c : list string) (b e : list (md F)), length a = length b -> combine (a ++ c) (b ++ e) = combine a b ++ combine c e).
  { induction a; destruct b; cbn; intros; try congruence. f_equal. auto. }
  apply G, num_len.
Qed.
Lemma named_eq (d d' : named F) : map fst d = map fst d' -> map snd d = map snd d' -> d = d'.
Proof.
  revert d'. induction d as [|[k m] d IH]; destruct d' as [|[k' m'] d']; cbn; intros; try congruence.
  f_equal; [|apply IH]; congruence.
Qed.
Lemma on_values_numbered f ms : (forall l, length (f l) = length l) ->
  on_values f (numbered ms) = numbered (f ms).
Proof.
  intros H. apply named_eq.
  - rewrite on_values_fst, !numbered_fst by auto. now rewrite H.
  - rewrite on_values_snd, !numbered_snd by auto. reflexivity.
Qed.

Section Num.
Hypothesis NF : numerals_free reserved.

Lemma add_all_numbered (ms : list (md F)) : add_all reserved [] (numbered ms) = Ok (numbered ms).
Proof.
  apply (add_all_ok (numbered ms) []).
  - cbn [app]. rewrite numbered_fst. apply strs_nodup.
  - rewrite numbered_fst. intros k H. apply in_map_iff in H as (i & <- & _). now apply ok_name_str.
Qed.

Lemma co_seq_pos (ms : list (md F)) : co_sequential reserved (APos ms) = Ok (CSeq (numbered (infer_streams ms))).
Proof.
  unfold co_sequential. cbn [items]. fold (numbered ms). rewrite on_values_numbered by apply infer_len.
  now rewrite add_all_numbered.
Qed.

Theorem seq_pos_runs (ms : list (md F)) : exists c, co_sequential reserved (APos ms) = Ok c /\ run_as c = mk_seq ms /\
  map fst (kids c) = map str (seq 0 (length ms)).
Proof.
  rewrite co_seq_pos. eexists. split; [reflexivity|]. cbn [run_as kids]. rewrite numbered_snd, numbered_fst, infer_len. auto.
Qed.
End Num.

Theorem seq_dict_ok (d : named F) : NoDup (map fst d) -> (forall k, In k (map fst d) -> good_name reserved k) ->
  exists c, co_sequential reserved (ADict d) = Ok c /\ run_as c = mk_seq (map snd d) /\ map fst (kids c) = map fst d.
Proof.
  intros Hn Hk. unfold co_sequential. cbn [items]. rewrite add_all_ok.
  - cbn [bind]. eexists. split; [reflexivity|]. cbn [app run_as kids]. rewrite on_values_snd, on_values_fst by apply infer_len. auto.
  - cbn [app]. rewrite on_values_fst by apply infer_len. auto.
  - rewrite on_values_fst by apply infer_len. intros k H. now apply ok_name_good, Hk.
Qed.

Theorem seq_dict_bad (d : named F) k : NoDup (map fst d) -> In k (map fst d) -> ~ good_name reserved k ->
  co_sequential reserved (ADict d) = Err KeyError.
Proof.
  intros Hn Hk Hb. unfold co_sequential. cbn [items]. rewrite add_all_bad with (k := k); [reflexivity| | |].
  - rewrite on_values_fst by apply infer_len. auto.
  - destruct (ok_name k) eqn:E; [|reflexivity]. now apply ok_name_good in E.
  - cbn [app]. rewrite on_values_fst by apply infer_len. auto.
Qed.

(* ------------------------------------------------------------------ *)
(** ** append *)

Lemma infer_id (ls : list (md F)) : (forall i, ~ needs_streams ls i) -> infer_streams ls = ls.
Proof.
  induction ls as [|m t IH]; intros H; [reflexivity|].
  assert (Ht : infer_streams t = t).
  { apply IH. intros i (n & ps & A & B & C). apply (H (S i)). exists n, ps. auto. }
  destruct m; cbn [infer_streams]; try (now rewrite Ht).
  destruct t as [|p t]; [reflexivity|]. destruct p; try (now rewrite Ht).
  rewrite Ht. destruct n as [[|k]|]; try reflexivity; exfalso; apply (H 0).
  - exists (Some 0), ms. auto.
  - exists None, ms. auto.
Qed.

Lemma infer_app (ms ls : list (md F)) : (forall i, length ms <= S i -> ~ needs_streams (ms ++ ls) i) ->
  infer_streams (ms ++ ls) = infer_streams ms ++ ls.
Proof.
  induction ms as [|m t IH]; intros H.
  - apply infer_id. intros i. apply (H i). cbn. lia.
  - assert (Ht : infer_streams (t ++ ls) = infer_streams t ++ ls).
    { apply IH. intros i Hi (n & ps & A & B & C). apply (H (S i)); [cbn; lia|]. exists n, ps. auto. }
    destruct m; cbn [app infer_streams]; try (now rewrite Ht).
    destruct t as [|p t].
    + cbn [app] in *. destruct ls as [|p ls]; [reflexivity|]. destruct p; try (now rewrite Ht).
      destruct n as [[|k]|]; try (now rewrite Ht); exfalso; apply (H 0); try (cbn; lia).
      * exists (Some 0), ms. auto.
      * exists None, ms. auto.
    + cbn [app] in *. destruct p; rewrite Ht; reflexivity.
Qed.

Lemma kids_with (c : cont F) d : kids (with_kids c d) = d.
Proof. destruct c; reflexivity. Qed.
Lemma with_with (c : cont F) d e : with_kids (with_kids c d) e = with_kids c e.
Proof. destruct c; reflexivity. Qed.

Lemma append_numbered (c : cont F) ms m : numerals_free reserved -> kids c = numbered ms ->
  append reserved c m = Ok (with_kids c (numbered (ms ++ [m]))).
Proof.
  intros NF E. unfold append. rewrite E.
  assert (L : length (numbered ms) = length ms) by (rewrite <- (map_length snd), numbered_snd; reflexivity).
  rewrite L, add_module_ok by now apply ok_name_str. cbn [bind].
  rewrite dict_set_new, numbered_app; [reflexivity|].
  rewrite numbered_fst. intros H. apply in_map_iff in H as (i & Hi & H). apply str_inj in Hi. apply in_seq in H. lia.
Qed.

Lemma append_all_numbered (c : cont F) ls : numerals_free reserved -> forall ms, kids c = numbered ms ->
  append_all reserved c ls = Ok (with_kids c (numbered (ms ++ ls))).
Proof.
  intros NF. revert c. induction ls as [|m ls IH]; intros c ms E; cbn [append_all].
  - rewrite app_nil_r, <- E. destruct c; reflexivity.
  - rewrite append_numbered with (ms := ms) by auto. cbn [bind].
    rewrite IH with (ms := ms ++ [m]) by apply kids_with. rewrite with_with, <- app_assoc. reflexivity.
Qed.

Theorem append_is_constructor (ms ls : list (md F)) : numerals_free reserved ->
  (forall i, length ms <= S i -> ~ needs_streams (ms ++ ls) i) ->
  (c <- co_sequential reserved (APos ms) ;; append_all reserved c ls) = co_sequential reserved (APos (ms ++ ls)).
Proof.
  intros NF H. rewrite !co_seq_pos by auto. cbn [bind].
  rewrite append_all_numbered with (ms := infer_streams ms) by auto. cbn [with_kids]. now rewrite infer_app.
Qed.

(** append on arbitrary names. *)
Theorem append_dict (c : cont F) m : numerals_free reserved ->
  (~ In (str (length (kids c))) (map fst (kids c)) ->
     append reserved c m = Ok (with_kids c (kids c ++ [(str (length (kids c)), m)]))) /\
  (forall a b m0, kids c = a ++ (str (length (kids c)), m0) :: b -> ~ In (str (length (kids c))) (map fst a) ->
     append reserved c m = Ok (with_kids c (a ++ (str (length (kids c)), m) :: b))).
Proof.
  intros NF. unfold append. rewrite add_module_ok by now apply ok_name_str. cbn [bind]. split.
  - intros H. now rewrite dict_set_new.
  - intros a b m0 E H. rewrite E at 1. now rewrite dict_set_old.
Qed.

(* ------------------------------------------------------------------ *)
(** ** Slices *)

Definition slice {A} (a b : nat) (l : list A) : list A := firstn (b - a) (skipn a l).

Lemma map_slice {A B} (f : A -> B) a b l : map f (slice a b l) = slice a b (map f l).
Proof. unfold slice. now rewrite <- firstn_map, <- skipn_map. Qed.
Lemma slice_seq n a b : slice a b (seq 0 n) = seq a (Nat.min b n - a).
Proof.
  unfold slice. 
  assert (S1 : forall k i m, skipn k (seq i m) = seq (i + k) (m - k)).
  { induction k; intros i m; [rewrite Nat.add_0_r, Nat.sub_0_r; reflexivity|]. destruct m; [reflexivity|].
    cbn [seq skipn]. rewrite IHk. f_equal; lia. }
  assert (S2 : forall k i m, firstn k (seq i m) = seq i (Nat.min k m)).
  { induction k; intros i m; [reflexivity|]. destruct m; [reflexivity|]. cbn [seq firstn Nat.min]. now rewrite IHk. }
  rewrite S1, S2. f_equal. lia.
Qed.

(** Lists in which nothing is left to infer. *)
Lemma infer_idem (ms : list (md F)) : infer_streams (infer_streams ms) = infer_streams ms.
Proof.
  induction ms as [|m t IH]; [reflexivity|].
  destruct m; cbn [infer_streams]; try (now rewrite IH).
  destruct t as [|p t]; [reflexivity|].
  destruct p; cbn [infer_streams] in *; try (now rewrite IH).
  - rewrite IH. destruct t as [|[] t]; reflexivity.
  - injection IH as ->. destruct n as [[|k]|]; [|reflexivity|]; destruct ms; reflexivity.
Qed.
Lemma stable_tl (m : md F) t : infer_streams (m :: t) = m :: t -> infer_streams t = t.
Proof. destruct (infer_cons m t) as [m' ->]. congruence. Qed.
Lemma stable_skipn n (l : list (md F)) : infer_streams l = l -> infer_streams (skipn n l) = skipn n l.
Proof. revert l. induction n; intros l H; [exact H|]. destruct l; [reflexivity|]. cbn. eapply IHn, stable_tl, H. Qed.
Lemma stable_firstn n (l : list (md F)) : infer_streams l = l -> infer_streams (firstn n l) = firstn n l.
Proof.
  revert l. induction n; intros l H; [reflexivity|]. destruct l as [|m t]; [reflexivity|]. cbn [firstn].
  pose proof (IHn t (stable_tl _ _ H)) as E. destruct m; cbn [infer_streams]; try (now rewrite E).
  destruct n as [|n]; [reflexivity|]. destruct t as [|p t]; [reflexivity|]. cbn [firstn] in *.
  destruct p; try (now rewrite E). rewrite E. cbn [infer_streams] in H. congruence.
Qed.

Lemma slice_seq_pos (ms : list (md F)) a b : numerals_free reserved ->
  (c <- co_sequential reserved (APos ms) ;; getslice reserved c a b)
  = Ok (CSeq (slice a b (numbered (infer_streams ms)))).
Proof.
  intros NF. rewrite co_seq_pos by auto. cbn [bind getslice kids]. fold (slice a b (numbered (infer_streams ms))).
  unfold co_sequential. cbn [items].
  assert (E : on_values infer_streams (slice a b (numbered (infer_streams ms))) = slice a b (numbered (infer_streams ms))).
  { apply named_eq; [apply on_values_fst, infer_len|]. rewrite on_values_snd by apply infer_len.
    rewrite map_slice, numbered_snd. apply stable_firstn, stable_skipn, infer_idem. }
  rewrite E, add_all_ok; [reflexivity| |]; cbn [app]; rewrite map_slice, numbered_fst, <- map_slice, slice_seq.
  - apply strs_nodup.
  - intros k H. apply in_map_iff in H as (i & <- & _). now apply ok_name_str.
Qed.

Theorem slice_runs (ms : list (md F)) a b : numerals_free reserved ->
  exists c, (c <- co_sequential reserved (APos ms) ;; getslice reserved c a b) = Ok c /\
    run_as c = MSeq (firstn (b - a) (skipn a (infer_streams ms))) /\
    map fst (kids c) = map str (seq a (Nat.min b (length ms) - a)).
Proof.
  intros NF. rewrite slice_seq_pos by auto. eexists. split; [reflexivity|]. cbn [run_as kids].
  rewrite map_slice, numbered_snd, map_slice, numbered_fst, <- map_slice, slice_seq, infer_len. auto.
Qed.

(** append to a slice. *)
Lemma firstn_skipn_set {A} (l : list A) i x : i < length l -> set_nth l i x = firstn i l ++ x :: skipn (S i) l.
Proof.
  revert i. induction l as [|y l IH]; cbn [length]; intros i H; [lia|]. destruct i; cbn; [reflexivity|].
  rewrite IH by lia. reflexivity.
Qed.

Lemma split_at {A} (l : list A) i x : i < length l -> l = firstn i l ++ nth i l x :: skipn (S i) l.
Proof.
  revert i. induction l as [|y l IH]; cbn [length]; intros i H; [lia|]. destruct i; [reflexivity|].
  cbn [firstn nth skipn app]. f_equal. apply (IH i). lia.
Qed.

Theorem append_to_slice (ms : list (md F)) a b m : numerals_free reserved -> a <= b -> b <= length ms ->
  (c <- co_sequential reserved (APos ms) ;; s <- getslice reserved c a b ;; s' <- append reserved s m ;; Ok (run_as s'))
  = Ok (MSeq (let l := firstn (b - a) (skipn a (infer_streams ms)) in
              if (0 <? a) && (2 * a <=? b) && (a <? b) then set_nth l (b - 2 * a) m else l ++ [m])).
Proof.
  intros NF Hab Hb. rewrite co_seq_pos by auto. cbn [bind].
  pose proof (slice_seq_pos ms a b NF) as E. rewrite co_seq_pos in E by auto. cbn [bind] in E. rewrite E. cbn [bind].
  set (d := slice a b (numbered (infer_streams ms))).
  assert (Dk : map fst d = map str (seq a (b - a))).
  { unfold d. rewrite map_slice, numbered_fst, <- map_slice, slice_seq, infer_len. do 2 f_equal. lia. }
  assert (Dv : map snd d = firstn (b - a) (skipn a (infer_streams ms))).
  { unfold d. now rewrite map_slice, numbered_snd. }
  assert (Dl : length d = b - a) by (rewrite <- (map_length fst), Dk, map_length, seq_length; reflexivity).
  rewrite <- Dv. cbv zeta. clearbody d. unfold append. cbn [kids]. rewrite Dl, add_module_ok by now apply ok_name_str. cbn [bind with_kids run_as].
  do 2 f_equal.
  destruct ((0 <? a) && (2 * a <=? b) && (a <? b)) eqn:G.
  - apply andb_prop in G as [G G3]. apply andb_prop in G as [G1 G2].
    apply Nat.ltb_lt in G1, G3. apply Nat.leb_le in G2.
    set (i := b - 2 * a). assert (Hi : i < length d) by lia.
    assert (Ed : d = firstn i d ++ nth i d (str 0, m) :: skipn (S i) d).
    { now apply split_at. }
    assert (Kn : fst (nth i d (str 0, m)) = str (b - a)).
    { rewrite <- (map_nth fst), Dk. cbn [fst]. rewrite map_nth, seq_nth by lia. f_equal. lia. }
    assert (Ke : ~ In (str (b - a)) (map fst (firstn i d))).
    { rewrite <- firstn_map, Dk. rewrite firstn_map. intros H. apply in_map_iff in H as (j & Hj & H). apply str_inj in Hj.
      assert (In j (seq a i)); [|apply in_seq in H0; lia].
      replace (b - a) with (i + (b - a - i)) in H by lia. rewrite seq_app, firstn_app, seq_length, Nat.sub_diag, app_nil_r in H.
      rewrite firstn_all2 in H by (rewrite seq_length; lia). exact H. }
    destruct (nth i d (str 0, m)) as [k m0]. cbn [fst] in Kn. subst k.
    rewrite Ed at 1. rewrite dict_set_old by auto.
    rewrite map_app. cbn [map snd]. rewrite firstn_skipn_set by (rewrite map_length; lia).
    rewrite <- firstn_map, <- skipn_map. reflexivity.
  - rewrite dict_set_new; [now rewrite map_app|]. rewrite Dk. intros H. apply in_map_iff in H as (j & Hj & H).
    apply str_inj in Hj. apply in_seq in H.
    assert (0 < a /\ 2 * a <= b /\ a < b) as (G1 & G2 & G3) by lia.
    apply Nat.ltb_lt in G1, G3. apply Nat.leb_le in G2. rewrite G1, G2, G3 in G. discriminate.
Qed.

(* ------------------------------------------------------------------ *)
(** ** Slices one after the other *)

Lemma step_split (a b : list (md F)) v upd : a <> [] ->
  step (MSeq (a ++ b)) v upd =
  ('(w, p) <- one_after_other (MSeq a, MSeq b) (CStep v upd) ;;
   match p with (MSeq a', MSeq b') => Ok (w, MSeq (a' ++ b')) | _ => Err RuntimeError end).
Proof.
  intros Ha. cbn [step one_after_other]. rewrite seq_step_app by auto.
  destruct (seq_step (fun m v => step m v upd) a v) as [[w a']|]; cbn [bind fst snd]; [|reflexivity].
  destruct w; cbn [is_none bind]; try reflexivity;
    (match goal with |- context [seq_step ?f b ?x] => destruct (seq_step f b x) as [[w2 b']|] end; reflexivity).
Qed.
Lemma steps_split (a b : list (md F)) v pe upd :
  steps (MSeq (a ++ b)) v pe upd =
  ('(w, p) <- one_after_other (MSeq a, MSeq b) (CSteps v pe upd) ;;
   match p with (MSeq a', MSeq b') => Ok (w, MSeq (a' ++ b')) | _ => Err RuntimeError end).
Proof.
  cbn [steps one_after_other]. rewrite seq_steps_app.
  destruct (seq_steps (fun m v => steps m v pe upd) a v) as [[w a']|]; cbn [bind fst snd]; [|reflexivity].
  destruct (seq_steps (fun m v => steps m v pe upd) b w) as [[w2 b']|]; reflexivity.
Qed.
Lemma fwd_split (a b : list (md F)) v : fwd (MSeq (a ++ b)) v = (w <- fwd (MSeq a) v ;; fwd (MSeq b) w).
Proof. cbn [fwd]. apply seq_fwd_app. Qed.

Lemma pair_shape (a b : list (md F)) c w p : one_after_other (MSeq a, MSeq b) c = Ok (w, p) ->
  exists a' b', p = (MSeq a', MSeq b') /\ length a' = length a.
Proof.
  destruct c; cbn [one_after_other step steps].
  - destruct (seq_step (fun m v => step m v upd) a v) as [[w1 a']|] eqn:E; cbn [bind]; [|discriminate].
    apply seq_step_len in E. destruct w1; [intros [= <- <-]; eauto|..];
      (match goal with |- context [seq_step ?f b ?x] => destruct (seq_step f b x) as [[w2 b']|]; cbn [bind]; [|discriminate] end; intros [= <- <-]; eauto).
  - destruct (seq_steps (fun m v => steps m v pe upd) a v) as [[w1 a']|] eqn:E; cbn [bind]; [|discriminate].
    apply seq_steps_len in E. destruct (seq_steps (fun m v => steps m v pe upd) b w1) as [[w2 b']|]; cbn [bind]; [|discriminate].
    intros [= <- <-]. eauto.
  - destruct (fwd (MSeq a) v); cbn [bind]; [|discriminate]. destruct (fwd (MSeq b) a0); cbn [bind]; [|discriminate].
    intros [= <- <-]. eauto.
  - intros [= <- <-]. cbn [clean]. do 2 eexists. split; [reflexivity|]. apply map_length.
Qed.

Theorem split_calls cs : forall a b : list (md F), a <> [] ->
  (exists e, run_calls (MSeq (a ++ b)) cs = Err e /\ run_pair (MSeq a, MSeq b) cs = Err e) \/
  (exists ws a' b', run_calls (MSeq (a ++ b)) cs = Ok (ws, MSeq (a' ++ b')) /\ run_pair (MSeq a, MSeq b) cs = Ok (ws, (MSeq a', MSeq b'))).
Proof.
  induction cs as [|c cs IH]; intros a b Ha; [right; exists [], a, b; auto|]. cbn [run_calls run_pair].
  assert (G : do_call (MSeq (a ++ b)) c =
    ('(w, p) <- one_after_other (MSeq a, MSeq b) c ;;
     match p with (MSeq a', MSeq b') => Ok (w, MSeq (a' ++ b')) | _ => Err RuntimeError end)).
  { destruct c; cbn [do_call].
    - now apply step_split.
    - apply steps_split.
    - rewrite fwd_split. cbn [one_after_other]. destruct (fwd (MSeq a) v); cbn [bind]; [|reflexivity]. destruct (fwd (MSeq b) a0); reflexivity.
    - cbn [one_after_other bind clean]. now rewrite map_app. }
  rewrite G. destruct (one_after_other (MSeq a, MSeq b) c) as [[w p]|e] eqn:E; cbn [bind]; [|left; eauto].
  destruct (pair_shape _ _ _ _ _ E) as (a' & b' & -> & L). cbn [bind].
  destruct (IH a' b') as [(e & -> & ->)|(ws & a2 & b2 & -> & ->)]; [intros ->; destruct a; [congruence|discriminate]| |]; cbn [bind]; [left; eauto|right].
  exists (w :: ws), a2, b2. auto.
Qed.

Theorem slices_compose (ms : list (md F)) n : numerals_free reserved -> 0 < n -> n < length ms ->
  exists c p q, co_sequential reserved (APos ms) = Ok c /\ getslice reserved c 0 n = Ok p /\ getslice reserved c n (length ms) = Ok q /\
    forall cs : list (call F),
    (exists e, run_calls (run_as c) cs = Err e /\ run_pair (run_as p, run_as q) cs = Err e) \/
    (exists ws m pq, run_calls (run_as c) cs = Ok (ws, m) /\ run_pair (run_as p, run_as q) cs = Ok (ws, pq)).
Proof.
  intros NF H0 Hn.
  destruct (slice_runs ms 0 n NF) as (p & Ep & Rp & _). destruct (slice_runs ms n (length ms) NF) as (q & Eq & Rq & _).
  rewrite co_seq_pos in Ep, Eq |- * by auto. cbn [bind] in Ep, Eq.
  eexists; exists p, q. split; [reflexivity|]. split; [exact Ep|]. split; [exact Eq|]. intros cs.
  cbn [run_as]. rewrite numbered_snd, Rp, Rq. rewrite Nat.sub_0_r. cbn [skipn].
  rewrite (firstn_all2 (skipn n (infer_streams ms))) by (rewrite skipn_length, infer_len; lia).
  destruct (split_calls cs (firstn n (infer_streams ms)) (skipn n (infer_streams ms))) as [(e & A & B)|(ws & a' & b' & A & B)].
  - intros E. apply (f_equal (@length _)) in E. rewrite firstn_length, infer_len in E. cbn in E. lia.
  - left. rewrite firstn_skipn in A. exists e. auto.
  - right. rewrite firstn_skipn in A. eauto.
Qed.

(* ------------------------------------------------------------------ *)
(** ** Parallel and BroadcastReduce *)

Lemma numbered_len (ms : list (md F)) : length (numbered ms) = length ms.
Proof. now rewrite <- (map_length snd), numbered_snd. Qed.

Theorem br_pos (ms : list (md F)) r auto : numerals_free reserved ->
  (exists e, co_br reserved (APos ms) r auto = Err e /\ mk_br ms r auto = Err e) \/
  (exists c, co_br reserved (APos ms) r auto = Ok c /\ mk_br ms r auto = Ok (run_as c) /\
     c_delay c = del (run_as c) /\ c_rf c = rfield (run_as c) /\ kids c = numbered (map snd (kids c))).
Proof.
  intros NF. unfold co_br, mk_br. cbn [items]. fold (numbered ms). rewrite numbered_len.
  destruct (length ms <=? 1); [left; eauto|].
  assert (E : (if auto then on_values auto_delay (numbered ms) else numbered ms) = numbered (if auto then auto_delay ms else ms)).
  { destruct auto; [apply on_values_numbered, auto_len|reflexivity]. }
  rewrite E, numbered_snd. destruct (same_stride _); [|left; eauto]. right.
  rewrite add_all_numbered by auto. cbn [bind]. eexists. split; [reflexivity|]. cbn [run_as c_delay c_rf kids]. now rewrite numbered_snd.
Qed.

Theorem par_pos (ms : list (md F)) auto : numerals_free reserved ->
  (exists e, co_parallel reserved (APos ms) auto = Err e /\ mk_par ms auto = Err e) \/
  (exists c, co_parallel reserved (APos ms) auto = Ok c /\ mk_par ms auto = Ok (run_as c) /\
     c_delay c = del (run_as c) /\ c_rf c = rfield (run_as c) /\ kids c = numbered (map snd (kids c))).
Proof.
  intros NF. unfold co_parallel, mk_par. cbn [items]. fold (numbered ms).
  assert (N : match numbered ms with [] => true | _ => false end = match ms with [] => true | _ => false end) by (destruct ms; reflexivity).
  rewrite N. destruct (auto && match ms with [] => true | _ => false end); [left; eauto|].
  assert (E : (if auto then on_values auto_delay (numbered ms) else numbered ms) = numbered (if auto then auto_delay ms else ms)).
  { destruct auto; [apply on_values_numbered, auto_len|reflexivity]. }
  rewrite E, numbered_snd. destruct (same_stride _); [|left; eauto]. right.
  rewrite add_all_numbered by auto. cbn [bind]. eexists. split; [reflexivity|]. cbn [run_as c_delay c_rf kids]. now rewrite numbered_snd.
Qed.

Lemma zmax_le_init l : forall x, (x <= fold_left Z.max l x)%Z.
Proof. induction l as [|y l IH]; intros x; cbn; [lia|]. specialize (IH (Z.max x y)). lia. Qed.
Lemma zmax_snoc x l y : zmax_list ((x :: l) ++ [y]) = Z.max (zmax_list (x :: l)) y.
Proof. cbn [zmax_list app]. rewrite fold_left_app. reflexivity. Qed.
Lemma zmax_const D (l : list Z) : l <> [] -> (forall x, In x l -> x = D) -> zmax_list l = D.
Proof.
  destruct l as [|x l]; [congruence|]. intros _ H. rewrite (H x) by now left. cbn [zmax_list].
  assert (G : forall y, In y l -> y = D) by (intros; apply H; now right). clear H. induction l as [|y l IH]; cbn [fold_left]; [reflexivity|].
  rewrite (G y), Z.max_id by now left. apply IH. intros; apply G; now right.
Qed.
Lemma auto_id D (ms : list (md F)) : (forall m, In m ms -> del m = D) -> auto_delay ms = ms.
Proof.
  intros H. unfold auto_delay. destruct ms as [|m0 t]; [reflexivity|]. rewrite zmax_const with (D := D).
  - rewrite <- map_id. apply map_ext_in. intros m Hm. unfold delay_to. rewrite (H m Hm), Z.ltb_irrefl. reflexivity.
  - discriminate.
  - intros x Hx. apply in_map_iff in Hx as (m & <- & Hm). auto.
Qed.
Lemma same_stride_snoc (ms : list (md F)) m : ms <> [] ->
  same_stride (ms ++ [m]) = same_stride ms && Z.eqb (strd m) (strd (hd m ms)).
Proof.
  destruct ms as [|m0 t]; [congruence|]. intros _. cbn [same_stride app hd]. rewrite forallb_app. cbn [forallb]. now rewrite andb_true_r.
Qed.

(** What append does to a BroadcastReduce. *)
Theorem br_append (ms : list (md F)) r auto c m : numerals_free reserved -> co_br reserved (APos ms) r auto = Ok c ->
  exists c', append reserved c m = Ok c' /\ run_as c' = MBR (map snd (kids c) ++ [m]) r /\ c_delay c' = c_delay c /\ c_rf c' = c_rf c.
Proof.
  intros NF E. destruct (br_pos ms r auto NF) as [(e & A & _)|(c0 & A & B & C & D & K)]; [congruence|].
  rewrite E in A. injection A as <-. rewrite append_numbered with (ms := map snd (kids c)) by auto.
  eexists. split; [reflexivity|]. unfold co_br in E. cbn [items] in E.
  destruct (_ <=? 1); [discriminate|]. destruct (same_stride _); [|discriminate].
  destruct (add_all _ _ _); [|discriminate]. injection E as <-. cbn [with_kids run_as c_delay c_rf kids]. now rewrite numbered_snd.
Qed.

Theorem br_append_constructor (ms : list (md F)) r c m : numerals_free reserved -> co_br reserved (APos ms) r false = Ok c ->
  strd m = strd (run_as c) -> (del m <= c_delay c)%Z -> (rfield m <= c_rf c)%Z ->
  append reserved c m = co_br reserved (APos (ms ++ [m])) r false.
Proof.
  intros NF E Hs Hd Hr. unfold co_br in *. cbn [items] in *. fold (numbered ms) in E. fold (numbered (ms ++ [m])).
  rewrite numbered_len, numbered_snd in *.
  destruct (Nat.leb_spec (length ms) 1) as [?|L]; [discriminate|].
  destruct (Nat.leb_spec (length (ms ++ [m])) 1) as [L'|_]; [rewrite app_length in L'; cbn in L'; lia|].
  destruct (same_stride ms) eqn:Es; [|discriminate]. rewrite add_all_numbered in * by auto. cbn [bind] in E |- *.
  injection E as <-. cbn [run_as c_delay c_rf] in *. rewrite numbered_snd in *.
  assert (N : ms <> []) by (intros ->; cbn in L; lia).
  rewrite same_stride_snoc, Es by auto. destruct ms as [|m0 t]; [congruence|]. cbn [hd strd] in *.
  rewrite Hs, Z.eqb_refl. cbn [andb].
  rewrite append_numbered with (ms := m0 :: t) by auto. cbn [with_kids]. rewrite numbered_snd. do 2 f_equal.
  - rewrite map_app. cbn [map]. rewrite zmax_snoc. cbn [map] in Hd. lia.
  - rewrite map_app. cbn [map]. rewrite zmax_snoc. cbn [map] in Hr. lia.
Qed.

(** Slices of a BroadcastReduce. *)
Theorem br_slice (ms : list (md F)) r auto c a b D : numerals_free reserved -> co_br reserved (APos ms) r auto = Ok c ->
  (forall m, In m (map snd (kids c)) -> del m = D) -> a + 2 <= b -> b <= length ms ->
  exists c', getslice reserved c a b = Ok c' /\ run_as c' = MBR (firstn (b - a) (skipn a (map snd (kids c)))) sum_red.
Proof.
  intros NF E HD Hab Hb. destruct (br_pos ms r auto NF) as [(e & A & _)|(c0 & A & B & C & _ & K)]; [congruence|].
  rewrite E in A. injection A as <-.
  set (bs := map snd (kids c)) in *.
  assert (Lb : length bs = length ms).
  { unfold mk_br in B. destruct (_ <=? 1); [discriminate|]. destruct (same_stride _) eqn:Es; [|discriminate]. injection B as B.
    unfold co_br in E. cbn [items] in E. fold (numbered ms) in E. destruct (_ <=? 1); [discriminate|]. destruct (same_stride _); [|discriminate].
    destruct (add_all _ _ _) as [d|]; [|discriminate]. injection E as <-. cbn [run_as] in B. injection B as B.
    unfold bs. cbn [kids]. rewrite <- B. destruct auto; [apply auto_len|reflexivity]. }
  assert (Sb : forall x y, In x bs -> In y bs -> strd x = strd y).
  { unfold mk_br in B. destruct (_ <=? 1); [discriminate|]. destruct (same_stride _) eqn:Es; [|discriminate]. injection B as B.
    unfold co_br in E. cbn [items] in E. fold (numbered ms) in E. destruct (_ <=? 1); [discriminate|]. destruct (same_stride (map snd _)); [|discriminate].
    destruct (add_all _ _ _) as [d|]; [|discriminate]. injection E as <-. cbn [run_as] in B. injection B as B.
    unfold bs. cbn [kids]. rewrite <- B. clear - Es. set (l := if auto then auto_delay ms else ms) in *. clearbody l.
    destruct l as [|m0 t]; [intros ? ? []|]. cbn [same_stride] in Es. rewrite forallb_forall in Es.
    assert (G : forall z, In z (m0 :: t) -> strd z = strd m0). { intros z [<-|Hz]; [reflexivity|]. now apply Z.eqb_eq, Es. }
    intros x y Hx Hy. now rewrite (G x Hx), (G y Hy). }
  assert (Ek : getslice reserved c a b = co_br reserved (ADict (slice a b (kids c))) sum_red true).
  { unfold co_br in E. cbn [items] in E. destruct (_ <=? 1); [discriminate|]. destruct (same_stride _); [|discriminate].
    destruct (add_all _ _ _); [|discriminate]. injection E as <-. reflexivity. }
  rewrite Ek. unfold co_br. cbn [items].
  set (d := slice a b (kids c)).
  assert (Dk : map fst d = map str (seq a (b - a))).
  { unfold d. rewrite K, map_slice, numbered_fst, <- map_slice, slice_seq. do 2 f_equal. fold bs. lia. }
  assert (Dv : map snd d = slice a b bs) by (unfold d; now rewrite map_slice).
  assert (Ld : length d = b - a) by (rewrite <- (map_length fst), Dk, map_length, seq_length; reflexivity).
  assert (Ins : forall x, In x (slice a b bs) -> In x bs).
  { intros x Hx. unfold slice in Hx. rewrite <- (firstn_skipn a bs). apply in_or_app. right.
    rewrite <- (firstn_skipn (b - a) (skipn a bs)). apply in_or_app. now left. }
  destruct (Nat.leb_spec (length d) 1) as [?|_]; [lia|].
  assert (Ed : on_values auto_delay d = d).
  { apply named_eq; [apply on_values_fst, auto_len|]. rewrite on_values_snd by apply auto_len.
    apply auto_id with (D := D). intros m Hm. rewrite Dv in Hm. apply HD, Ins, Hm. }
  rewrite Ed, Dv.
  assert (Es : same_stride (slice a b bs) = true).
  { rewrite <- Dv in Ins |- *. assert (L : length (map snd d) = b - a) by (now rewrite map_length). 
    destruct (map snd d) as [|m0 t]; [cbn in L; lia|]. cbn [same_stride]. apply forallb_forall. intros x Hx.
    apply Z.eqb_eq, Sb; apply Ins; [now right|now left]. }
  rewrite Es, add_all_ok.
  - cbn [bind app]. eexists. split; [reflexivity|]. cbn [run_as]. rewrite Dv. reflexivity.
  - cbn [app]. rewrite Dk. apply strs_nodup.
  - rewrite Dk. intros k H. apply in_map_iff in H as (i & <- & _). now apply ok_name_str.
Qed.

Theorem br_slice_short (ms : list (md F)) r auto c a b : co_br reserved (APos ms) r auto = Ok c -> b <= a + 1 ->
  getslice reserved c a b = Err AssertionError.
Proof.
  intros E H. unfold co_br in E. cbn [items] in E. destruct (_ <=? 1); [discriminate|]. destruct (same_stride _); [|discriminate].
  destruct (add_all _ _ _); [|discriminate]. injection E as <-. cbn [getslice kids]. unfold co_br. cbn [items].
  destruct (Nat.leb_spec (length (firstn (b - a) (skipn a a0))) 1) as [?|L]; [reflexivity|].
  rewrite firstn_length in L. lia.
Qed.

(** Slices of a Parallel. *)
Lemma strd_delay_to D (m : md F) : strd (delay_to D m) = strd m.
Proof. unfold delay_to. destruct (del m <? D)%Z; [|reflexivity]. cbn [strd map fold_left]. lia. Qed.
Lemma zmax_fold_in l : forall x, fold_left Z.max l x = x \/ In (fold_left Z.max l x) l.
Proof.
  induction l as [|y l IH]; intros x; [left; reflexivity|]. cbn [fold_left In]. destruct (IH (Z.max x y)) as [E|E]; [|auto].
  rewrite E. destruct (Z.max_spec x y) as [[_ ->]|[_ ->]]; auto.
Qed.
Lemma zmax_in l : l <> [] -> In (zmax_list l) l.
Proof. destruct l as [|x l]; [congruence|]. intros _. cbn [zmax_list In]. destruct (zmax_fold_in l x); auto. Qed.
Lemma zmax_ub l x : In x l -> (x <= zmax_list l)%Z.
Proof.
  destruct l as [|y l]; [intros []|]. cbn [zmax_list]. revert y. induction l as [|z l IH]; intros y [<-|Hx]; try (apply zmax_le_init); [destruct Hx|].
  cbn [fold_left]. destruct Hx as [<-|Hx]; [etransitivity; [apply Z.le_max_r|apply zmax_le_init]|]. apply IH. now right.
Qed.

Theorem par_slice (ms : list (md F)) auto c a b : numerals_free reserved -> co_parallel reserved (APos ms) auto = Ok c ->
  (a < b -> b <= length ms ->
   exists c' ns D, getslice reserved c a b = Ok c' /\ run_as c' = MPar ns /\
     let old := firstn (b - a) (skipn a (map snd (kids c))) in
     (exists m, In m old /\ del m = D) /\
     Forall2 (fun m n => (del m <= D)%Z /\ (del m = D -> n = m) /\
                         ((del m < D)%Z -> n = MSeq [m; MDelay (Z.to_nat (D - del m)) Zeros ShNo obj_init])) old ns) /\
  (b <= a -> getslice reserved c a b = Err ValueError).
Proof.
  intros NF E. destruct (par_pos ms auto NF) as [(e & A & _)|(c0 & A & B & C & _ & K)]; [congruence|].
  rewrite E in A. injection A as <-.
  set (bs := map snd (kids c)) in *.
  assert (Ec : exists d x y, c = CPar d x y).
  { unfold co_parallel in E. destruct (auto && _); [discriminate|]. destruct (same_stride _); [|discriminate]. destruct (add_all _ _ _); [|discriminate].
    injection E as <-. eauto. }
  destruct Ec as (d0 & x0 & y0 & Ec).
  assert (Lb : length bs = length ms /\ same_stride bs = true).
  { unfold mk_par in B. destruct (auto && _); [discriminate|]. destruct (same_stride _) eqn:Es; [|discriminate]. injection B as B.
    rewrite Ec in B. cbn [run_as] in B. injection B as B. unfold bs. rewrite Ec. cbn [kids]. rewrite <- B. split; [destruct auto; [apply auto_len|reflexivity]|exact Es]. }
  destruct Lb as [Lb Sb0].
  assert (Sb : forall x y, In x bs -> In y bs -> strd x = strd y).
  { clear - Sb0. destruct bs as [|m0 t]; [intros ? ? []|]. cbn [same_stride] in Sb0. rewrite forallb_forall in Sb0.
    assert (G : forall z, In z (m0 :: t) -> strd z = strd m0). { intros z [<-|Hz]; [reflexivity|]. now apply Z.eqb_eq, Sb0. }
    intros x y Hx Hy. now rewrite (G x Hx), (G y Hy). }
  assert (Ek : getslice reserved c a b = co_parallel reserved (ADict (slice a b (kids c))) true) by (rewrite Ec; reflexivity).
  rewrite Ek. unfold co_parallel. cbn [items andb].
  set (d := slice a b (kids c)).
  assert (Dv : map snd d = slice a b bs) by (unfold d; now rewrite map_slice).
  split.
  - intros Hab Hb.
    assert (Dk : map fst d = map str (seq a (b - a))).
    { unfold d. rewrite K, map_slice, numbered_fst, <- map_slice, slice_seq. do 2 f_equal. fold bs. lia. }
    assert (Ld : length d = b - a) by (rewrite <- (map_length fst), Dk, map_length, seq_length; reflexivity).
    assert (Ins : forall x, In x (slice a b bs) -> In x bs).
    { intros x Hx. unfold slice in Hx. rewrite <- (firstn_skipn a bs). apply in_or_app. right.
      rewrite <- (firstn_skipn (b - a) (skipn a bs)). apply in_or_app. now left. }
    change (firstn (b - a) (skipn a bs)) with (slice a b bs).
    set (D := zmax_list (map del (slice a b bs))).
    assert (Ed : map snd (on_values auto_delay d) = map (delay_to D) (slice a b bs)) by (rewrite on_values_snd by apply auto_len; rewrite Dv; reflexivity).
    assert (Hne : slice a b bs <> []) by (rewrite <- Dv; intros Q; apply (f_equal (@length _)) in Q; rewrite map_length in Q; cbn in Q; lia).
    assert (Es : same_stride (map snd (on_values auto_delay d)) = true).
    { rewrite Ed. destruct (slice a b bs) as [|m0 t]; [congruence|]. cbn [map same_stride]. apply forallb_forall. intros x Hx.
      apply in_map_iff in Hx as (y & <- & Hy). rewrite !strd_delay_to. apply Z.eqb_eq, Sb; apply Ins; [now right|now left]. }
    assert (Hd : match d with [] => true | _ => false end = false) by (destruct d; [cbn in Ld; lia|reflexivity]).
    rewrite Hd, Es, add_all_ok.
    + cbn [bind app]. do 3 eexists. split; [reflexivity|]. cbn [run_as]. rewrite Ed. split; [reflexivity|]. cbv zeta. split.
      * assert (Hin : In D (map del (slice a b bs))) by (apply zmax_in; destruct (slice a b bs); [congruence|discriminate]).
        apply in_map_iff in Hin as (m & Em & Hm). exists m. split; [exact Hm|exact Em].
      * assert (U : forall m, In m (slice a b bs) -> (del m <= D)%Z) by (intros m Hm; apply zmax_ub, in_map, Hm).
        clearbody D. revert U. clear. induction (slice a b bs) as [|m l IH]; intros U; cbn [map]; constructor; [|apply IH; intros; apply U; now right].
        split; [apply U; now left|]. unfold delay_to. destruct (Z.ltb_spec (del m) D); split; intros; try lia; reflexivity.
    + cbn [app]. rewrite on_values_fst by apply auto_len. rewrite Dk. apply strs_nodup.
    + rewrite on_values_fst by apply auto_len. rewrite Dk. intros k H. apply in_map_iff in H as (i & <- & _). now apply ok_name_str.
  - intros Hab. assert (Ed : d = []) by (unfold d, slice; replace (b - a) with 0 by lia; reflexivity). rewrite Ed. reflexivity.
Qed.
End Build.
