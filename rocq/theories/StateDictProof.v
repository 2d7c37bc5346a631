(** Flattened state dicts: round trips, transfers and collisions. *)
From Coq Require Import List ListDec ZArith Bool Arith Lia String Ascii.
From Verif Require Import Base StateDict.
Import ListNotations.
Open Scope list_scope.

(** ** Names *)

Fixpoint no_dot (s : string) : Prop :=
  match s with EmptyString => True | String a s => a <> "."%char /\ no_dot s end.

Lemma split_cons s : exists p l, split s = p :: l.
Proof.
  induction s as [|a s (p & l & IH)]; [exists EmptyString, []; reflexivity|].
  cbn. destruct (Ascii.eqb a "."); [eauto|]. rewrite IH. eauto.
Qed.

Lemma split_no_dot s : Forall no_dot (split s).
Proof.
  induction s as [|a s IH]; [repeat constructor|]. cbn.
  destruct (Ascii.eqb_spec a "."); [constructor; [exact I|exact IH]|].
  destruct (split s) as [|p l]; [repeat constructor; assumption|].
  inversion IH; subst. constructor; [split; assumption|assumption].
Qed.

Lemma split_plain p : no_dot p -> split p = [p].
Proof.
  induction p as [|a p IH]; [reflexivity|]. intros (Ha & Hp). cbn.
  destruct (Ascii.eqb_spec a "."); [contradiction|]. rewrite IH by exact Hp. reflexivity.
Qed.

Lemma split_dot p s : no_dot p -> split (p ++ String "." s) = p :: split s.
Proof.
  induction p as [|a p IH]; [reflexivity|]. intros (Ha & Hp). cbn.
  destruct (Ascii.eqb_spec a "."); [contradiction|]. rewrite IH by exact Hp. reflexivity.
Qed.

Lemma split_join l : l <> [] -> Forall no_dot l -> split (join l) = l.
Proof.
  induction l as [|p [|q l] IH]; intros N F; [contradiction| |].
  - inversion F; subst. apply split_plain. assumption.
  - inversion F; subst. change (join (p :: q :: l)) with (p ++ String "." (join (q :: l)))%string.
    rewrite split_dot by assumption. f_equal. apply IH; [discriminate|assumption].
Qed.

Lemma join_split s : join (split s) = s.
Proof.
  induction s as [|a s IHs]; [reflexivity|]. cbn.
  destruct (split_cons s) as (p & l & E). rewrite E in *.
  destruct (Ascii.eqb_spec a ".") as [->|]; [rewrite <- IHs; reflexivity|].
  rewrite <- IHs. destruct l; reflexivity.
Qed.

Lemma Forall_filter' {A} (P : A -> Prop) f l : Forall P l -> Forall P (filter f l).
Proof.
  intros H. induction H; cbn; [constructor|]. destruct (f x); [constructor|]; assumption.
Qed.

Lemma filter_filter' {A} (f : A -> bool) l : filter f (filter f l) = filter f l.
Proof.
  induction l as [|x l IH]; [reflexivity|]. cbn. destruct (f x) eqn:E; [|exact IH].
  cbn. rewrite E, IH. reflexivity.
Qed.

(** The parts of a flattened name are the non-numeric parts of the name. *)
Lemma flat_parts s : filter (fun p => negb (isdigit p)) (split s) <> [] ->
  split (flat_key s) = filter (fun p => negb (isdigit p)) (split s).
Proof. intros H. apply split_join; [exact H|]. apply Forall_filter', split_no_dot. Qed.

Lemma flat_no_digit s p : In p (split (flat_key s)) -> isdigit p = false.
Proof.
  destruct (filter (fun p => negb (isdigit p)) (split s)) as [|q l] eqn:E.
  - unfold flat_key. rewrite E. cbn. intros [<-|[]]. reflexivity.
  - rewrite flat_parts by (rewrite E; discriminate). rewrite filter_In.
    intros (_ & H). apply negb_true_iff in H. exact H.
Qed.

Lemma flat_idem s : flat_key (flat_key s) = flat_key s.
Proof.
  assert (E : filter (fun p => negb (isdigit p)) (split (flat_key s)) = split (flat_key s)).
  { pose proof (flat_no_digit s) as H. revert H. generalize (split (flat_key s)).
    induction l as [|p l IH]; intros H; [reflexivity|]. cbn.
    rewrite (H p (or_introl eq_refl)). cbn. rewrite IH; [reflexivity|].
    intros q Hq. apply H. right. exact Hq. }
  unfold flat_key at 1. rewrite E. apply join_split.
Qed.

Lemma flat_fixed s : Forall (fun p => isdigit p = false) (split s) -> flat_key s = s.
Proof.
  intros H. assert (E : filter (fun p => negb (isdigit p)) (split s) = split s).
  { induction H as [|p l Hp H IH]; [reflexivity|]. cbn. rewrite Hp. cbn. rewrite IH. reflexivity. }
  unfold flat_key. rewrite E. apply join_split.
Qed.

(** ** Dicts *)

Lemma dget_app {A} k (a b : dict A) :
  dget k (a ++ b) = match dget k a with Some v => Some v | None => dget k b end.
Proof.
  induction a as [|[k' v] a IH]; [reflexivity|]. cbn. destruct (String.eqb k k'); [reflexivity|exact IH].
Qed.

Lemma dget_dput {A} k k' (v : A) d :
  dget k (dput k' v d) = if String.eqb k k' then Some v else dget k d.
Proof.
  induction d as [|[k0 v0] d IH]; [cbn; destruct (String.eqb k k'); reflexivity|]. cbn.
  destruct (String.eqb_spec k' k0) as [->|N]; cbn.
  - destruct (String.eqb k k0); reflexivity.
  - rewrite IH. destruct (String.eqb_spec k k0) as [->|N']; [|reflexivity].
    destruct (String.eqb_spec k0 k'); [subst; contradiction|reflexivity].
Qed.

Lemma dget_of_pairs {A} k (l : list (string * A)) : dget k (of_pairs l) = dget k (rev l).
Proof.
  unfold of_pairs.
  assert (H : forall l (d : dict A), dget k (fold_left (fun d (p : string * A) => dput (fst p) (snd p) d) l d)
    = match dget k (rev l) with Some v => Some v | None => dget k d end).
  { clear. induction l as [|[k' v] l IH]; intros d; [reflexivity|]. cbn [fold_left fst snd rev].
    rewrite IH, dget_dput, dget_app. cbn. destruct (dget k (rev l)); [reflexivity|].
    destruct (String.eqb k k'); reflexivity. }
  rewrite H. destruct (dget k (rev l)); reflexivity.
Qed.

Lemma dget_In {A} k (v : A) d : dget k d = Some v -> In (k, v) d.
Proof.
  induction d as [|[k' w] d IH]; [discriminate|]. cbn.
  destruct (String.eqb_spec k k') as [->|N]; [intros [= ->]; left; reflexivity|right; auto].
Qed.

Lemma dget_NoDup {A} k (v : A) d : NoDup (keys d) -> In (k, v) d -> dget k d = Some v.
Proof.
  induction d as [|[k' w] d IH]; intros ND H; [destruct H|].
  cbn in *. inversion ND as [|? ? H1 H2]; subst. destruct H as [[= -> ->]|H].
  - rewrite String.eqb_refl. reflexivity.
  - destruct (String.eqb_spec k k') as [->|N]; [|auto].
    exfalso. apply H1. change k' with (fst (k', v)). apply in_map. exact H.
Qed.

Lemma dget_None {A} k (d : dict A) : dget k d = None <-> ~ In k (keys d).
Proof.
  induction d as [|[k' w] d IH]; cbn; [tauto|].
  destruct (String.eqb_spec k k') as [->|N]; [split; [discriminate|tauto]|].
  rewrite IH. intuition congruence.
Qed.

Lemma dget_keys {A} k (d : dict A) : In k (keys d) -> exists v, dget k d = Some v.
Proof.
  intros H. destruct (dget k d) as [v|] eqn:E; [eauto|]. apply dget_None in E. contradiction.
Qed.

Lemma has_iff {A} k (d : dict A) : has d k = true <-> In k (keys d).
Proof.
  unfold has. destruct (dget k d) as [v|] eqn:E.
  - apply dget_In in E. split; [intros _|reflexivity].
    change k with (fst (k, v)). apply in_map. exact E.
  - apply dget_None in E. split; [discriminate|contradiction].
Qed.

Lemma keys_rev {A} (d : list (string * A)) : keys (rev d) = rev (keys d).
Proof. unfold keys. apply map_rev. Qed.

Lemma keys_dput {A} k (v : A) d : keys (dput k v d) = if has d k then keys d else keys d ++ [k].
Proof.
  unfold has, keys. induction d as [|[k' w] d IH]; [reflexivity|]. cbn.
  destruct (String.eqb k k'); [reflexivity|]. cbn. rewrite IH. destruct (dget k d); reflexivity.
Qed.

Lemma of_pairs_keys {A} (l : list (string * A)) : NoDup (keys (of_pairs l))
  /\ (forall k, In k (keys (of_pairs l)) <-> In k (map fst l)).
Proof.
  unfold of_pairs.
  assert (H : forall l (d : dict A), NoDup (keys d) ->
    NoDup (keys (fold_left (fun d (p : string * A) => dput (fst p) (snd p) d) l d))
    /\ (forall k, In k (keys (fold_left (fun d (p : string * A) => dput (fst p) (snd p) d) l d))
                  <-> In k (keys d) \/ In k (map fst l))).
  { clear. induction l as [|[k0 v] l IH]; intros d ND; [cbn; split; [exact ND|tauto]|].
    cbn [fold_left fst snd map].
    assert (ND' : NoDup (keys (dput k0 v d)) /\ (forall k, In k (keys (dput k0 v d)) <-> k0 = k \/ In k (keys d))).
    { rewrite keys_dput. destruct (has d k0) eqn:E.
      - apply has_iff in E. split; [exact ND|]. intros k. split; [tauto|]. intros [<-|]; assumption.
      - assert (N : ~ In k0 (keys d)) by (rewrite <- has_iff, E; discriminate). split.
        + clear -ND N. induction (keys d) as [|x l IH]; [repeat constructor; intros []|].
          inversion ND; subst. cbn in N |- *. constructor.
          * rewrite in_app_iff. cbn. intuition congruence.
          * apply IH; [assumption|tauto].
        + intros k. rewrite in_app_iff. cbn. tauto. }
    destruct ND' as (N1 & N2). destruct (IH _ N1) as (I1 & I2). split; [exact I1|].
    intros k. rewrite I2, N2. cbn. tauto. }
  destruct (H l [] ltac:(constructor)) as (H1 & H2). split; [exact H1|].
  intros k. rewrite H2. cbn. tauto.
Qed.

Lemma of_pairs_in {A} k (l : list (string * A)) : In k (keys (of_pairs l)) -> In k (map fst l).
Proof. apply of_pairs_keys. Qed.

Lemma same_set_length {A} (a b : list A) : NoDup a -> NoDup b -> (forall x, In x a <-> In x b) ->
  List.length a = List.length b.
Proof.
  intros Na Nb H. apply Nat.le_antisymm; apply NoDup_incl_length; try assumption; intros x Hx; apply H; exact Hx.
Qed.

Lemma of_pairs_length {A} (l : list (string * A)) :
  List.length (of_pairs l) = distinct (map fst l).
Proof.
  destruct (of_pairs_keys l) as (N & K). unfold distinct.
  replace (List.length (of_pairs l)) with (List.length (keys (of_pairs l))) by apply map_length.
  apply same_set_length; [exact N|apply NoDup_nodup|].
  intros x. rewrite K. symmetry. apply nodup_In.
Qed.

Lemma of_pairs_id {A} (l : list (string * A)) : NoDup (map fst l) -> of_pairs l = l.
Proof.
  unfold of_pairs. intros ND.
  assert (H : forall l (d : dict A), NoDup (keys d ++ map fst l) ->
    fold_left (fun d (p : string * A) => dput (fst p) (snd p) d) l d = d ++ l).
  { clear. induction l as [|[k v] l IH]; intros d ND; [symmetry; apply app_nil_r|].
    cbn [fold_left fst snd]. assert (E : dput k v d = d ++ [(k, v)]).
    { assert (N : ~ In k (keys d)).
      { apply NoDup_remove_2 in ND. rewrite in_app_iff in ND. tauto. }
      clear -N. induction d as [|[k' w] d IH]; [reflexivity|]. cbn in *.
      destruct (String.eqb_spec k k') as [->|]; [tauto|]. rewrite IH by tauto. reflexivity. }
    rewrite E, IH.
    - rewrite <- app_assoc. reflexivity.
    - unfold keys. rewrite map_app. cbn. rewrite <- app_assoc. exact ND. }
  apply (H l []). exact ND.
Qed.

Lemma distinct_NoDup l : distinct l = List.length l <-> NoDup l.
Proof.
  unfold distinct. split.
  - intros H. apply (NoDup_incl_NoDup (NoDup_nodup string_dec l)).
    + lia.
    + intros x. apply nodup_In.
  - intros H. rewrite nodup_fixed_point by exact H. reflexivity.
Qed.

Lemma combine_keys {A} (ks : list string) (vs : list A) : List.length ks = List.length vs ->
  map fst (combine ks vs) = ks.
Proof.
  revert vs. induction ks as [|k ks IH]; intros [|v vs] H; try discriminate; [reflexivity|].
  cbn. rewrite IH; [reflexivity|]. injection H as H. exact H.
Qed.

Lemma combine_self {A} (d : dict A) : combine (keys d) (map snd d) = d.
Proof. induction d as [|[k v] d IH]; [reflexivity|]. cbn. f_equal. exact IH. Qed.

Section Load.
Context {V : Type}.
Variable fits : V -> V -> bool.
Notation torch_load := (torch_load fits).
Notation load := (load fits).

Notation upd sd := (fun p => match dget (fst p) sd with
                            | Some w => if fits (snd p) w then (fst p, w) else p
                            | None => p
                            end).

Lemma dget_upd sd (m : dict V) k v : dget k m = Some v ->
  dget k (map (upd sd) m)
  = match dget k sd with Some w => if fits v w then Some w else Some v | None => Some v end.
Proof.
  induction m as [|[k' v'] m IH]; [discriminate|]. cbn.
  destruct (String.eqb_spec k k') as [->|N].
  - intros [= ->]. destruct (dget k' sd) as [w|]; [destruct (fits v w)|]; cbn;
      rewrite String.eqb_refl; reflexivity.
  - intros H. destruct (String.eqb k k') eqn:Q; [apply String.eqb_eq in Q; contradiction|].
    destruct (dget k' sd) as [w|]; [destruct (fits v' w)|]; cbn; rewrite Q; apply IH; exact H.
Qed.

(** What loading a dict with exactly the module's keys does. *)
Lemma torch_load_full strict (m sd : dict V) :
  NoDup (keys m) ->
  (forall k, In k (keys m) <-> In k (keys sd)) ->
  (forall k v w, In (k, v) m -> dget k sd = Some w -> fits v w = true) ->
  snd (torch_load strict m sd) = Ok ([], [])
  /\ keys (fst (torch_load strict m sd)) = keys m
  /\ (forall k, In k (keys m) -> dget k (fst (torch_load strict m sd)) = dget k sd).
Proof.
  intros ND K F. unfold StateDict.torch_load. cbn [fst snd].
  assert (Em : filter (fun k => negb (has sd k)) (keys m) = []).
  { assert (H : forall k, In k (keys m) -> has sd k = true) by (intros k Hk; apply has_iff, K, Hk).
    revert H. generalize (keys m). induction l as [|x l IH]; intros H; [reflexivity|]. cbn.
    rewrite (H x (or_introl eq_refl)). cbn. apply IH. intros k Hk. apply H. right. exact Hk. }
  assert (Eu : filter (fun k => negb (has m k)) (keys sd) = []).
  { assert (H : forall k, In k (keys sd) -> has m k = true) by (intros k Hk; apply has_iff, K, Hk).
    revert H. generalize (keys sd). induction l as [|x l IH]; intros H; [reflexivity|]. cbn.
    rewrite (H x (or_introl eq_refl)). cbn. apply IH. intros k Hk. apply H. right. exact Hk. }
  assert (Eb : existsb (fun p => match dget (fst p) sd with
                                 | Some w => negb (fits (snd p) w) | None => false end) m = false).
  { clear -F. induction m as [|[k v] m IH]; [reflexivity|]. cbn.
    destruct (dget k sd) as [w|] eqn:E.
    - rewrite (F k v w (or_introl eq_refl) E). cbn. apply IH. intros k' v' w' H. apply F. right. exact H.
    - cbn. apply IH. intros k' v' w' H. apply F. right. exact H. }
  rewrite Em, Eu, Eb. split; [rewrite andb_false_r; reflexivity|]. split.
  - unfold keys. rewrite map_map. apply map_ext. intros [k v]. cbn.
    destruct (dget k sd) as [w|]; [destruct (fits v w)|]; reflexivity.
  - intros k Hk. destruct (dget_keys k m Hk) as (v & E).
    rewrite (dget_upd sd m k v E). destruct (dget_keys k sd) as (w & E2); [apply K; exact Hk|].
    rewrite E2. rewrite (F k v w (dget_In _ _ _ E) E2). reflexivity.
Qed.

(** A module whose values are all taken from the dict. *)
Lemma dict_ext {A} (a : dict A) : forall b, NoDup (keys a) -> keys a = keys b ->
  (forall k, In k (keys a) -> dget k a = dget k b) -> a = b.
Proof.
  induction a as [|[k v] a IH]; intros [|[k' w] b] ND K H; try discriminate; [reflexivity|].
  cbn in K. injection K as -> K. inversion ND as [|? ? N1 N2]; subst.
  f_equal.
  - specialize (H k' (or_introl eq_refl)). cbn in H. rewrite String.eqb_refl in H.
    injection H as ->. reflexivity.
  - apply IH; [exact N2|exact K|]. intros k Hk. specialize (H k (or_intror Hk)). cbn in H.
    destruct (String.eqb_spec k k') as [Q|Q]; [|exact H].
    exfalso. apply N1. rewrite <- Q. exact Hk.
Qed.

(** ** Round trip *)

Lemma torch_round strict (m m' : dict V) : NoDup (keys m) -> keys m = keys m' ->
  (forall k v w, dget k m = Some v -> dget k m' = Some w -> fits w v = true) ->
  torch_load strict m' m = (m, Ok ([], [])).
Proof.
  intros ND K F.
  destruct (torch_load_full strict m' m) as (R & K' & G).
  - rewrite <- K. exact ND.
  - intros k. rewrite K. tauto.
  - intros k v w Hv Hw. apply (F k w v Hw). apply dget_NoDup; [rewrite <- K; exact ND|exact Hv].
  - destruct (torch_load strict m' m) as [m2 r]. cbn [fst snd] in *. subst r. f_equal.
    apply dict_ext; [rewrite K', <- K; exact ND|rewrite K'; symmetry; exact K|].
    intros k Hk. apply G. rewrite K' in Hk. exact Hk.
Qed.

Lemma s2l_length (m : dict V) : List.length (short2long m) = distinct (map flat_key (keys m)).
Proof.
  unfold short2long. rewrite of_pairs_length, map_map. cbn. reflexivity.
Qed.

Lemma s2l_get (m : dict V) k long : dget k (short2long m) = Some long ->
  flat_key long = k /\ In long (keys m).
Proof.
  unfold short2long. rewrite dget_of_pairs. intros H. apply dget_In in H.
  apply in_rev in H. apply in_map_iff in H. destruct H as (x & [= <- <-] & Hx). auto.
Qed.

Lemma s2l_has (m : dict V) k : In k (keys m) -> exists long, dget (flat_key k) (short2long m) = Some long.
Proof.
  intros H. apply dget_keys. unfold short2long. apply of_pairs_keys. rewrite map_map. cbn.
  apply in_map. exact H.
Qed.

Lemma NoDup_map_inj {A B} (f : A -> B) l : NoDup (map f l) -> forall x y, In x l -> In y l -> f x = f y -> x = y.
Proof.
  induction l as [|a l IH]; intros ND x y Hx Hy E; [destruct Hx|]. cbn in ND.
  inversion ND as [|? ? N1 N2]; subst.
  destruct Hx as [<-|Hx], Hy as [<-|Hy]; try reflexivity.
  - exfalso. apply N1. rewrite E. apply in_map. exact Hy.
  - exfalso. apply N1. rewrite <- E. apply in_map. exact Hx.
  - apply IH; assumption.
Qed.

Lemma NoDup_map_on {A B} (f : A -> B) l : NoDup l ->
  (forall x y, In x l -> In y l -> f x = f y -> x = y) -> NoDup (map f l).
Proof.
  induction l as [|a l IH]; intros ND H; [constructor|]. inversion ND; subst. cbn. constructor.
  - intros Hin. apply in_map_iff in Hin. destruct Hin as (b & E & Hb).
    apply H in E; [subst; contradiction|right; exact Hb|left; reflexivity].
  - apply IH; [assumption|]. intros x y Hx Hy. apply H; right; assumption.
Qed.

Lemma s2l_unique (m : dict V) k : NoDup (map flat_key (keys m)) -> In k (keys m) ->
  dget (flat_key k) (short2long m) = Some k.
Proof.
  intros ND H. destruct (s2l_has m k H) as (long & E). rewrite E. f_equal.
  destruct (s2l_get m _ _ E) as (E1 & E2). apply (NoDup_map_inj flat_key (keys m) ND); assumption.
Qed.

Lemma save_flat (m : dict V) : NoDup (map flat_key (keys m)) ->
  save true m = map (fun p => (flat_key (fst p), snd p)) m.
Proof.
  intros ND. unfold save. assert (L : List.length (map flat_key (keys m)) = List.length m).
  { unfold keys. rewrite !map_length. reflexivity. }
  apply distinct_NoDup in ND as D. rewrite D, L, Nat.eqb_refl.
  assert (E : combine (map flat_key (keys m)) (map snd m) = map (fun p => (flat_key (fst p), snd p)) m).
  { clear. induction m as [|[k v] m IH]; [reflexivity|]. cbn. f_equal. exact IH. }
  rewrite E. apply of_pairs_id. rewrite map_map. cbn. unfold keys in ND. rewrite map_map in ND. exact ND.
Qed.

Lemma save_ambiguous (m : dict V) : ~ NoDup (map flat_key (keys m)) -> save true m = m.
Proof.
  intros ND. unfold save. destruct (Nat.eqb_spec (distinct (map flat_key (keys m))) (List.length m)) as [E|]; [|reflexivity].
  exfalso. apply ND. apply distinct_NoDup. rewrite E. unfold keys. rewrite !map_length. reflexivity.
Qed.

Lemma rename_all strict s2l (sd : dict V) (f : string -> string) :
  (forall k, In k (keys sd) -> dget k s2l = Some (f k)) ->
  rename strict s2l sd = Ok (map (fun p => (f (fst p), snd p)) sd).
Proof.
  induction sd as [|[k v] sd IH]; intros H; [reflexivity|]. cbn.
  rewrite (H k (or_introl eq_refl)). rewrite IH; [reflexivity|].
  intros k' H'. apply H. right. exact H'.
Qed.

(** From a module to another with the same flat names. *)
Lemma transfer strict (a b : dict V) :
  NoDup (keys a) -> NoDup (keys b) ->
  NoDup (map flat_key (keys a)) -> NoDup (map flat_key (keys b)) ->
  (forall f, In f (map flat_key (keys a)) <-> In f (map flat_key (keys b))) ->
  (forall ka va kb vb, In (ka, va) a -> In (kb, vb) b -> flat_key ka = flat_key kb -> fits vb va = true) ->
  let r := load strict true b (save true a) in
  snd r = Ok ([], []) /\ keys (fst r) = keys b
  /\ (forall ka va kb, In (ka, va) a -> In kb (keys b) -> flat_key ka = flat_key kb ->
        dget kb (fst r) = Some va).
Proof.
  intros Na Nb Fa Fb S Fit. cbn zeta. rewrite save_flat by exact Fa. unfold StateDict.load.
  rewrite s2l_length, map_length.
  assert (L : distinct (map flat_key (keys b)) = List.length a).
  { apply distinct_NoDup in Fb as D. rewrite D.
    transitivity (List.length (map flat_key (keys a))).
    - symmetry. apply same_set_length; assumption.
    - unfold keys. rewrite !map_length. reflexivity. }
  rewrite L, Nat.eqb_refl.
  set (f := fun k => match dget k (short2long b) with Some long => long | None => k end).
  assert (Hf : forall ka, In ka (keys a) -> dget (flat_key ka) (short2long b) = Some (f (flat_key ka))).
  { intros ka Ha. assert (Hb : In (flat_key ka) (map flat_key (keys b))) by (apply S, in_map, Ha).
    apply in_map_iff in Hb. destruct Hb as (kb & E & Hb). rewrite <- E. unfold f.
    rewrite (s2l_unique b kb Fb Hb). reflexivity. }
  rewrite (rename_all strict (short2long b) _ f).
  2:{ intros k Hk. unfold keys in Hk. rewrite map_map in Hk. cbn in Hk. apply in_map_iff in Hk.
      destruct Hk as ((ka, va) & <- & Hk). cbn. apply Hf.
      change ka with (fst (ka, va)). apply in_map. exact Hk. }
  rewrite map_map. cbn [fst snd].
  set (l := map (fun p => (f (flat_key (fst p)), snd p)) a).
  assert (KL : map fst l = map (fun k => f (flat_key k)) (keys a)).
  { unfold l, keys. rewrite !map_map. reflexivity. }
  assert (fin : forall ka, In ka (keys a) -> In (f (flat_key ka)) (keys b) /\ flat_key (f (flat_key ka)) = flat_key ka).
  { intros ka Ha. destruct (s2l_get b _ _ (Hf ka Ha)). auto. }
  assert (NL : NoDup (map fst l)).
  { rewrite KL. apply NoDup_map_on; [exact Na|]. intros x y Hx Hy E.
    apply (NoDup_map_inj flat_key (keys a) Fa); [exact Hx|exact Hy|].
    destruct (fin x Hx) as (_ & <-). destruct (fin y Hy) as (_ & <-). rewrite E. reflexivity. }
  rewrite of_pairs_id by exact NL.
  assert (back : forall kb, In kb (keys b) -> exists ka, In ka (keys a) /\ f (flat_key ka) = kb).
  { intros kb Hb. assert (Ha : In (flat_key kb) (map flat_key (keys a))) by (apply S, in_map, Hb).
    apply in_map_iff in Ha. destruct Ha as (ka & E & Ha). exists ka. split; [exact Ha|].
    apply (NoDup_map_inj flat_key (keys b) Fb); [apply fin, Ha|exact Hb|].
    destruct (fin ka Ha) as (_ & ->). exact E. }
  destruct (torch_load_full strict b l) as (R & K & G).
  - exact Nb.
  - intros k. change (keys l) with (map fst l). rewrite KL, in_map_iff. split.
    + intros Hb. destruct (back k Hb) as (ka & Ha & E). exists ka. auto.
    + intros (ka & <- & Ha). apply fin, Ha.
  - intros k v w Hv Hw. apply dget_In in Hw. unfold l in Hw. apply in_map_iff in Hw.
    destruct Hw as ((ka, va) & [= E <-] & Ha). cbn in E. subst k.
    apply (Fit ka va _ v Ha Hv).
    assert (Hka : In ka (keys a)) by (change ka with (fst (ka, va)); apply in_map; exact Ha).
    symmetry. apply fin. exact Hka.
  - split; [exact R|]. split; [exact K|]. intros ka va kb Ha Hb E.
    rewrite G by exact Hb. apply dget_NoDup; [exact NL|].
    unfold l. apply in_map_iff. exists (ka, va). split; [|exact Ha]. cbn [fst snd]. f_equal.
    assert (Hka : In ka (keys a)) by (change ka with (fst (ka, va)); apply in_map; exact Ha).
    apply (NoDup_map_inj flat_key (keys b) Fb); [apply fin, Hka|exact Hb|].
    destruct (fin ka Hka) as (_ & ->). exact E.
Qed.

(** Same structure: any names. *)
Lemma round_trip strict flatten (m m' : dict V) :
  NoDup (keys m) -> keys m = keys m' ->
  (forall k v w, dget k m = Some v -> dget k m' = Some w -> fits w v = true) ->
  load strict flatten m' (save flatten m) = (m, Ok ([], [])).
Proof.
  intros ND K F. destruct flatten; [|apply torch_round; assumption].
  destruct (ListDec.NoDup_dec string_dec (map flat_key (keys m))) as [U|U].
  - destruct (transfer strict m m') as (R & K' & G).
    + exact ND.
    + rewrite <- K. exact ND.
    + exact U.
    + rewrite <- K. exact U.
    + intros f. rewrite K. tauto.
    + intros ka va kb vb Ha Hb E. apply (F ka).
      * apply dget_NoDup; assumption.
      * apply dget_NoDup; [rewrite <- K; exact ND|].
        replace ka with kb; [exact Hb|]. symmetry.
        apply (NoDup_map_inj flat_key (keys m) U); [| |exact E].
        -- change ka with (fst (ka, va)). apply in_map. exact Ha.
        -- rewrite K. change kb with (fst (kb, vb)). apply in_map. exact Hb.
    + destruct (load strict true m' (save true m)) as [m2 r]. cbn [fst snd] in *. subst r. f_equal.
      apply dict_ext; [rewrite K', <- K; exact ND|rewrite K'; symmetry; exact K|].
      intros k Hk. rewrite K', <- K in Hk. destruct (dget_keys k m Hk) as (v & E). rewrite E.
      apply (G k v k); [apply dget_In; exact E|rewrite <- K; exact Hk|reflexivity].
  - rewrite save_ambiguous by exact U. unfold StateDict.load. rewrite s2l_length, <- K.
    destruct (Nat.eqb_spec (distinct (map flat_key (keys m))) (List.length m)) as [E|].
    + exfalso. apply U. apply distinct_NoDup. rewrite E. unfold keys. rewrite !map_length. reflexivity.
    + apply torch_round; assumption.
Qed.

(** ** What does not work *)

(** A dict of the right size with a key that is no flat name. *)
Lemma rename_missing s2l (sd : dict V) k : In k (keys sd) -> dget k s2l = None ->
  rename true s2l sd = Err KeyError.
Proof.
  induction sd as [|[k' v] sd IH]; intros H N; [destruct H|]. cbn.
  destruct (dget k' s2l) as [long|] eqn:E; [|reflexivity].
  destruct H as [H|H]; [cbn in H; congruence|]. rewrite (IH H N). reflexivity.
Qed.

Lemma s2l_none (m : dict V) k : ~ In k (map flat_key (keys m)) -> dget k (short2long m) = None.
Proof.
  intros H. apply dget_None. unfold short2long. intros X. apply of_pairs_in in X.
  rewrite map_map in X. cbn in X. contradiction.
Qed.

Lemma regular_into_flat (m sd : dict V) k :
  NoDup (map flat_key (keys m)) -> List.length sd = List.length m ->
  In k (keys sd) -> ~ In k (map flat_key (keys m)) ->
  load true true m sd = (m, Err KeyError).
Proof.
  intros U L Hk Hn. unfold StateDict.load. rewrite s2l_length.
  apply distinct_NoDup in U. rewrite U. unfold keys at 1. rewrite !map_length, L, Nat.eqb_refl.
  rewrite (rename_missing _ sd k Hk (s2l_none m k Hn)). reflexivity.
Qed.

Lemma rename_none s2l (sd : dict V) : (forall k, In k (keys sd) -> dget k s2l = None) ->
  rename false s2l sd = Ok [].
Proof.
  induction sd as [|[k v] sd IH]; intros H; [reflexivity|]. cbn.
  rewrite (H k (or_introl eq_refl)). apply IH. intros k' H'. apply H. right. exact H'.
Qed.

Lemma torch_load_empty (m : dict V) : torch_load false m [] = (m, Ok (keys m, [])).
Proof.
  unfold StateDict.torch_load. cbn.
  assert (E1 : existsb (fun _ : string * V => false) m = false) by (induction m; [reflexivity|exact IHm]).
  rewrite E1, map_id. cbn. f_equal. f_equal. f_equal.
  induction (keys m) as [|k l IH]; [reflexivity|]. cbn. f_equal. exact IH.
Qed.

Lemma regular_dropped (m sd : dict V) :
  NoDup (map flat_key (keys m)) -> List.length sd = List.length m ->
  (forall k, In k (keys sd) -> ~ In k (map flat_key (keys m))) ->
  load false true m sd = (m, Ok (keys m, [])).
Proof.
  intros U L H. unfold StateDict.load. rewrite s2l_length.
  apply distinct_NoDup in U. rewrite U. unfold keys at 1. rewrite !map_length, L, Nat.eqb_refl.
  rewrite rename_none by (intros k Hk; apply s2l_none, H, Hk). apply torch_load_empty.
Qed.

(** Colliding names: the value goes to the last parameter of that name. *)
Lemma rename_incl strict s2l (sd : dict V) l : rename strict s2l sd = Ok l ->
  forall k, In k (map fst l) -> exists f, dget f s2l = Some k.
Proof.
  revert l. induction sd as [|[k0 v] sd IH]; intros l E k H; cbn in E.
  - injection E as <-. destruct H.
  - destruct (dget k0 s2l) as [long|] eqn:G.
    + destruct (rename strict s2l sd) as [l'|]; [|discriminate]. cbn in E. injection E as <-.
      destruct H as [<-|H]; [exists k0; exact G|]. apply (IH l' eq_refl k H).
    + destruct strict; [discriminate|]. apply (IH l E k H).
Qed.

Lemma s2l_last (m : dict V) l1 k1 l2 : keys m = l1 ++ k1 :: l2 -> NoDup (keys m) ->
  In (flat_key k1) (map flat_key l2) -> forall f, dget f (short2long m) <> Some k1.
Proof.
  intros E ND H f X. destruct (s2l_get m f k1 X) as (<- & _). revert X.
  unfold short2long. rewrite dget_of_pairs, E, map_app, rev_app_distr. cbn [map rev].
  rewrite <- app_assoc, dget_app.
  destruct (dget (flat_key k1) (rev (map (fun k => (flat_key k, k)) l2))) as [w|] eqn:G.
  - intros [= ->]. apply dget_In in G. apply in_rev in G. apply in_map_iff in G.
    destruct G as (x & [= _ ->] & Hx). rewrite E in ND. apply NoDup_remove_2 in ND.
    apply ND. apply in_app_iff. right. exact Hx.
  - apply dget_None in G. exfalso. apply G. rewrite keys_rev, <- in_rev. unfold keys.
    rewrite map_map. cbn. exact H.
Qed.

Lemma collision strict (m sd : dict V) l1 k1 l2 r :
  keys m = l1 ++ k1 :: l2 -> NoDup (keys m) -> In (flat_key k1) (map flat_key l2) ->
  List.length sd = distinct (map flat_key (keys m)) ->
  load strict true m sd = r ->
  dget k1 (fst r) = dget k1 m /\ (strict = true -> exists e, snd r = Err e).
Proof.
  intros E ND H L <-. unfold StateDict.load. rewrite s2l_length, <- L, Nat.eqb_refl.
  destruct (rename strict (short2long m) sd) as [l|e] eqn:R.
  2:{ cbn. split; [reflexivity|]. intros _. exists e. reflexivity. }
  assert (N : ~ In k1 (keys (of_pairs l))).
  { intros X. apply of_pairs_in in X. destruct (rename_incl _ _ _ _ R k1 X) as (f & F).
    apply (s2l_last m l1 k1 l2 E ND H f F). }
  assert (K1 : In k1 (keys m)) by (rewrite E; apply in_app_iff; right; left; reflexivity).
  unfold StateDict.torch_load. cbn [fst snd]. split.
  - destruct (dget_keys k1 m K1) as (v & Ev). rewrite (dget_upd (of_pairs l) m k1 v Ev).
    apply dget_None in N. rewrite N. symmetry. exact Ev.
  - intros ->. eexists. 
    assert (M : exists x y, filter (fun k => negb (has (of_pairs l) k)) (keys m) = x :: y).
    { assert (I : In k1 (filter (fun k => negb (has (of_pairs l) k)) (keys m))).
      { apply filter_In. split; [exact K1|]. apply negb_true_iff.
        destruct (has (of_pairs l) k1) eqn:X; [|reflexivity]. apply has_iff in X. contradiction. }
      destruct (filter _ (keys m)); [destruct I|eauto]. }
    destruct M as (x & y & ->). cbn [andb]. rewrite orb_true_r. reflexivity.
Qed.

End Load.

(** ** The context *)
Fixpoint funs (l : list fstmt) (flag : bool) : list bool * bool * bool :=
  match l with
  | [] => ([], false, flag)
  | s :: l =>
      match frun s flag with
      | (t, true, flag) => (t, true, flag)
      | (t, false, flag) => let '(t', r, flag) := funs l flag in (t ++ t', r, flag)
      end
  end.

Lemma frun_with b flag : frun (FWith b) flag = let '(t, r, _) := funs b true in (t, r, false).
Proof. reflexivity. Qed.

Lemma funs_uses n flag l : funs (repeat FUse n ++ l) flag
  = let '(t, r, f) := funs l flag in (repeat flag n ++ t, r, f).
Proof.
  induction n as [|n IH]; cbn [repeat app funs frun].
  - destruct (funs l flag) as [[t r] f]. reflexivity.
  - rewrite IH. destruct (funs l flag) as [[t r] f]. reflexivity.
Qed.

Lemma context_flat n flag l :
  frun (FWith (repeat FUse n ++ l)) flag
  = let '(t, r, _) := funs l true in (repeat true n ++ t, r, false).
Proof. rewrite frun_with, funs_uses. destruct (funs l true) as [[t r] f]. reflexivity. Qed.

Lemma context_nested n p q flag :
  frun (FWith (repeat FUse n ++ FWith (repeat FUse p) :: repeat FUse q)) flag
  = (repeat true n ++ repeat true p ++ repeat false q, false, false).
Proof.
  assert (U : forall n flag, funs (repeat FUse n) flag = (repeat flag n, false, flag)).
  { intros k f. rewrite <- (app_nil_r (repeat FUse k)), funs_uses. cbn. rewrite app_nil_r. reflexivity. }
  rewrite context_flat. cbn [funs]. rewrite frun_with, U. rewrite U. reflexivity.
Qed.
