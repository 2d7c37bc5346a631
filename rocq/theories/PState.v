(** Flattened state dicts: C34. *)
From Coq Require Import List ZArith Bool Arith String.
From Verif Require Import Base StateDict StateDictSpec StateDictProof StateDictName.
Import ListNotations.
Open Scope list_scope.

(** Values are shapes with a content; loading needs equal shapes. *)
Definition same_shape (v w : nat * Z) : bool := Nat.eqb (fst v) (fst w).

(** A Sequential of an unnamed convolution and a named one, and a Sequential of two
    unnamed convolutions. *)
Definition ex_a : dict (nat * Z) :=
  [("0.0.weight", (3, 1%Z)); ("0.0.bias", (1, 2%Z)); ("1.c1.weight", (3, 3%Z)); ("1.c1.bias", (1, 4%Z))]%string.
Definition ex_a' : dict (nat * Z) :=
  [("0.0.weight", (3, 5%Z)); ("0.0.bias", (1, 6%Z)); ("1.c1.weight", (3, 7%Z)); ("1.c1.bias", (1, 8%Z))]%string.
Definition ex_b : dict (nat * Z) :=
  [("c1.0.bias", (1, 0%Z)); ("weight", (3, 0%Z)); ("c1.0.weight", (3, 0%Z)); ("bias", (1, 0%Z))]%string.
Definition ex_two : dict (nat * Z) :=
  [("0.weight", (3, 1%Z)); ("1.weight", (3, 2%Z))]%string.

(** C34. The flattened name of a parameter is its name without the parts that are
    numbers. *)
Theorem C34_flat_name_parts : forall ps qs,
  ps <> [] -> Forall undotted ps -> without_numbers ps qs ->
  flat_key (String.concat "." ps) = String.concat "." qs.
Proof. exact flat_key_parts. Qed.
Print Assumptions C34_flat_name_parts.

(** C34. Every name has such parts. *)
Theorem C34_names_have_parts : forall s, exists ps qs,
  ps <> [] /\ Forall undotted ps /\ without_numbers ps qs
  /\ s = String.concat "." ps /\ flat_key s = String.concat "." qs.
Proof. exact name_parts. Qed.
Print Assumptions C34_names_have_parts.

Example C34_flat_name_parts_ex :
  Forall undotted ["0"; "c1"; "129"; "weight"]%string
  /\ without_numbers ["0"; "c1"; "129"; "weight"] ["c1"; "weight"]
  /\ String.concat "." ["0"; "c1"; "129"; "weight"] = "0.c1.129.weight"%string.
Proof.
  split; [|split; [|reflexivity]].
  - repeat constructor; cbv; intros H; repeat (destruct H as [H|H]; [discriminate H|]); exact H.
  - assert (N : forall p, isdigit p = true -> numeric p) by (intros; now apply isdigit_numeric).
    assert (N' : forall p, isdigit p = false -> ~ numeric p)
      by (intros p E H; apply isdigit_numeric in H; congruence).
    repeat first [apply wn_nil | apply wn_drop; [apply N; reflexivity|]
                 | apply wn_keep; [apply N'; reflexivity|]].
Qed.

(** C34. A flattened name has no numeric part, and flattening again changes
    nothing. *)
Theorem C34_flat_names : forall s,
  (forall p, In p (split (flat_key s)) -> isdigit p = false) /\ flat_key (flat_key s) = flat_key s.
Proof. exact (fun s => conj (flat_no_digit s) (flat_idem s)). Qed.
Print Assumptions C34_flat_names.

Example C34_flat_names_ex : flat_key "0.c1.12.weight" = "c1.weight"%string.
Proof. reflexivity. Qed.

(** C34. Saving and loading with the same flatten setting into a module of the same
    structure restores every value, for all names, unique when flattened or not,
    and reports nothing missing or unexpected. *)
Theorem C34_round_trip : forall V (fits : V -> V -> bool) strict flatten (m m' : dict V),
  NoDup (keys m) -> keys m = keys m' ->
  (forall k v w, dget k m = Some v -> dget k m' = Some w -> fits w v = true) ->
  load fits strict flatten m' (save flatten m) = (m, Ok ([], [])).
Proof. exact (@round_trip). Qed.
Print Assumptions C34_round_trip.

Example C34_round_trip_ex :
  NoDup (keys ex_a) /\ keys ex_a = keys ex_a'
  /\ (forall k v w, dget k ex_a = Some v -> dget k ex_a' = Some w -> same_shape w v = true)
  /\ keys (save true ex_a) = ["weight"; "bias"; "c1.weight"; "c1.bias"]%string
  /\ load same_shape true true ex_a' (save true ex_a) = (ex_a, Ok ([], []))
  /\ save true ex_two = ex_two.
Proof.
  split; [apply distinct_NoDup; reflexivity|]. split; [reflexivity|].
  split; [|repeat split; reflexivity].
  intros k v w. cbn. repeat (destruct (String.eqb k _); [intros [= <-] [= <-]; reflexivity|]).
  discriminate.
Qed.

(** C34. Saving yields flat names, in the same order, exactly when they are unique;
    otherwise the names stay. *)
Theorem C34_save_unique : forall V (m : dict V), NoDup (map flat_key (keys m)) ->
  save true m = map (fun p => (flat_key (fst p), snd p)) m.
Proof. exact (@save_flat). Qed.
Print Assumptions C34_save_unique.

Theorem C34_save_ambiguous : forall V (m : dict V), ~ NoDup (map flat_key (keys m)) ->
  save true m = m.
Proof. exact (@save_ambiguous). Qed.
Print Assumptions C34_save_ambiguous.

Example C34_save_unique_ex : NoDup (map flat_key (keys ex_a)).
Proof. apply distinct_NoDup. reflexivity. Qed.
Example C34_save_ambiguous_ex : ~ NoDup (map flat_key (keys ex_two)).
Proof. intros H. inversion H as [|? ? N _]. apply N. left. reflexivity. Qed.

(** C34. Flattened saving moves values between modules that are nested differently
    but have the same unique flat names: each parameter gets the value of the
    parameter with its flat name. *)
Theorem C34_transfer : forall V (fits : V -> V -> bool) strict (a b : dict V),
  NoDup (keys a) -> NoDup (keys b) ->
  NoDup (map flat_key (keys a)) -> NoDup (map flat_key (keys b)) ->
  (forall f, In f (map flat_key (keys a)) <-> In f (map flat_key (keys b))) ->
  (forall ka va kb vb, In (ka, va) a -> In (kb, vb) b -> flat_key ka = flat_key kb -> fits vb va = true) ->
  let r := load fits strict true b (save true a) in
  snd r = Ok ([], []) /\ keys (fst r) = keys b
  /\ (forall ka va kb, In (ka, va) a -> In kb (keys b) -> flat_key ka = flat_key kb ->
        dget kb (fst r) = Some va).
Proof. exact (@transfer). Qed.
Print Assumptions C34_transfer.

Example C34_transfer_ex :
  NoDup (keys ex_b) /\ NoDup (map flat_key (keys ex_b))
  /\ (forall f, In f (map flat_key (keys ex_a)) <-> In f (map flat_key (keys ex_b)))
  /\ fst (load same_shape true true ex_b (save true ex_a))
     = [("c1.0.bias", (1, 4%Z)); ("weight", (3, 1%Z)); ("c1.0.weight", (3, 3%Z)); ("bias", (1, 2%Z))]%string.
Proof.
  split; [apply distinct_NoDup; reflexivity|].
  split; [apply distinct_NoDup; reflexivity|].
  split; [|reflexivity]. intros f. cbn. tauto.
Qed.

(** C34. Loading an ordinary, unflattened dict with flatten raises a KeyError, and
    without strict silently loads nothing: all keys are missing, none unexpected. *)
Theorem C34_unflattened_dict_raises : forall V (fits : V -> V -> bool) (m sd : dict V) k,
  NoDup (map flat_key (keys m)) -> List.length sd = List.length m ->
  In k (keys sd) -> ~ In k (map flat_key (keys m)) ->
  load fits true true m sd = (m, Err KeyError).
Proof. exact (@regular_into_flat). Qed.
Print Assumptions C34_unflattened_dict_raises.

Theorem C34_unflattened_dict_ignored : forall V (fits : V -> V -> bool) (m sd : dict V),
  NoDup (map flat_key (keys m)) -> List.length sd = List.length m ->
  (forall k, In k (keys sd) -> ~ In k (map flat_key (keys m))) ->
  load fits false true m sd = (m, Ok (keys m, [])).
Proof. exact (@regular_dropped). Qed.
Print Assumptions C34_unflattened_dict_ignored.

Example C34_unflattened_dict_raises_ex :
  In "0.0.weight"%string (keys ex_a) /\ ~ In "0.0.weight"%string (map flat_key (keys ex_a')).
Proof. split; [left; reflexivity|]. intros H. cbn in H. decompose [or] H; discriminate || contradiction.
Qed.
Example C34_unflattened_dict_ignored_ex :
  (forall k, In k (keys ex_a) -> ~ In k (map flat_key (keys ex_a')))
  /\ load same_shape false true ex_a' ex_a = (ex_a', Ok (keys ex_a', [])).
Proof. split; [|reflexivity].
  intros k [<-|[<-|[<-|[<-|[]]]]] H; cbn in H; decompose [or] H; discriminate || contradiction.
Qed.

(** C34. If two parameters share a flat name, a flat dict of the right size never
    reaches the first of them, and a strict load raises. *)
Theorem C34_collision : forall V (fits : V -> V -> bool) strict (m sd : dict V) l1 k1 l2 r,
  keys m = l1 ++ k1 :: l2 -> NoDup (keys m) -> In (flat_key k1) (map flat_key l2) ->
  List.length sd = distinct (map flat_key (keys m)) ->
  load fits strict true m sd = r ->
  dget k1 (fst r) = dget k1 m /\ (strict = true -> exists e, snd r = Err e).
Proof. exact (@collision). Qed.
Print Assumptions C34_collision.

Example C34_collision_ex :
  keys ex_two = [] ++ "0.weight"%string :: ["1.weight"%string]
  /\ In (flat_key "0.weight") (map flat_key ["1.weight"%string])
  /\ load same_shape false true ex_two [("weight"%string, (3, 9%Z))]
     = ([("0.weight", (3, 1%Z)); ("1.weight", (3, 9%Z))], Ok (["0.weight"], []))%string.
Proof. repeat split; left; reflexivity. Qed.

(** C34. The flat_state_dict context: uses in its body are flattened, also before an
    exception, and afterwards flattening is off. *)
Theorem C34_context : forall n flag l,
  frun (FWith (repeat FUse n ++ l)) flag
  = let '(t, r, _) := funs l true in (repeat true n ++ t, r, false).
Proof. exact context_flat. Qed.
Print Assumptions C34_context.

Example C34_context_ex : frun (FWith [FUse; FRaise; FUse]) false = ([true], true, false).
Proof. reflexivity. Qed.

(** C34. Nested contexts: the rest of the outer body is not flattened. *)
Theorem C34_nested_context : forall n p q flag,
  frun (FWith (repeat FUse n ++ FWith (repeat FUse p) :: repeat FUse q)) flag
  = (repeat true n ++ repeat true p ++ repeat false q, false, false).
Proof. exact context_nested. Qed.
Print Assumptions C34_nested_context.

Example C34_nested_context_ex :
  frun (FWith [FUse; FWith [FUse]; FUse]) false = ([true; true; false], false, false).
Proof. reflexivity. Qed.
