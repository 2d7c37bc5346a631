(** State dicts with flattened names (continual/utils.py:61-172).

    A module is the ordered dict of its parameters and persistent buffers, by long
    name, as nn.Module.state_dict returns it; values are abstract. Simplifications:
    strings are ASCII; [destination] is None and [prefix] is empty; logged warnings
    are left out. torch's load_state_dict is modelled on names: a key of the given
    dict is unexpected if the module has no such key. *)
From Coq Require Import List ZArith Bool Arith String Ascii.
From Verif Require Import Base.
Import ListNotations.
Open Scope list_scope.

(** [s.split(".")]. *)
Fixpoint split (s : string) : list string :=
  match s with
  | EmptyString => [EmptyString]
  | String a s =>
      if Ascii.eqb a "."%char then EmptyString :: split s
      else match split s with
           | [] => [String a EmptyString]
           | p :: l => String a p :: l
           end
  end.

(** ["." .join(l)]. *)
Fixpoint join (l : list string) : string :=
  match l with
  | [] => EmptyString
  | [p] => p
  | p :: l => (p ++ String "." (join l))%string
  end.

(** [s.isdigit()]. *)
Definition digit (a : ascii) : bool :=
  let n := nat_of_ascii a in (48 <=? n) && (n <=? 57).
Fixpoint all_digits (s : string) : bool :=
  match s with EmptyString => true | String a s => digit a && all_digits s end.
Definition isdigit (s : string) : bool :=
  match s with EmptyString => false | _ => all_digits s end.

(** utils.py:112-115 and 153-156: the flattened name. *)
Definition flat_key (s : string) : string :=
  join (filter (fun p => negb (isdigit p)) (split s)).

Section Dict.
Context {V : Type}.

(** OrderedDict. *)
Definition dict (A : Type) := list (string * A).
Fixpoint dget {A} (k : string) (d : dict A) : option A :=
  match d with
  | [] => None
  | (k', v) :: d => if String.eqb k k' then Some v else dget k d
  end.
Fixpoint dput {A} (k : string) (v : A) (d : dict A) : dict A :=
  match d with
  | [] => [(k, v)]
  | (k', w) :: d => if String.eqb k k' then (k', v) :: d else (k', w) :: dput k v d
  end.
Definition keys {A} (d : dict A) : list string := map fst d.
Definition of_pairs {A} (l : list (string * A)) : dict A :=
  fold_left (fun d p => dput (fst p) (snd p) d) l [].

(** [len(set(l))]. *)
Definition distinct (l : list string) : nat := List.length (nodup string_dec l).

(** utils.py:87-123 [state_dict]. *)
Definition save (flatten : bool) (m : dict V) : dict V :=
  if flatten then
    let flat := map flat_key (keys m) in
    if Nat.eqb (distinct flat) (List.length m)
    then of_pairs (combine flat (map snd m)) else m
  else m.

(** nn.Module.load_state_dict: the module afterwards, and the missing and
    unexpected keys. A value that does not fit (shape) is not copied and raises. *)
Variable fits : V -> V -> bool.

Definition has {A} (d : dict A) (k : string) : bool :=
  match dget k d with Some _ => true | None => false end.

Definition torch_load (strict : bool) (m sd : dict V) : dict V * res (list string * list string) :=
  let m' := map (fun p => match dget (fst p) sd with
                          | Some w => if fits (snd p) w then (fst p, w) else p
                          | None => p
                          end) m in
  let missing := filter (fun k => negb (has sd k)) (keys m) in
  let unexpected := filter (fun k => negb (has m k)) (keys sd) in
  let bad := existsb (fun p => match dget (fst p) sd with
                               | Some w => negb (fits (snd p) w)
                               | None => false
                               end) m in
  let incomplete := match missing, unexpected with [], [] => false | _, _ => true end in
  (m', if bad || (strict && incomplete) then Err RuntimeError else Ok (missing, unexpected)).

(** utils.py:153-156 [short2long]. *)
Definition short2long (m : dict V) : dict string :=
  of_pairs (map (fun k => (flat_key k, k)) (keys m)).

(** utils.py:158-164: renaming; a missing name is a KeyError in strict mode. *)
Fixpoint rename (strict : bool) (s2l : dict string) (sd : dict V) : res (list (string * V)) :=
  match sd with
  | [] => Ok []
  | (k, v) :: sd =>
      match dget k s2l with
      | Some long => l <- rename strict s2l sd ;; Ok ((long, v) :: l)
      | None => if strict then Err KeyError else rename strict s2l sd
      end
  end.

(** utils.py:126-172 [load_state_dict]. *)
Definition load (strict flatten : bool) (m sd : dict V) : dict V * res (list string * list string) :=
  if flatten then
    let s2l := short2long m in
    if Nat.eqb (List.length s2l) (List.length sd) then
      match rename strict s2l sd with
      | Err e => (m, Err e)
      | Ok l => torch_load strict m (of_pairs l)
      end
    else torch_load strict m sd
  else torch_load strict m sd.

End Dict.

(** The flat_state_dict context (utils.py:61-71): one global flag. [FUse] is a
    save or load, which looks at the flag. *)
Inductive fstmt := FUse | FWith (body : list fstmt) | FRaise.

(** Runs a program: the flags seen, whether it raised, and the flag afterwards. *)
Fixpoint frun (s : fstmt) (flag : bool) {struct s} : list bool * bool * bool :=
  let fix fruns (l : list fstmt) (flag : bool) {struct l} : list bool * bool * bool :=
    match l with
    | [] => ([], false, flag)
    | s :: l =>
        match frun s flag with
        | (t, true, flag) => (t, true, flag)
        | (t, false, flag) => let '(t', r, flag) := fruns l flag in (t ++ t', r, flag)
        end
    end in
  match s with
  | FUse => ([flag], false, flag)
  | FWith b => let '(t, r, _) := fruns b true in (t, r, false)
  | FRaise => ([], true, flag)
  end.
