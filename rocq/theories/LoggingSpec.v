(** First occurrences, by looking at all earlier messages. *)
From Coq Require Import List Bool ZArith.
From Verif Require Import Base Logging.
Import ListNotations.

Section Spec.
Context {M : Type}.
Variable key : M -> option Z.

Definition same_key (a b : M) : bool :=
  match key a, key b with Some i, Some j => Z.eqb i j | _, _ => false end.
Definition has_key (a : M) : bool := match key a with Some _ => true | None => false end.

(** The messages that have a key which no earlier message has. *)
Definition firsts (l : list M) : list M :=
  flat_map (fun i => match nth_error l i with
                     | Some m => if has_key m && negb (existsb (same_key m) (firstn i l))
                                 then [m] else []
                     | None => [] end) (seq 0 (length l)).

(** The messages of a history. *)
Definition logs (l : list event) : list M :=
  flat_map (fun e => match e with Log m => [m] | Get _ => [] end) l.
Definition no_get (l : list (@event M)) : Prop :=
  forall b, ~ In (Get b) l.
Definition no_once (l : list (@event M)) : Prop := ~ In (Get true) l.

End Spec.
