(** Specification vocabulary, independent of the model of the library. *)
From Coq Require Import List Bool Arith.
From Verif Require Import Base.
Import ListNotations.

(** Call a step method once per frame, collecting every returned value. *)
Fixpoint feed {F O} (step : O -> F -> res (option F * O)) (o : O) (xs : list F)
  : res (list (option F) * O) :=
  match xs with
  | [] => Ok ([], o)
  | x :: t => '(y, o1) <- step o x ;; '(ys, o2) <- feed step o1 t ;; Ok (y :: ys, o2)
  end.

(** Emission schedule: first output at step [d], then every [s] steps. *)
Definition emits (d s n : nat) : bool := Nat.leb d n && Nat.eqb ((n - d) mod s) 0.

(** What a clean module with delay [d] and stride [s] returns at step [n] when
    the outputs of the corresponding regular layer are [ys]: the next output of
    [ys] at every emission step, and None otherwise. *)
Definition scheduled {F} (d s : nat) (ys : list F) (n : nat) : option F :=
  if emits d s n then nth_error ys ((n - d) / s) else None.

(** Was anything returned? *)
Definition is_some {A} (o : option A) : bool := match o with Some _ => true | None => false end.
