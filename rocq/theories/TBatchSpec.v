(** What C67 says about a stream whose batch size changes. *)
From Coq Require Import List ZArith Bool Arith.
From Verif Require Import Base Frames CoMod Tensor TBatch.
Import ListNotations.

Section TBatchSpec.
Context {K : Type}.

(** What a frame stands for in a stream of batch size [n]: a frame of batch size 1 for
    the same sample [n] times. *)
Definition in_batch (n : nat) (x : bat K) : list K :=
  if Nat.eqb (fst x) n then snd x else concat (repeat (snd x) n).

(** A frame with entries of shape [sh] per sample, of batch size [n] or 1. *)
Definition frame_ok (n : nat) (sh : list nat) (x : bat K) : Prop :=
  (fst x = n \/ fst x = 1) /\ length (snd x) = fst x * size sh.

(** Calls of a streaming module. *)
Inductive bcall (F : Type) :=
| BStep (x : F) (upd : bool)
| BSteps (xs : list F) (pe upd : bool).
Arguments BStep {F} _ _.
Arguments BSteps {F} _ _ _.
Definition bframes {F} (a : bcall F) : list F := match a with BStep x _ => [x] | BSteps xs _ _ => xs end.
Definition bmap {F G} (f : F -> G) (a : bcall F) : bcall G :=
  match a with BStep x u => BStep (f x) u | BSteps xs p u => BSteps (map f xs) p u end.

(** The outputs of a list of calls: the frames that each returned. *)
Section Run.
Context {F Ob : Type}.
Variables (step : Ob -> F -> bool -> res (option F * Ob))
          (steps : Ob -> list F -> bool -> bool -> res (option (list F) * Ob)).
Definition bdo (o : Ob) (a : bcall F) : res (option (list F) * Ob) :=
  match a with
  | BStep x u => '(y, o') <- step o x u ;; Ok (option_map (fun y => [y]) y, o')
  | BSteps xs p u => steps o xs p u
  end.
Fixpoint brun (o : Ob) (l : list (bcall F)) : res (list (option (list F)) * Ob) :=
  match l with
  | [] => Ok ([], o)
  | a :: t => '(y, o1) <- bdo o a ;; '(ys, o2) <- brun o1 t ;; Ok (y :: ys, o2)
  end.
End Run.

(** The results of two runs agree: the same exception, or the same frames, those of the
    first with batch size [n]. *)
Definition same_run {Ob Ob'} (n : nat) (r : res (list (option (list (bat K))) * Ob))
    (r' : res (list (option (list (list K))) * Ob')) : Prop :=
  match r, r' with
  | Ok (ys, _), Ok (ys', _) => ys = map (option_map (map (pair n))) ys'
  | Err e, Err e' => e = e'
  | _, _ => False
  end.
End TBatchSpec.
Arguments BStep {F} _ _.
Arguments BSteps {F} _ _ _.
