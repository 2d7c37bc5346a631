(** Basic vocabulary of the model: Python results, list slices, buffers. *)
From Coq Require Import List ZArith Bool Arith Lia.
Import ListNotations.

(** Python exceptions that the modelled code can raise. *)
Inductive exn :=
| IndexError | TypeError | RuntimeError | AssertionError | AttributeError
| KeyError | UnboundLocalError | ValueError | RecursionError | ZeroDivisionError.

(** Result of running Python code: a value or a raised exception. *)
Inductive res (A : Type) :=
| Ok (a : A)
| Err (e : exn).
Arguments Ok {A} a.
Arguments Err {A} e.

Definition bind {A B} (r : res A) (f : A -> res B) : res B :=
  match r with Ok a => f a | Err e => Err e end.

Notation "x <- r ;; k" := (bind r (fun x => k))
  (at level 61, r at next level, right associativity).
Notation "' p <- r ;; k" := (bind r (fun p => k))
  (at level 61, p pattern, r at next level, right associativity).

(** Tensor item read [buf[i]]: negative or too large indices raise here.
    (Python would wrap a negative index once; the modelled code never relies on
    it, so it is made an error and shown unreachable.) *)
Definition getz {A} (l : list A) (i : Z) : res A :=
  if Z.ltb i 0 then Err IndexError
  else match nth_error l (Z.to_nat i) with
       | Some a => Ok a
       | None => Err IndexError
       end.

(** List with position [i] replaced. *)
Fixpoint set_nth {A} (l : list A) (i : nat) (a : A) : list A :=
  match l, i with
  | [], _ => []
  | _ :: t, O => a :: t
  | h :: t, S i => h :: set_nth t i a
  end.

(** Tensor item assignment [buf[i] = a]. *)
Definition setz {A} (l : list A) (i : Z) (a : A) : res (list A) :=
  if Z.ltb i 0 then Err IndexError
  else if Nat.ltb (Z.to_nat i) (length l) then Ok (set_nth l (Z.to_nat i) a)
  else Err IndexError.

(** Python slice [x[:, :, a : -b]] along time, for b > 0. *)
Definition slice_ab {A} (a b : nat) (l : list A) : list A :=
  skipn a (firstn (length l - b) l).

(** Sequencing of a fallible function over a list. *)
Fixpoint mapM {A B} (f : A -> res B) (l : list A) : res (list B) :=
  match l with
  | [] => Ok []
  | a :: t => b <- f a ;; bs <- mapM f t ;; Ok (b :: bs)
  end.

(** The non-None entries of a list of optional step results, in order. *)
Fixpoint somes {A} (l : list (option A)) : list A :=
  match l with
  | [] => []
  | Some a :: t => a :: somes t
  | None :: t => somes t
  end.
