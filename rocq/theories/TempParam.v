(** utils.py:28-58: dotted attributes and temporary_parameter. An object is a
    tree of attributes; sharing between objects is not modelled. *)
From Coq Require Import List ZArith Bool Arith String.
From Verif Require Import Base.
Import ListNotations.
Open Scope list_scope.

Inductive pyval :=
| PNum (n : Z)
| PObj (attrs : list (string * pyval)).

(** [getattr]. *)
Fixpoint assoc (a : string) (l : list (string * pyval)) : option pyval :=
  match l with
  | [] => None
  | (b, v) :: l => if String.eqb a b then Some v else assoc a l
  end.
Definition getattr (o : pyval) (a : string) : res pyval :=
  match o with
  | PObj l => match assoc a l with Some v => Ok v | None => Err AttributeError end
  | PNum _ => Err AttributeError
  end.

(** [setattr]: replaces the value, or adds the attribute at the end. *)
Fixpoint put (a : string) (v : pyval) (l : list (string * pyval)) : list (string * pyval) :=
  match l with
  | [] => [(a, v)]
  | (b, w) :: l => if String.eqb a b then (b, v) :: l else (b, w) :: put a v l
  end.
Definition setattr (o : pyval) (a : string) (v : pyval) : res pyval :=
  match o with
  | PObj l => Ok (PObj (put a v l))
  | PNum _ => Err AttributeError
  end.

(** [delattr]. *)
Definition delattr (o : pyval) (a : string) : res pyval :=
  match o with
  | PObj l =>
      match assoc a l with
      | Some _ => Ok (PObj (filter (fun p => negb (String.eqb a (fst p))) l))
      | None => Err AttributeError
      end
  | PNum _ => Err AttributeError
  end.

(** utils.py:33-37 [rgetattr]; the path is [attr.split(".")], written as its
    first name and the rest. *)
Fixpoint rgetattr (o : pyval) (a : string) (path : list string) : res pyval :=
  v <- getattr o a ;;
  match path with [] => Ok v | b :: path => rgetattr v b path end.

(** utils.py:28-30 [rsetattr]. *)
Fixpoint rsetattr (o : pyval) (a : string) (path : list string) (val : pyval) : res pyval :=
  match path with
  | [] => setattr o a val
  | b :: path =>
      v <- getattr o a ;;
      v' <- rsetattr v b path val ;;
      setattr o a v'
  end.

(** The body of a with statement: what it does to the object, and whether it
    raises. *)
Definition body := pyval -> pyval * option exn.

(** Running a step that may raise, on an object that then stays as it is. *)
Definition try_set (r : res pyval) (o : pyval) : pyval * option exn :=
  match r with Ok o' => (o', None) | Err e => (o, Some e) end.

(** utils.py:40-58 [temporary_parameter] around [b]. There is no try/finally, so
    an exception of the body skips the rest. *)
Definition temporary_parameter (a : string) (path : list string) (val : pyval) (b : body)
  : body := fun o =>
  match rgetattr o a path with
  | Ok prev_val =>
      match try_set (rsetattr o a path val) o with
      | (o1, Some e) => (o1, Some e)
      | (o1, None) =>
          match b o1 with
          | (o2, Some e) => (o2, Some e)
          | (o2, None) => try_set (rsetattr o2 a path prev_val) o2
          end
      end
  | Err _ =>
      match path with
      | _ :: _ => (o, Some AssertionError)
      | [] =>
          match try_set (rsetattr o a [] val) o with
          | (o1, Some e) => (o1, Some e)
          | (o1, None) =>
              match b o1 with
              | (o2, Some e) => (o2, Some e)
              | (o2, None) => try_set (delattr o2 a) o2
              end
          end
      end
  end.

(** Bodies in sequence. *)
Definition seq_body (b1 b2 : body) : body := fun o =>
  match b1 o with
  | (o1, Some e) => (o1, Some e)
  | (o1, None) => b2 o1
  end.
