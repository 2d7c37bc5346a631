(** What exporting a module with flat states should mean, without nested states. *)
From Coq Require Import List Bool Arith String.
From Verif Require Import Base Onnx.
Import ListNotations.
Open Scope list_scope.

(** The number of tensors that a shape stands for. *)
Fixpoint size (s : shape) : nat :=
  match s with SInt n => n | SList l => list_sum (map size l) end.

(** Nested states of a given shape. *)
Fixpoint fits {A} (s : shape) (p : pst A) {struct s} : Prop :=
  match s, p with
  | SInt n, PTup l => List.length l = n
  | SList l, PList ps =>
      (fix go (l : list shape) (ps : list (pst A)) : Prop :=
         match l, ps with
         | [], [] => True
         | s :: l, p :: ps => fits s p /\ go l ps
         | _, _ => False
         end) l ps
  | _, _ => False
  end.

Section Spec.
Context {X A : Type}.
Notation om := (@om X A).

Definition all (P : om -> Prop) (l : list om) : Prop :=
  fold_right (fun m Q => P m /\ Q) True l.

(** The state tensors that a module object holds, in the order of its leaves. *)
Fixpoint tensors (m : om) : list A :=
  match m with
  | OLeaf _ (Some s) => s
  | OLeaf _ None => []
  | OPure _ => []
  | OSeq l | OPar l | OBR l _ => flat_map tensors l
  | OCond _ a b => tensors a ++ match b with Some b => tensors b | None => [] end
  end.

(** Every leaf holds as many tensors as it declares. *)
Fixpoint full (m : om) : Prop :=
  match m with
  | OLeaf f (Some s) => List.length s = l_n f
  | OLeaf _ None => False
  | OPure _ => True
  | OSeq l | OPar l | OBR l _ => all full l
  | OCond _ a b => full a /\ match b with Some b => full b | None => True end
  end.

(** Steps return as many tensors as the leaf declares. *)
Definition steady (f : @leaf X A) : Prop :=
  forall x s y s', List.length s = l_n f -> l_step f x (Some s) = Ok (y, s') ->
    List.length s' = l_n f.

(** Modules that can be exported: conditionals have one branch, or no state at
    all, and modules that do not take the state as second positional argument sit
    inside a container that names it. *)
Fixpoint exportable (kw : bool) (m : om) : Prop :=
  match m with
  | OLeaf f _ => steady f /\ (kw = true \/ l_pos f = true)
  | OPure _ => True
  | OSeq l | OPar l | OBR l _ => all (exportable true) l
  | OCond _ a b =>
      exportable false a /\
      match b with
      | None => True
      | Some b => exportable false b /\ size (oshape a) = 0 /\ size (oshape b) = 0
      end
  end.

(** Frames one at a time through [forward_step]. *)
Fixpoint orun (m : om) (xs : list X) : res (list oval * om) :=
  match xs with
  | [] => Ok ([], m)
  | x :: xs =>
      '(y, m) <- ostep m (OX x) ;; '(ys, m) <- orun m xs ;; Ok (y :: ys, m)
  end.

(** Frames one at a time through the exported function, feeding the returned
    states back; a missing state cannot be fed. *)
Fixpoint feed (l : list (option A)) : res (list A) :=
  match l with
  | [] => Ok []
  | Some a :: l => l <- feed l ;; Ok (a :: l)
  | None :: _ => Err TypeError
  end.
Fixpoint wrun (m : om) (st : list A) (xs : list X) : res (list oval * list A) :=
  match xs with
  | [] => Ok ([], st)
  | x :: xs =>
      '(y, st) <- wrapper m x st ;;
      st <- feed st ;;
      '(ys, st) <- wrun m st xs ;; Ok (y :: ys, st)
  end.

(** Decoded flags: which of a module's state tensors carry the batch. *)
Fixpoint flags (m : om) : list bool :=
  match m with
  | OLeaf f _ => l_dyn f
  | OPure _ => []
  | OSeq l | OPar l | OBR l _ => flat_map flags l
  | OCond _ a b => flags a ++ match b with Some b => flags b | None => [] end
  end.

End Spec.
