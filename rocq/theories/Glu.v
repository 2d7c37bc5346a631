(** nn.GLU, converted as it is (convert.py:134, "has dim"): torch splits the tensor in two halves along
    the dimension and multiplies the first by the sigmoid of the second.  On frames it is called as in
    Axis.v, with a dimension of size 1 at position 2 (convert.py:61-66). *)
From Coq Require Import List ZArith Bool Arith.
From Verif Require Import Base Tensor Axis.
Import ListNotations.

(** The list with [v] at position [d]. *)
Fixpoint upd (d v : nat) (l : list nat) : list nat :=
  match l, d with
  | [], _ => []
  | _ :: l, 0 => v :: l
  | a :: l, S d => a :: upd d v l
  end.

Section Glu.
Context {K : Type} {SC : Scal K}.

(** F.glu: shape and data of the result; [h a b] is a * sigmoid(b).  An odd size raises. *)
Definition glu (h : K -> K -> K) (dim : Z) (sh : list nat) (x : list K) : res (list nat * list K) :=
  d <- dimension (length sh) dim ;;
  let n := nth d sh 0 in
  if Nat.odd n then Err RuntimeError
  else let out := upd d (n / 2) sh in
       Ok (out, tab out (fun ix => h (at_ sh x (map Z.of_nat ix)) (at_ sh x (map Z.of_nat (upd d (nth d ix 0 + n / 2) ix))))).
End Glu.

(** Specification: batch size, channels and space with size [m] in dimension [d], where 2 is time. *)
Definition sizes (B C : nat) (sp : list nat) (d m : nat) : nat * nat * list nat :=
  match d with 0 => (m, C, sp) | 1 => (B, m, sp) | _ => (B, C, upd (d - 3) m sp) end.
