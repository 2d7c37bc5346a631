(** Modules that work along dimensions of a tensor and are converted as they are: nn.Softmax,
    nn.Softmin, nn.LogSoftmax, nn.Softmax2d and nn.LayerNorm (convert.py:144-147, 152).
    forward_stepping (convert.py:38-113) calls them on a frame of shape (B, C, *sp) with a dimension
    of size 1 put in at position 2, and removes it afterwards; the data stay as they are. *)
From Coq Require Import List ZArith Bool Arith.
From Verif Require Import Base Frames Tensor.
Import ListNotations.

(** torch's numbering of dimensions: negative numbers count from the end. *)
Definition dimension (rank : nat) (dim : Z) : res nat :=
  if (Z.leb 0 dim && Z.ltb dim (Z.of_nat rank))%bool then Ok (Z.to_nat dim)
  else if (Z.leb (- Z.of_nat rank) dim && Z.ltb dim 0)%bool then Ok (Z.to_nat (dim + Z.of_nat rank))
  else Err IndexError.

(** Which dimensions a module works along: one (Softmax), or the last [m] (LayerNorm). *)
Definition one_axis (rank d : nat) : list bool := map (Nat.eqb d) (seq 0 rank).
Definition last_axes (rank m : nat) : list bool := map (Nat.leb (rank - m)) (seq 0 rank).

Section Axis.
Context {K : Type} {SC : Scal K}.

Fixpoint pick {A} (ax : list bool) (l : list A) : list A :=
  match ax, l with
  | true :: ax, a :: l => a :: pick ax l
  | false :: ax, _ :: l => pick ax l
  | _, _ => []
  end.
(** The index [ix] with [p] in the picked dimensions. *)
Fixpoint merge (ax : list bool) (ix p : list nat) : list nat :=
  match ax, ix with
  | true :: ax, _ :: ix => match p with j :: p => j :: merge ax ix p | [] => [] end
  | false :: ax, i :: ix => i :: merge ax ix p
  | _, _ => []
  end.

(** A module that computes each entry from the entries along the picked dimensions and its
    position among them. *)
Definition along (ax : list bool) (g : list K -> list nat -> K) (sh : list nat) (x : list K) : list K :=
  tab sh (fun ix => g (tab (pick ax sh) (fun p => at_ sh x (map Z.of_nat (merge ax ix p)))) (pick ax ix)).

(** forward on a clip and forward_step on a frame (convert.py:61-66). *)
Definition ax_forward (ax : list bool) g (B C T : nat) (sp : list nat) (X : list K) : list K := along ax g (B :: C :: T :: sp) X.
Definition ax_step (ax : list bool) g (B C : nat) (sp : list nat) (x : list K) : list K := along ax g (B :: C :: 1 :: sp) x.

(** nn.LayerNorm (torch; convert.py:152): the last dimensions must have the sizes [ns].  [g] gets the
    entries of one block and the position in it (for the weights). *)
Definition layer_norm (ns : list nat) g (sh : list nat) (x : list K) : res (list K) :=
  if list_eq_dec Nat.eq_dec (skipn (length sh - length ns) sh) ns
  then Ok (along (last_axes (length sh) (length ns)) g sh x) else Err RuntimeError.
(** A module with an argument [dim]. *)
Definition dim_module (dim : Z) g (sh : list nat) (x : list K) : res (list K) :=
  match dimension (length sh) dim with
  | Ok d => Ok (along (one_axis (length sh) d) g sh x)
  | Err e => Err e
  end.

(** nn.Softmax.forward, nn.Softmin (exp of the negative), with any function for exp and division. *)
Definition softmax (e : K -> K) (div : K -> K -> K) (l : list K) (p : list nat) : K :=
  div (e (nth (hd 0 p) l s0)) (ksum (map e l)).
End Axis.
