(** What C60 says about a step of an adaptive pooling module. *)
From Coq Require Import List ZArith Bool Arith.
From Verif Require Import Base Frames Spec Tensor TPool AdPool.
Import ListNotations.

Section AdPoolSpec.
Context {K : Type} {P : Pool K}.
Variables (B C : nat) (sp : list nat) (c : adp).

(** No temporal padding, frames with at least one position. *)
Record adp_ok : Prop := {
  ao_k : 1 <= a_k c; ao_s : 1 <= a_s c; ao_p : a_p c = 0;
  ao_sp : forallb (Nat.leb 1) sp = true; ao_len : length (a_out c) = length sp
}.

(** [y] is the one frame of what [forward] returns for the [k] frames of [xs] from
    position [i] on, stacked to a clip. *)
Definition pools_from (xs : list (list K)) (i : nat) (y : list K) : Prop :=
  exists Y, ad_forward B C sp c (a_k c) (stack2 B C sp (firstn (a_k c) (skipn i xs))) = Ok Y /\
            Y = stack2 B C (a_out c) [y] /\ length y = size (B :: C :: a_out c).

(** Step [m] returns this for the [k] frames up to [m], at the steps of C01; otherwise
    None. *)
Definition pools_last (xs : list (list K)) (m : nat) (r : option (list K)) : Prop :=
  if emits (a_k c - 1) (a_s c) m
  then exists y, r = Some y /\ pools_from xs (m + 1 - a_k c) y
  else r = None.

(** The positions [r] of an input of sizes [dims] that share something with the output
    position [q] of [outs], if both grids are stretched over the same interval: [r] covers
    r/d to (r+1)/d and [q] covers q/o to (q+1)/o. *)
Inductive overlap : list nat -> list nat -> list nat -> list nat -> Prop :=
| overlap_nil : overlap [] [] [] []
| overlap_cons d o q r dims outs qs rs :
    q * d < (r + 1) * o -> r * o < (q + 1) * d -> overlap dims outs qs rs ->
    overlap (d :: dims) (o :: outs) (q :: qs) (r :: rs).

End AdPoolSpec.
