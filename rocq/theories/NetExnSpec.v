(** Specification vocabulary for calls that raise. *)
From Coq Require Import List ZArith Bool Arith.
From Verif Require Import Base Frames CoMod Leaf Rnn Net LeafSpec NetSpec Calls.
Import ListNotations.

Section NetExnSpec.
Context {F : Type} {FA : Frames F}.

(** What reaches the second stage. *)
Fixpoint passed (rs : list (res (val F))) : list (val F) :=
  match rs with
  | [] => []
  | Ok VNone :: t => passed t
  | Ok w :: t => w :: passed t
  | Err _ :: t => passed t
  end.
(** The results of the first stage, those passed on replaced by the results of the
    second. *)
Fixpoint answered (ra rb : list (res (val F))) : list (res (val F)) :=
  match ra with
  | [] => []
  | Ok VNone :: t => Ok VNone :: answered t rb
  | Ok _ :: t => match rb with r :: rt => r :: answered t rt | [] => [] end
  | Err e :: t => Err e :: answered t rb
  end.

(** A frame for each of two streams. *)
Definition pair_call (p : F * F) : call F := CStep (VL [VT (fst p); VT (snd p)]) true.

(** The sum of two results, if both are there. *)
Definition both (r : red F) (p : option F * option F) : val F :=
  match p with (Some y, Some z) => VT (r_op r y z) | _ => VNone end.

(** Convolutions and poolings with a temporal stride, newly built. *)
Definition strided (m : md F) : Prop :=
  (exists c, m = MConv c obj_init /\ conv_reg c /\ 2 <= cs c) \/
  (exists c, m = MPool c obj_init /\ pool_reg c /\ 2 <= ps c).

End NetExnSpec.
