(** Specification vocabulary for the heap model: which tensors a network owns,
    when it shares none, and what it means to leave tensors alone. *)
From Coq Require Import List ZArith Bool Arith.
From Verif Require Import Base Frames CoMod Leaf Rnn Net Calls Heap.
Import ListNotations.

Section HeapSpec.
Context {F : Type}.

(** The kinds of tensor a module holds. *)
Inductive kind := KFrames | KRows.
Definition kind_of (c : cell F) : kind := match c with TFrames _ => KFrames | TRows _ => KRows end.

(** References held by the modules of a network, with the kind each expects. *)
Fixpoint refs (m : hmd F) : list (nat * kind) :=
  match m with
  | HDelay _ _ _ o => [(h_ref o, KFrames)]
  | HConv _ _ o => [(h_ref o, KRows)]
  | HPool _ o => [(h_ref o, KFrames)]
  | HSeq ms | HPar ms | HBR ms _ => flat_map refs ms
  | HCond _ _ _ a b => refs a ++ match b with Some b0 => refs b0 | None => [] end
  | _ => []
  end.

(** The [training] flags of the convolutions of a network. *)
Fixpoint conv_flags (m : hmd F) : list bool :=
  match m with
  | HConv _ tr _ => [tr]
  | HSeq ms | HPar ms | HBR ms _ => flat_map conv_flags ms
  | HCond _ _ _ a e => conv_flags a ++ match e with Some e => conv_flags e | None => [] end
  | _ => []
  end.

Definition own (m : hmd F) : list nat := map fst (refs m).

(** No two modules share a tensor, and every tensor exists and has the right
    kind. *)
Definition separate (h : heap F) (m : hmd F) : Prop :=
  NoDup (own m) /\
  forall r k, In (r, k) (refs m) -> exists c, nth_error h r = Some c /\ kind_of c = k.

(** Every tensor of [h] is still there in [h'] with the same contents. *)
Definition preserved (h h' : heap F) : Prop :=
  forall r c, nth_error h r = Some c -> nth_error h' r = Some c.

(** Every tensor of [h] that [m] does not hold is still there in [h'] with the
    same contents. *)
Definition others_preserved (m : hmd F) (h h' : heap F) : Prop :=
  forall r c, nth_error h r = Some c -> ~ In r (own m) -> nth_error h' r = Some c.

(** A stateful leaf module. *)
Definition is_leaf (m : hmd F) : Prop :=
  match m with HDelay _ _ _ _ | HConv _ _ _ | HPool _ _ => True | _ => False end.

(** A convolution in training mode. *)
Definition training_conv (m : hmd F) : Prop :=
  match m with HConv _ true _ => True | _ => False end.

(** A history without a switch to evaluation mode. *)
Definition stays_training (cs : list (hcall F)) : Prop := ~ In (HTrain false) cs.

(** No Conditional. *)
Definition hcond_free (h : heap F) (m : hmd F) : Prop := cond_free (view h m).

End HeapSpec.
