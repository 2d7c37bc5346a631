(** How much a network stores between calls. *)
From Coq Require Import List ZArith Bool Arith.
From Verif Require Import Base Frames CoMod Leaf Rnn Net NetSpec Calls.
Import ListNotations.

Section MemSpec.
Context {F : Type} {FA : Frames F}.

(** Number of frames (for recurrent modules: hidden tensors) in the buffers of each
    module with a state, in order. *)
Fixpoint held (m : md F) : list nat :=
  match m with
  | MDelay _ _ _ o => [length (o_buf o)]
  | MConv _ o => [length (concat (o_buf o))]
  | MPool _ o => [length (o_buf o)]
  | MRnn _ o => [match o with Some hs => length (concat hs) | None => 0 end]
  | MSeq ms | MPar ms | MBR ms _ => flat_map held ms
  | MCond _ _ _ a b => held a ++ match b with Some b0 => held b0 | None => [] end
  | _ => []
  end.
(** What there is room for, from the constructor arguments alone: the delay; k-1 partial
    sums for each of the last k-1 frames; the window of a pooling; the hidden state of
    each layer. *)
Fixpoint room (m : md F) : list nat :=
  match m with
  | MDelay d _ _ _ => [d]
  | MConv c _ => [(ck c - 1) * (ck c - 1)]
  | MPool c _ => [pd c * (pk c - 1) + 1]
  | MRnn c _ => [length (r_cells c) * length (r_h0 c)]
  | MSeq ms | MPar ms | MBR ms _ => flat_map room ms
  | MCond _ _ _ a b => room a ++ match b with Some b0 => room b0 | None => [] end
  | _ => []
  end.

(** The integers that are part of the state. *)
Fixpoint counters (m : md F) : list Z :=
  match m with
  | MDelay _ _ _ o => [o_idx o]
  | MSkip _ i => [i]
  | MConv _ o => [o_idx o; o_str o]
  | MPool _ o => [o_idx o; o_str o]
  | MSeq ms | MPar ms | MBR ms _ => flat_map counters ms
  | MCond _ _ _ a b => counters a ++ match b with Some b0 => counters b0 | None => [] end
  | _ => []
  end.
(** Their greatest absolute values. *)
Fixpoint limits (m : md F) : list nat :=
  match m with
  | MDelay d _ _ _ => [2 * d]
  | MSkip n _ => [n]
  | MConv c _ => [ck c; cs c + ck c + cp c]
  | MPool c _ => [pk c; ps c + (pd c * (pk c - 1) + 1) + pp c]
  | MSeq ms | MPar ms | MBR ms _ => flat_map limits ms
  | MCond _ _ _ a b => limits a ++ match b with Some b0 => limits b0 | None => [] end
  | _ => []
  end.

(** Positive kernel sizes and strides; recurrent cells return as many tensors as they
    are given. *)
Fixpoint proper (m : md F) : Prop :=
  match m with
  | MConv c _ => 1 <= ck c /\ 1 <= cs c
  | MPool c _ => 1 <= pk c /\ 1 <= ps c
  | MRnn c _ => Forall (fun cell => forall h x, length h = length (r_h0 c) -> length (fst (cell h x)) = length (r_h0 c)) (r_cells c)
  | MSeq ms | MPar ms | MBR ms _ => allP proper ms
  | MCond _ _ _ a b => proper a /\ match b with Some b0 => proper b0 | None => True end
  | _ => True
  end.

(** Calls other than clean_state. *)
Definition keeps_state (c : call F) : Prop := match c with CClean => False | _ => True end.

End MemSpec.
