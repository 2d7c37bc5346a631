(** Vocabulary for exported networks, on the network objects themselves. *)
From Coq Require Import List ZArith Bool Arith.
From Verif Require Import Base Frames CoMod Leaf Rnn Net NetSpec.
Import ListNotations.

Section Spec.
Context {F : Type} {FA : Frames F}.

(** Every module that keeps a state between frames has one. *)
Fixpoint held (m : md F) : Prop :=
  match m with
  | MDelay d _ _ o => d = 0 \/ o_buf o <> []
  | MConv c o => conv_stateless c = true \/ o_buf o <> []
  | MPool _ o => o_buf o <> []
  | MRnn _ o => o <> None
  | MSeq ms | MPar ms | MBR ms _ => allP held ms
  | MCond _ _ _ a b => held a /\ match b with Some b => held b | None => True end
  | _ => True
  end.

(** Recurrent cells return as many hidden tensors as they get. *)
Fixpoint cells_keep (m : md F) : Prop :=
  match m with
  | MRnn c _ => Forall (fun cell => forall h x, length h = length (r_h0 c) ->
                                      length (fst (cell h x)) = length (r_h0 c)) (r_cells c)
  | MSeq ms | MPar ms | MBR ms _ => allP cells_keep ms
  | MCond _ _ _ a b => cells_keep a /\ match b with Some b => cells_keep b | None => True end
  | _ => True
  end.

(** Conditionals without an else branch. *)
Fixpoint one_branch (m : md F) : Prop :=
  match m with
  | MSeq ms | MPar ms | MBR ms _ => allP one_branch ms
  | MCond _ _ _ a b => one_branch a /\ b = None
  | _ => True
  end.

(** Number of state tensors: two for a delay, one for a skip, three for a
    convolution or pooling, one or two for a recurrent module. *)
Fixpoint n_states (m : md F) : nat :=
  match m with
  | MDelay d _ _ _ => if Nat.eqb d 0 then 0 else 2
  | MSkip _ _ => 1
  | MConv c _ => if conv_stateless c then 0 else 3
  | MPool _ _ => 3
  | MRnn c _ => length (r_h0 c)
  | MSeq ms | MPar ms | MBR ms _ => list_sum (map n_states ms)
  | MCond _ _ _ a b => n_states a + match b with Some b => n_states b | None => 0 end
  | _ => 0
  end.

(** Networks in which every stateful module runs for each complete output. *)
Fixpoint plain (m : md F) : Prop :=
  match m with
  | MSeq ms | MBR ms _ => allP plain ms
  | MBroadcast _ | MPar _ | MDispatch _ | MReduce _ | MCond _ _ _ _ _ => False
  | _ => True
  end.

End Spec.
