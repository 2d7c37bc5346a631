(** Specification vocabulary for C67: networks with shared objects. *)
From Coq Require Import List ZArith Bool Arith.
From Verif Require Import Base Frames CoMod Leaf Rnn Net Calls NetExn Share.
Import ListNotations.

Section ShareSpec.
Context {F : Type} {FA : Frames F}.

(** The network in which every occurrence is an object of its own: a copy of the
    object, with its current state. *)
Fixpoint copies (s : list (md F)) (n : sn F) : md F :=
  match n with
  | NRef i => nth i s (MSeq [])
  | NSeq ns => MSeq (map (copies s) ns)
  | NPar ns => MPar (map (copies s) ns)
  | NBR ns r => MBR (map (copies s) ns) r
  | NCond p D R a b => MCond p D R (copies s a) (option_map (copies s) b)
  end.

(** The objects of a network, one entry per occurrence. *)
Fixpoint occurrences (n : sn F) : list nat :=
  match n with
  | NRef i => [i]
  | NSeq ns | NPar ns | NBR ns _ => flat_map occurrences ns
  | NCond _ _ _ a b => occurrences a ++ match b with Some b0 => occurrences b0 | None => [] end
  end.

(** No method call changes the object. *)
Definition never_changes (m : md F) : Prop := forall c, fst (xcall m c) = m.

(** An object that occurs more than once keeps no state. *)
Definition shares_no_state (s : list (md F)) (n : sn F) : Prop :=
  forall i, 2 <= count_occ Nat.eq_dec (occurrences n) i -> never_changes (nth i s (MSeq [])).

(** Networks without buffers. *)
Fixpoint bufferless (m : md F) : Prop :=
  match m with
  | MMap _ | MBroadcast _ | MDispatch _ | MReduce _ => True
  | MDelay d _ _ o => d = 0 /\ o = obj_init
  | MSeq ms | MPar ms | MBR ms _ => fold_right (fun m P => bufferless m /\ P) True ms
  | MCond _ _ _ a b => bufferless a /\ match b with Some b0 => bufferless b0 | None => True end
  | _ => False
  end.

(** Every frame twice. *)
Fixpoint twice {A} (l : list A) : list A :=
  match l with [] => [] | x :: t => x :: x :: twice t end.
(** Consecutive results, two at a time. *)
Fixpoint pairs {A} (l : list A) : list (A * A) :=
  match l with x :: y :: t => (x, y) :: pairs t | _ => [] end.

(** Two results of branches, reduced if both are there. *)
Definition reduced (r : red F) (p : val F * val F) : res (val F) :=
  if forallb is_tensor [fst p; snd p] then reduce_vals r [fst p; snd p] else Ok VNone.

End ShareSpec.
