(** Specification vocabulary for copies of networks. *)
From Coq Require Import List ZArith Bool Arith.
From Verif Require Import Base CallMode Copy.
Import ListNotations.

(** What concerns network [w] in a history of two. *)
Definition only {A} (w : bool) (l : list (bool * A)) : list A :=
  map snd (filter (fun p => Bool.eqb (fst p) w) l).

Section CopySpec.
Context {X W : Type}.

(** The modules of a network, and those that are not containers, in the order in which they run. *)
Fixpoint modules (t : net) : list nat :=
  match t with Leaf i => [i] | Seq i l => i :: flat_map modules l end.
Fixpoint leaves (t : net) : list nat :=
  match t with Leaf i => [i] | Seq _ l => flat_map leaves l end.
Definition inner (t : net) : list nat := match t with Leaf _ => [] | Seq _ l => flat_map modules l end.

(** One after the other. *)
Fixpoint through (f : nat -> X -> res X) (l : list nat) (x : X) : res X :=
  match l with [] => Ok x | i :: l => y <- f i x ;; through f l y end.

(** A network in memory [m]: its modules exist, and the outermost is not part of itself. *)
Definition present (t : net) (m : mem W) : Prop :=
  (forall i, In i (modules t) -> i < size m) /\ ~ In (name t) (inner t).
(** Continual modules only, or torch modules converted in place as well. *)
Definition continual_only (t : net) (m : mem W) : Prop := forall i, In i (modules t) -> fns (ob m i) = None.
Definition with_converted (t : net) (m : mem W) : Prop :=
  forall i, In i (modules t) -> fns (ob m i) = None \/ fns (ob m i) = Some i.
Definition is_converted (m : mem W) (i : nat) : bool := match fns (ob m i) with Some _ => true | None => false end.
(** Parameters are set for modules of the original memory. *)
Definition trains_below (n : nat) (o : op X W) : Prop := match o with OTrain i _ => i < n | _ => True end.
(** The three call modes exist, module.py:34-38. *)
Definition modes_exist (m : mem W) : Prop := 3 <= top m.

(** [M] is memory [m] with a copy of all modules behind it, some time later: the stored
    functions are as they were, everything else may have changed. *)
Definition later (m M : mem W) : Prop :=
  forall i, i < size m -> fns (ob M i) = fns (ob m i) /\ fns (ob M (size m + i)) = fns (ob m i).

(** Methods of the modules. *)
Variable co_fn : meth -> W -> X -> res X.
Variable nn_fn : W -> X -> res X.
Variables unsq sq : X -> X.
(** What a torch module computes in each mode with parameters [w]. *)
Definition torch_fn (me : meth) (w : W) (x : X) : res X :=
  match me with
  | Step => match nn_fn w (unsq x) with Ok y => Ok (sq y) | Err e => Err e end
  | Forward | Steps => nn_fn w x
  end.
(** What a network computes in mode [me]: [w i] are the parameters of module [i], [conv i]
    tells that it is a torch module. *)
Definition computes (me : meth) (conv : nat -> bool) (w : nat -> W) (t : net) (x : X) : res X :=
  through (fun i => if conv i then torch_fn me (w i) else co_fn me (w i)) (leaves t) x.
(** The same network, with an error wherever a torch module is reached. *)
Definition breaks (me : meth) (conv : nat -> bool) (w : nat -> W) (t : net) (x : X) : res X :=
  through (fun i x => if conv i then Err TypeError else co_fn me (w i) x) (leaves t) x.
End CopySpec.
