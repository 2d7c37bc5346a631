(** Changing the parameters of a network in the middle of a stream, with
    [load_state_dict], an optimiser step or an assignment to [weight].  The state
    of a stream is kept in buffers that are not part of the parameters and that are
    registered with [persistent=False] (conv.py:121-123, pooling.py:148-150,
    delay.py:62-63, skip.py:33), or in plain attributes (rnn.py:183-194): none of
    them is written when the parameters are. *)
From Coq Require Import List ZArith Bool Arith.
From Verif Require Import Base Frames CoMod Leaf Rnn Net Spec NetSpec.
Import ListNotations.

Section Reload.
Context {F : Type}.

Definition zip_with {A B C} (f : A -> B -> C) : list A -> list B -> list C :=
  fix go l k := match l, k with a :: l, b :: k => f a b :: go l k | _, _ => [] end.

(** The network [m] after the parameters of [p] have been copied into it
    ([m.load_state_dict(p.state_dict())]): torch copies every parameter in place, so
    the modules stay the same objects and keep their buffers.  Simplification:
    functions stand for parameters, and everything but the buffers is taken from
    [p]; [p] is meant to have the architecture of [m]. *)
Fixpoint load (p m : md F) {struct p} : md F :=
  match p, m with
  | MDelay d f sh _, MDelay _ _ _ o => MDelay d f sh o
  | MSkip n _, MSkip _ o => MSkip n o
  | MConv c _, MConv _ o => MConv c o
  | MPool c _, MPool _ o => MPool c o
  | MRnn c _, MRnn _ o => MRnn c o
  | MSeq ps, MSeq ms => MSeq (zip_with load ps ms)
  | MPar ps, MPar ms => MPar (zip_with load ps ms)
  | MBR ps r, MBR ms _ => MBR (zip_with load ps ms) r
  | MCond q D R a b, MCond _ _ _ a' b' =>
      MCond q D R (load a a')
        (match b, b' with Some x, Some y => Some (load x y) | _, _ => b end)
  | _, _ => p
  end.

(** A stream during which the parameters are exchanged again and again: before each
    of the clips, which are fed frame by frame, those of another network are loaded. *)
Fixpoint train {FA : Frames F} (m : md F) (l : list (md F * list F)) : res (list (list (option F)) * md F) :=
  match l with
  | [] => Ok ([], m)
  | (p, xs) :: t =>
      '(ys, m1) <- feed (nstep true) (load p m) xs ;;
      '(yss, m2) <- train m1 t ;; Ok (ys :: yss, m2)
  end.

(** A convolution whose weights and bias may be different at every step, as during
    online learning: the list pairs each frame with the parameters it meets. *)
Fixpoint feed_learning {FA : Frames F} (o : obj (list F)) (l : list (conv_cfg F * F))
  : res (list (option F) * obj (list F)) :=
  match l with
  | [] => Ok ([], o)
  | (c, x) :: t =>
      '(y, o1) <- conv_forward_step c o x true ;;
      '(ys, o2) <- feed_learning o1 t ;; Ok (y :: ys, o2)
  end.

End Reload.
