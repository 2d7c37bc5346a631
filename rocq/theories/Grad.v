(** Automatic differentiation of the modules: torch differentiates every operation
    of a step or of a forward pass.  It is modelled in forward mode, with a tangent
    beside every frame: the derivative along an arbitrary direction of the
    parameters and inputs, which determines the gradient that backward() leaves.
    Simplification: the graph that torch records is not modelled, so neither are
    its memory, the version counters of tensors that are written in place
    (pooling.py:191), nor a second backward() through a graph that was freed. *)
From Coq Require Import List ZArith Bool Arith.
From Verif Require Import Base Frames CoMod Leaf Rnn Net.
Import ListNotations.

(** A frame and its tangent. *)
Record dual (F : Type) := Du { pri : F; tan : F }.
Arguments Du {F}. Arguments pri {F}. Arguments tan {F}.

Section Grad.
Context {F : Type} {FA : Frames F}.

(** Padding is constant (conv.py:104-107, pooling.py:95-99), a sum is
    differentiated term by term. *)
#[export] Instance dual_frames : Frames (dual F) :=
  {| f0 := Du f0 f0; finf := Du finf f0;
     fadd a b := Du (fadd (pri a) (pri b)) (fadd (tan a) (tan b)) |}.

(** conv.py:200-286: the partial results of a step are products of the weights and
    of the frame; [dW] and [db] are the tangents of weight and bias. *)
Definition dual_conv (c : conv_cfg F) (dW : nat -> F -> F) (db : F) : conv_cfg (dual F) :=
  {| ck := ck c; cs := cs c; cp := cp c;
     cW i p := Du (cW c i (pri p)) (fadd (cW c i (tan p)) (dW i (pri p)));
     cb := option_map (fun b => Du b db) (cb c);
     cmode := cmode c; cfill := cfill c |}.

(** A module that acts frame by frame, with its derivative. *)
Definition dual_map (g : F -> F) (g' : F -> F -> F) (p : dual F) : dual F :=
  Du (g (pri p)) (g' (pri p) (tan p)).

(** A pooling whose aggregation is linear (average), acting without spatial part. *)
Definition dual_pool (c : pool_cfg F) : pool_cfg (dual F) :=
  {| pk := pk c; ps := ps c; pp := pp c; pd := pd c;
     psp p := Du (psp c (pri p)) (psp c (tan p));
     pagg l := Du (pagg c (map pri l)) (pagg c (map tan l));
     pfill := pfill c; pmode := pmode c; pfdil := pfdil c |}.

(** torch.Tensor.detach on a frame: the value without tangent. *)
Definition det (p : dual F) : dual F := Du (pri p) f0.
Definition det_obj (o : obj (dual F)) : obj (dual F) := Obj (map det (o_buf o)) (o_idx o) (o_str o).
Definition det_objs (o : obj (list (dual F))) : obj (list (dual F)) := Obj (map (map det) (o_buf o)) (o_idx o) (o_str o).

(** Detaching the buffers of a network, as between two backward passes over one
    stream; the same state results from a warm-up under torch.no_grad(). *)
Fixpoint detach (m : md (dual F)) : md (dual F) :=
  match m with
  | MDelay d f sh o => MDelay d f sh (det_obj o)
  | MSkip n o => MSkip n o
  | MConv c o => MConv c (det_objs o)
  | MPool c o => MPool c (det_obj o)
  | MMap g => MMap g
  | MRnn c o => MRnn c (option_map (map (map det)) o)
  | MSeq ms => MSeq (map detach ms)
  | MBroadcast n => MBroadcast n
  | MPar ms => MPar (map detach ms)
  | MDispatch d => MDispatch d
  | MReduce r => MReduce r
  | MBR ms r => MBR (map detach ms) r
  | MCond p D R a b => MCond p D R (detach a) (option_map detach b)
  end.

(** nn.MaxPool1d and nn.AdaptiveMaxPool1d pass the gradient to one frame that has
    the maximum: the first one they meet (pooling.py:101-104, 206). *)
Definition first_max (le : F -> F -> bool) (l : list (dual F)) : dual F :=
  match l with
  | [] => f0
  | p :: t => fold_left (fun a q => if le (pri q) (pri a) then a else q) t p
  end.

End Grad.
