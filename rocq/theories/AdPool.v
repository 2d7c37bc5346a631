(** Adaptive pooling modules: AdaptiveAvgPool2d/3d and AdaptiveMaxPool2d/3d
    (continual/pooling.py:924-1230) on whole tensors. *)
From Coq Require Import List ZArith Bool Arith.
From Verif Require Import Base Frames CoMod Tensor TPool.
Import ListNotations.

Section AdPool.
Context {K : Type} {P : Pool K}.

(** ** torch's adaptive pooling *)

(** [start_index] and [end_index] of torch's AdaptivePooling.h: output position [i] of
    [o] of a dimension of size [d] pools the entries from floor(i*d/o) to
    ceil((i+1)*d/o), exclusively. *)
Definition ad_start (d o i : nat) : nat := i * d / o.
Definition ad_stop (d o i : nat) : nat := ((i + 1) * d + o - 1) / o.
Fixpoint ad_lens (dims outs q : list nat) : list nat :=
  match dims, outs, q with
  | d :: dims', o :: outs', i :: q' => ad_stop d o i - ad_start d o i :: ad_lens dims' outs' q'
  | _, _, _ => []
  end.
Fixpoint ad_pos (dims outs q kp : list nat) : list nat :=
  match dims, outs, q, kp with
  | d :: dims', o :: outs', i :: q', j :: kp' => ad_start d o i + j :: ad_pos dims' outs' q' kp'
  | _, _, _, _ => []
  end.
Definition ad_elem (B C : nat) (dims outs : list nat) (x : list K) (b c : nat) (q : list nat) : K :=
  ksum (tab (ad_lens dims outs q)
            (fun kp => at_ (B :: C :: dims) x (Z.of_nat b :: Z.of_nat c :: map Z.of_nat (ad_pos dims outs q kp)))).

(** [F.adaptive_avg_pool1d/2d/3d] and [F.adaptive_max_pool1d/2d/3d] on an input of
    shape (B, C, *dims).  Simplification: no [None] in output_size. *)
Definition adpool (B C : nat) (dims outs : list nat) (x : list K) : res (list K) :=
  if forallb (Nat.leb 1) dims
  then Ok (tab (B :: C :: outs)
             (fun ix => match ix with
                        | b :: c :: q => pscale (size (ad_lens dims outs q)) (ad_elem B C dims outs x b c q)
                        | _ => pe
                        end))
  else Err RuntimeError.

(** ** The modules *)

(** What the constructors keep: output_size[1:], the temporal kernel size, stride and
    padding, temporal_fill.  Simplification: dilation 1. *)
Record adp := { a_out : list nat; a_k : nat; a_s : nat; a_p : nat; a_fill : fill }.

(** pooling.py:957-985, 1031-1058, 1104-1136, 1182-1214 and 81-83: output_size[0] must
    be 1 and the temporal kernel must not be empty. *)
Definition ad_new (out : list nat) (k s p : nat) (fl : fill) : res adp :=
  match out with
  | 1 :: osp => if Nat.ltb 0 k then Ok {| a_out := osp; a_k := k; a_s := s; a_p := p; a_fill := fl |}
                else Err AssertionError
  | _ => Err AssertionError
  end.

Variables (B C : nat) (sp : list nat) (c : adp).

(** [nn.AdaptiveAvgPoolNd.forward], [nn.AdaptiveMaxPoolNd.forward] (first in the
    method resolution order) on a clip of shape (B, C, T, *sp): kernel size, stride and
    padding are not used. *)
Definition ad_forward (T : nat) (x : list K) : res (list K) := adpool B C (T :: sp) (1 :: a_out c) x.

(** pooling.py:966-968, 1040-1042, 1114-1118, 1192-1196: [spatial_pool_fn]. *)
Definition ad_space (x : list K) : res (list K) := adpool B C sp (a_out c) x.

(** The step code of [_PoolNd] (pooling.py:180-212) with this spatial pooling. *)
Definition ad_fstep : list K -> option (obj (list K)) -> res (option (list K) * option (obj (list K))) :=
  nd_fstep B C (a_out c) ad_space (a_k c) (a_s c) (a_p c) (a_fill c).
Definition ad_forward_step (o : obj (list K)) (x : list K) (upd : bool) :=
  co_forward_step obj_get obj_set ad_fstep o x upd.
Definition ad_forward_steps (o : obj (list K)) (xs : list (list K)) (pend upd : bool) :=
  co_forward_steps obj_get obj_set ad_fstep (nd_pad (a_fill c)) (a_p c) o xs pend upd.

(** module.py:188-190 with pooling.py:221-223. *)
Definition ad_rf : nat := 1 * a_k c.
Definition ad_delay : nat := ad_rf - 1 - a_p c.

End AdPool.
