(** What C56 asks of the arguments of a pooling module and of the input. *)
From Coq Require Import List ZArith Bool Arith.
From Verif Require Import Base Frames Tensor TPool.
Import ListNotations.

(** ** Windows, stated without a formula for their number *)

(** Positions of an input dimension of size [d] that output position [i] reads. *)
Definition window (d k s p dl i : nat) : list nat :=
  filter (fun t => existsb (fun j => Nat.eqb (t + p) (i * s + j * dl)) (seq 0 k)) (seq 0 d).
(** The same in the padded input. *)
Definition pwindow (d k s p dl i : nat) : list nat := window (d + 2 * p) k s 0 dl i.
(** The windows that there are: those that lie in the padded input; with ceil_mode those
    that start in the input or its left padding, if the one before leaves something of
    the padded input unread. *)
Definition has_window (ceil : bool) (d k s p dl i : nat) : Prop :=
  if ceil then i * s < d + p /\ (i = 0 \/ (i - 1) * s + dl * (k - 1) + 1 < d + 2 * p)
  else i * s + dl * (k - 1) + 1 <= d + 2 * p.

(** The same for all dimensions: the indices that output index [q] reads. *)
Fixpoint windows (w : nat -> nat -> nat -> nat -> nat -> nat -> list nat) (dims ks ss ps ds q : list nat) : list (list nat) :=
  match dims, ks, ss, ps, ds, q with
  | d :: dims', k :: ks', s :: ss', p :: ps', dl :: ds', i :: q' =>
      flat_map (fun t => map (cons t) (windows w dims' ks' ss' ps' ds' q')) (w d k s p dl i)
  | _, _, _, _, _, _ => [[]]
  end.
Fixpoint have_windows (ceil : bool) (dims ks ss ps ds q : list nat) : Prop :=
  match dims, ks, ss, ps, ds, q with
  | d :: dims', k :: ks', s :: ss', p :: ps', dl :: ds', i :: q' =>
      has_window ceil d k s p dl i /\ have_windows ceil dims' ks' ss' ps' ds' q'
  | [], [], [], [], [], [] => True
  | _, _, _, _, _, _ => False
  end.

Section TPoolSpec.
Context {K : Type} {P : Pool K}.
Variables (B C : nat) (sp : list nat) (c : tpool).

(** The value that temporal_fill puts into the padding is the neutral one. *)
Definition neutral_fill : Prop := p_fill c = pmode_.

(** No divisor_override; count_include_pad unless there is no temporal padding; a
    neutral fill value unless there is no temporal padding; padding at most half the
    kernel, frames not smaller than the spatial kernel. *)
Record tpool_ok : Prop := {
  to_k : 1 <= p_k c; to_s : 1 <= p_s c; to_p : 2 * p_p c <= p_k c;
  to_div : p_div c = None; to_sdiv : p_sdiv c = None;
  to_cip : p_cip c = true \/ p_p c = 0;
  to_fill : p_p c = 0 \/ neutral_fill;
  to_fits : fits sp (p_ks c) (p_ps c) (p_ds c) = true;
  to_halves : halves (p_ks c) (p_ps c) = true;
  to_sp : forallb (Nat.leb 1) sp = true;
  to_lks : length (p_ks c) = length sp; to_lss : length (p_ss c) = length sp;
  to_lps : length (p_ps c) = length sp; to_lds : length (p_ds c) = length sp
}.

(** Number of output frames of a clip of [T] frames, without and with the rule of
    ceil_mode. *)
Definition p_olen (T : nat) : nat := out_dim T (p_k c) (p_s c) (p_p c) 1.
Definition p_clen (T : nat) : nat := pool_out_dim (p_ceil c) T (p_k c) (p_s c) (p_p c) 1.
(** The frames of a clip, and the frames of its result whose windows do not go beyond
    the padding: all of them unless ceil_mode adds one. *)
Definition pin_frames (T : nat) (X : list K) (ts : list nat) : list (list K) := map (slice2 B C T sp X) ts.
Definition pout_frames (T : nat) (Y : list K) : list (list K) :=
  map (slice2 B C (p_clen T) (p_osp sp c) Y) (seq 0 (p_olen T)).

End TPoolSpec.
