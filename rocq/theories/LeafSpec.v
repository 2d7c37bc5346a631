(** Well-formed leaf configurations. *)
From Coq Require Import List ZArith Bool Arith Permutation.
From Verif Require Import Base Frames Leaf.
Import ListNotations.

Section LeafSpec.
Context {F : Type} {FA : Frames F}.

(** A convolution configuration covered by the positive results: kernel size at
    least 2, or the kernel-1/stride-1/no-padding case; padding at most k-1; the
    fill used when stepping is zeros or replicate and, if there is temporal
    padding, agrees with the padding mode of [forward]; the taps are linear to
    the extent that they map the zero frame to the zero frame. *)
Record conv_ok (c : conv_cfg F) : Prop := {
  cok_k : 1 <= ck c;
  cok_s : 1 <= cs c;
  cok_p : cp c <= ck c - 1;
  cok_1 : ck c = 1 -> cs c = 1;
  cok_fill : cfill c <> NegInf;
  cok_mode : cp c = 0 \/ cmode c = cfill c;
  cok_mode' : cmode c <> NegInf;
  cok_lin : forall i, cW c i f0 = f0
}.


(** A pooling configuration covered by the positive results: temporal dilation 1,
    padding less than k, an aggregation that does not depend on the order of the
    frames; if there is padding, the fill agrees with the padding value of
    [forward] and spatial pooling maps a padding frame to a padding frame. *)
Record pool_ok (c : pool_cfg F) : Prop := {
  pok_k : 1 <= pk c;
  pok_s : 1 <= ps c;
  pok_p : pp c <= pk c - 1;
  pok_d : pd c = 1;
  pok_fd : pfdil c = 1;
  pok_agg : forall l l', Permutation l l' -> pagg c l = pagg c l';
  pok_fill : pp c = 0 \/ pmode c = pfill c;
  pok_sp : forall x, psp c (make_padding (pmode c) x) = make_padding (pmode c) (psp c x)
}.

(** A convolution whose temporal padding is at least the kernel size, but which is
    regular otherwise. *)
Record conv_overpadded (c : conv_cfg F) : Prop := {
  co_k : 2 <= ck c;
  co_s : 1 <= cs c;
  co_p : ck c <= cp c;
  co_fill : cfill c <> NegInf;
  co_mode : cmode c = cfill c;
  co_lin : forall i, cW c i f0 = f0
}.

End LeafSpec.
