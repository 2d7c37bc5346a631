(** Frames and numbers of IEEE 754 binary32 with round to nearest, used only in
    the examples and counterexamples of C68.  The operations are those of the
    standard library's specification of floating point (no axioms); all NaNs are
    one value. *)
From Coq Require Import List ZArith Bool Arith.
From Coq Require Import Floats.SpecFloat.
From Verif Require Import Base Frames CoMod Leaf Rnn Net Attn.
Import ListNotations.

Definition f32 := spec_float.
Definition add32 : f32 -> f32 -> f32 := SFadd 24 128.
Definition mul32 : f32 -> f32 -> f32 := SFmul 24 128.
Definition div32 : f32 -> f32 -> f32 := SFdiv 24 128.
(** Whole numbers, rounded. *)
Definition b32 (z : Z) : f32 := binary_normalize 24 128 z 0 false.
Definition inf32 : f32 := S754_infinity false.
Definition nan32 : f32 := S754_nan.

#[export] Instance frames32 : Frames f32 :=
  {| f0 := S754_zero false; finf := S754_infinity true; fadd := add32 |}.

(** Convolution of one channel with the given weights. *)
Definition conv32 (w : list f32) (s p : nat) (b : option f32) : conv_cfg f32 :=
  {| ck := length w; cs := s; cp := p; cW i x := mul32 (nth i w (b32 0)) x; cb := b; cmode := Zeros; cfill := Zeros |}.
(** Average pooling over time. *)
Definition avg32 (k : nat) : pool_cfg f32 :=
  {| pk := k; ps := 1; pp := 0; pd := 1; psp x := x; pagg l := div32 (fsum l) (b32 (Z.of_nat k));
     pfill := Zeros; pmode := Zeros; pfdil := 1 |}.
(** Maximum; NaN if an entry is NaN.  Numbers are compared as multiples of the
    smallest positive one. *)
Definition ord32 (x : f32) : Z :=
  match x with
  | S754_infinity s => cond_Zopp s (2 ^ 300)
  | S754_finite s m e => cond_Zopp s (Zpos m * 2 ^ (e + 149))
  | _ => 0
  end.
Definition of_ord32 (z : Z) : f32 :=
  if Z.leb (2 ^ 300) z then S754_infinity false else if Z.leb z (- 2 ^ 300) then S754_infinity true
  else binary_normalize 24 128 z (-149) false.
Definition is_nan32 (x : f32) : bool := match x with S754_nan => true | _ => false end.
Definition max32 (l : list f32) : f32 :=
  if existsb is_nan32 l then nan32 else of_ord32 (fold_right Z.max (- 2 ^ 300)%Z (map ord32 l)).
Definition maxpool32 (k s p : nat) : pool_cfg f32 :=
  {| pk := k; ps := s; pp := p; pd := 1; psp x := x; pagg := max32; pfill := NegInf; pmode := NegInf; pfdil := 1 |}.
(** Recurrent cell h' = h / 2 + x, y = h'. *)
Definition rnn32 : rnn_cfg f32 :=
  {| r_cells := [fun h x => let y := add32 (div32 (hd (b32 0) h) (b32 2)) x in ([y], y)]; r_h0 := [b32 0] |}.

(** Numbers of an attention head.  The exponential is any function [e], except
    that the exponential of zero is one. *)
Definition num32 (e : f32 -> f32) : Num f32 :=
  {| k0 := S754_zero false; k1 := b32 1; kadd := add32; kopp := SFopp; kmul := mul32;
     kdiv := div32; kexp x := if SFeqb x (S754_zero false) then b32 1 else e x |}.

(** One head of dimension one, all keys zero, queries and values the tokens. *)
Definition attn32 (N : nat) : cfg f32 :=
  @Cfg f32 N 1 1 (fun x => x) (fun x => [x]) (fun _ => [[b32 0]]) (fun x => [x]) (fun hs => concat hs) None true false.
