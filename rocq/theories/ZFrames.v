(** A concrete frame type used only in examples and counterexamples: one integer
    per frame.  [finf] is a number below all numbers used in the examples. *)
From Coq Require Import List ZArith.
From Verif Require Import Base Frames Leaf.
Import ListNotations.

#[global] Instance ZF : Frames Z := {
  f0 := 0%Z;
  finf := (-1000000)%Z;
  fadd := Z.add
}.
#[global] Instance ZL : FrameLaws Z := {
  fadd_comm := Z.add_comm;
  fadd_assoc := Z.add_assoc;
  fadd_0_l := Z.add_0_l
}.

(** 1-d convolution with the given taps and bias. *)
Definition zconv (taps : list Z) (s p : nat) (b : option Z) (m fl : fill) : conv_cfg Z :=
  {| ck := length taps; cs := s; cp := p;
     cW := fun i x => (nth i taps 0 * x)%Z; cb := b; cmode := m; cfill := fl |}.

(** 1-d max pooling, and sum pooling (average pooling up to the factor 1/k). *)
Definition zmax (k s p d : nat) (fl : fill) : pool_cfg Z :=
  {| pk := k; ps := s; pp := p; pd := d; psp := fun x => x;
     pagg := fun l => fold_right Z.max (-1000000)%Z l; pfill := fl; pmode := NegInf; pfdil := d |}.
Definition zsum (k s p d : nat) (fl : fill) : pool_cfg Z :=
  {| pk := k; ps := s; pp := p; pd := d; psp := fun x => x;
     pagg := fun l => fold_right Z.add 0%Z l; pfill := fl; pmode := Zeros; pfdil := 1 |}.
