(** Specification vocabulary for C79. *)
From Coq Require Import List ZArith Bool Arith.
From Verif Require Import Base Frames CoMod Leaf Rnn Net Spec NetSpec Calls NetRel.
Import ListNotations.

Section ReloadSpec.
Context {F : Type} {FA : Frames F}.

(** Same architecture and same temporal configuration; weights, biases, pointwise
    functions, spatial parts of poolings and recurrent cells are arbitrary. *)
Definition same_arch (p q : md F) : Prop := rel_md (fun _ _ => True) p q.

(** A stream of frames, each with the parameters it meets; before the first frame
    there is padding, seen with the parameters of the first step. *)
Definition params_at (l : list (conv_cfg F * F)) (d : conv_cfg F) (z : Z) : conv_cfg F :=
  fst (nth (Z.to_nat z) l (d, f0)).
Definition frame_at (l : list (conv_cfg F * F)) (d : conv_cfg F) (z : Z) : F :=
  if Z.ltb z 0 then make_padding (cfill (params_at l d 0)) (snd (nth 0 l (d, f0)))
  else snd (nth (Z.to_nat z) l (d, f0)).

(** The output at step [n] of a convolution that learns: the bias of this step, and
    frame [n - (k-1) + i] times tap [i] of the weights it met when it arrived. *)
Definition learned (l : list (conv_cfg F * F)) (d : conv_cfg F) (k n : nat) : F :=
  add_bias (cb (params_at l d (Z.of_nat n)))
    (fsum (map (fun i => let z := (Z.of_nat n - Z.of_nat (k - 1) + Z.of_nat i)%Z in
                         cW (params_at l d z) i (frame_at l d z)) (seq 0 k))).

(** Parameters of a convolution with kernel size [k], stride [s] and padding [p]. *)
Definition shaped (k s p : nat) (c : conv_cfg F) : Prop := ck c = k /\ cs c = s /\ cp c = p.

End ReloadSpec.
