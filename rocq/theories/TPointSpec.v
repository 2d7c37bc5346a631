(** What Linear and Reshape have to do on tensors. *)
From Coq Require Import List ZArith Bool Arith.
From Verif Require Import Base Attn Frames Tensor TAttn TNet.
Import ListNotations.

Section TPointSpec.
Context {K : Type} {SC : Scal K}.

(** The list with entry [k] replaced by [v]. *)
Definition put (k v : nat) (l : list nat) : list nat := firstn k l ++ v :: skipn (S k) l.

(** Value of a Linear with weights [w] (cout x cin) at an index, [k] being its channel
    dimension: bias plus the sum over the input channels. *)
Definition lin_at (k cin cout : nat) (w : list K) (b : option (list K)) (x : tens K) (ix : list nat) : K :=
  sadd (bias_at b (nth k ix 0))
       (ksum (map (fun i => smul (at_ [cout; cin] w (map Z.of_nat [nth k ix 0; i]))
                                 (at_ (sh x) (dat x) (map Z.of_nat (put k i ix)))) (seq 0 cin))).

(** A module that has no memory: [f] does to a clip (B, C, T, *sp) what [g] does to every
    frame, exceptions included. *)
Definition framewise (f g : tens K -> res (tens K)) (X : tens K) : Prop :=
  match f X with
  | Ok Y => mapM g (frames_of X) = Ok (frames_of Y)
  | Err e => mapM g (frames_of X) = Err e
  end.
End TPointSpec.
