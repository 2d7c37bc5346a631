(** Specification vocabulary for the transformer layers. *)
From Coq Require Import List ZArith Bool Arith Lia.
From Verif Require Import Base Attn AttnSpec.
Import ListNotations.

(** What RetroactiveUnity(d) really answers to frame [n >= 2 * d]: frame [n - d]
    is missing from the window, and frame [d - 1] is in the middle of it. *)
Definition stale_window {F} (d n : nat) (xs : list F) : list F :=
  firstn (d - 1 - n mod d) (skipn (n - d + 1) xs)
  ++ firstn 1 (skipn (d - 1) xs)
  ++ window (n mod d + 1) n xs.
