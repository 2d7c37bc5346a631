(** The encoder layer of "Attention is all you need" (normalisation after each residual), on
    the tokens of one batch element, and what it means that a tensor holds given tokens. *)
From Coq Require Import List ZArith Bool Arith.
From Verif Require Import Base Attn AttnSpec Trans CallMode TAttn TAttnSpec TEnc.
Import ListNotations.

Section TEncSpec.
Context {K : Type} {NK : Num K}.

(** Sum of two tokens, and [W v + b] with the weights row by row. *)
Definition plus (u v : list K) : list K := map (fun q => kadd (fst q) (snd q)) (combine u v).
Definition affine (cin cout : nat) (w : list K) (b : option (list K)) (v : list K) : list K :=
  map (fun o => kadd (bias_of b o) (ksum (map (fun i => kmul (nth (o * cin + i) w k0) (nth i v k0)) (seq 0 cin)))) (seq 0 cout).

Section Layer.
Variable p : layer K.
Notation a := (l_a p). Notation E := (t_H (l_a p) * t_D (l_a p)).

Definition feed_forward (v : list K) : list K :=
  affine (l_ff p) E (l_w2 p) (l_b2 p) (map (l_act p) (affine E (l_ff p) (l_w1 p) (l_b1 p) v)).
(** The two normalisations with the feed-forward block between them. *)
Definition post (v : list K) : list K := let y := l_norm1 p v in l_norm2 p (plus y (feed_forward y)).
(** Token [i] of the output of the layer on the tokens [ts]. *)
Definition attend (ts : list (list K)) (i : nat) : list K := map (mha_entry a (nth i ts []) ts ts) (seq 0 E).
Definition layer_token (ts : list (list K)) (i : nat) : list K := post (plus (nth i ts []) (attend ts i)).

(** A layer as the constructors build it: heads, norms that keep the length of a token, and
    the layout (N, E, T). *)
Definition layer_ok : Prop :=
  0 < t_H a /\ t_bf a = true /\ t_eds a = true
  /\ (forall v, length v = E -> length (l_norm1 p v) = E)
  /\ (forall v, length v = E -> length (l_norm2 p v) = E).
End Layer.

(** The final norm of an encoder. *)
Definition normed (norm : option (list K -> list K)) (v : list K) : list K := match norm with Some f => f v | None => v end.
Definition norm_ok (n : nat) (norm : option (list K -> list K)) : Prop :=
  match norm with Some f => forall v, length v = n -> length (f v) = n | None => True end.

(** Both layers: token [i] of the second layer over the outputs of the first. *)
Definition two_layers (p1 p2 : layer K) (ts : list (list K)) (i : nat) : list K :=
  layer_token p2 (map (layer_token p1 ts) (seq 0 (length ts))) i.

(** A clip (B, n, L) with token [f b t] at time [t] of batch element [b]; a frame (B, n). *)
Definition clip_holds (n B L : nat) (x : tens K) (f : nat -> nat -> list K) : Prop :=
  sh x = [B; n; L] /\ forall b t, b < B -> t < L ->
    length (f b t) = n /\ forall e, e < n -> get x [b; e; t] = nth e (f b t) k0.
Definition frame_holds (n B : nat) (x : tens K) (f : nat -> list K) : Prop :=
  sh x = [B; n] /\ forall b, b < B -> length (f b) = n /\ forall e, e < n -> get x [b; e] = nth e (f b) k0.

(** A stream of frames with token [f b t] at time [t]. *)
Definition stream_holds (n B : nat) (xs : list (tens K)) (f : nat -> nat -> list K) : Prop :=
  forall t x, nth_error xs t = Some x -> frame_holds n B x (fun b => f b t).

(** The tokens of a batch element in a clip, in the window of [N] that ends at time [n]. *)
Definition clip_tokens (L : nat) (f : nat -> nat -> list K) (b : nat) : list (list K) := map (f b) (seq 0 L).
Definition window_tokens (N n : nat) (f : nat -> nat -> list K) (b : nat) : list (list K) := map (f b) (seq (n + 1 - N) N).

(** The time of the token that the retroactive layer adds to row [i] of the window that ends
    at time [n], [d] being the delay N - 1 (cf. C40): the right one before time 2 d. *)
Definition residual_time (d n i : nat) : nat :=
  if Nat.ltb n (2 * d) then n - d + i
  else if Nat.ltb i (d - 1 - n mod d) then n - d + i + 1
  else if Nat.eqb i (d - 1 - n mod d) then d - 1
  else n - d + i.

(** The tokens that the retroactive layer gives at time [n]: with the right attention and
    that residual. *)
Definition first_tokens (p : layer K) (n : nat) (f : nat -> nat -> list K) (b : nat) : list (list K) :=
  let N := t_N (l_a p) in
  map (fun i => post p (plus (f b (residual_time (N - 1) n i)) (attend p (window_tokens N n f b) i))) (seq 0 N).
(** Position [i] of [L], from the end if negative. *)
Definition chosen (i : Z) (L : nat) : nat := Z.to_nat (if Z.ltb i 0 then i + Z.of_nat L else i).

(** What a sequence of calls is given: frames and clips that continue one stream with token
    [f b t] at time [t], the next one for time [i], and clips for [forward] of any length
    that [fits]. *)
Fixpoint input_holds (fits : nat -> Prop) (n B i : nat) (l : list (tcall K)) (f : nat -> nat -> list K) : Prop :=
  match l with
  | [] => True
  | CFrame _ x :: l => frame_holds n B x (fun b => f b i) /\ input_holds fits n B (i + 1) l f
  | CClip _ x :: l => exists L, 0 < L /\ clip_holds n B L x (fun b t => f b (i + t)) /\ input_holds fits n B (i + L) l f
  | CForward _ x :: l => (exists L k, 0 < L /\ fits L /\ clip_holds n B L x k) /\ input_holds fits n B i l f
  end.
(** What the calls answer: from time N - 1 on, a step gives the result [R] for its time and a
    clip the results [Rs] for its times (from the first one on, that many); [forward] on [x]
    gives [W x], whatever the stream. *)
Fixpoint answers (N : nat) (R : nat -> tens K -> Prop) (Rs : nat -> nat -> tens K -> Prop) (W : tens K -> tens K -> Prop)
    (i : nat) (l : list (tcall K)) (outs : list (option (tens K))) : Prop :=
  match l, outs with
  | [], [] => True
  | CFrame _ _ :: l, o :: outs =>
      (if Nat.ltb (i + 1) N then o = None else exists y, o = Some y /\ R i y) /\ answers N R Rs W (i + 1) l outs
  | CClip _ x :: l, o :: outs =>
      let L := nth 2 (sh x) 0 in let first := Nat.max i (N - 1) in
      (if Nat.ltb (i + L) N then o = None else exists y, o = Some y /\ Rs first (i + L - first) y) /\ answers N R Rs W (i + L) l outs
  | CForward _ x :: l, o :: outs => (exists y, o = Some y /\ W x y) /\ answers N R Rs W i l outs
  | _, _ => False
  end.
(** The clip of windows (B, n, c, N) that a retroactive layer gives for a clip. *)
Definition windows_hold (n B c N : nat) (x : tens K) (f : nat -> nat -> nat -> list K) : Prop :=
  sh x = [B; n; c; N] /\ forall b j i, b < B -> j < c -> i < N ->
    length (f b j i) = n /\ forall e, e < n -> get x [b; e; j; i] = nth e (f b j i) k0.
End TEncSpec.
