(** A transformer for streams: linear embedding, recycling positional encoding, encoder and
    linear head; which position every token gets. *)
From Coq Require Import List ZArith Bool Arith.
From Verif Require Import Base Attn TAttn TEnc TEncSpec.
Import ListNotations.

Section TPosSpec.
Context {K : Type} {NK : Num K}.

(** The number of frames in a clip. *)
Definition frames_in (x : tens K) : nat := nth 2 (sh x) 0.
(** The positions of the tokens of the stream, in the order in which they come, if the first
    gets [k]: they count up, and every call of forward moves them on by [steps]. *)
Fixpoint positions (steps k : nat) (l : list (tcall K)) : list nat :=
  match l with
  | [] => []
  | CFrame _ _ :: l => k :: positions steps (k + 1) l
  | CClip _ x :: l => seq k (frames_in x) ++ positions steps (k + frames_in x) l
  | CForward _ _ :: l => positions steps (k + steps) l
  end.
(** The stream [f] with the encodings of the positions [pos], of which there are [P]. *)
Definition encoded (P : nat) (emb : nat -> list K) (pos : nat -> nat) (f : nat -> nat -> list K) (b t : nat) : list K :=
  plus (f b t) (emb (pos t mod P)).
(** No clip has more frames than there are encodings. *)
Definition clips_fit (P : nat) (l : list (tcall K)) : Prop :=
  Forall (fun c => match c with CFrame _ _ => True | CClip _ x | CForward _ x => frames_in x <= P end) l.

(** As [answers], but forward depends on the position [k] that has been reached. *)
Fixpoint answers_at (steps N : nat) (R : nat -> tens K -> Prop) (Rs : nat -> nat -> tens K -> Prop) (W : nat -> tens K -> tens K -> Prop)
    (k i : nat) (l : list (tcall K)) (outs : list (option (tens K))) : Prop :=
  match l, outs with
  | [], [] => True
  | CFrame _ _ :: l, o :: outs =>
      (if Nat.ltb (i + 1) N then o = None else exists y, o = Some y /\ R i y) /\ answers_at steps N R Rs W (k + 1) (i + 1) l outs
  | CClip _ x :: l, o :: outs =>
      let L := frames_in x in let first := Nat.max i (N - 1) in
      (if Nat.ltb (i + L) N then o = None else exists y, o = Some y /\ Rs first (i + L - first) y)
      /\ answers_at steps N R Rs W (k + L) (i + L) l outs
  | CForward _ x :: l, o :: outs => (exists y, o = Some y /\ W k x y) /\ answers_at steps N R Rs W (k + steps) i l outs
  | _, _ => False
  end.

(** The network with [C] input channels and [O] outputs around an encoder of [E] channels;
    [at_index i s]: state [s] is that after construction, or that with the encoding moved to
    index [i]. *)
Definition stream_net (C E O P : nat) we be emb steps (enc : tmod K) wh bh : tmod K :=
  MSeq [MLin 1 C E we be; MPos P E emb steps; enc; MLin 1 E O wh bh].
Definition at_index (i : nat) (s : tstate K) : Prop := s = SList [SNone; SPos i] \/ i = 0 /\ s = SNone.
End TPosSpec.
