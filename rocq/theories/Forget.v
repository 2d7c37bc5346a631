(** Specification vocabulary for C82: attention modules whose memory holds anything,
    as after set_state (single_output_mha.py:246-252, retroactive_mha.py:268-276), after
    load_state_dict or an optimizer has changed the parameters in the middle of a
    stream, or after the memory was detached. *)
From Coq Require Import List ZArith Bool Arith.
From Verif Require Import Base Attn AttnSpec Grad.
Import ListNotations.

Section Forget.
Context {K : Type} {NK : Num K}.

(** The number of rows of the memories of one head: single_output_mha.py:25-43 and
    retroactive_mha.py:25-44.  What the rows hold is arbitrary. *)
Definition so_rows (N D : nat) (s : @so_state K) : Prop :=
  length (so_Q s) = D /\ length (so_K s) = N /\ length (so_V s) = N.
Definition re_rows (N : nat) (s : @re_state K) : Prop :=
  length (re_d s) = N - 1 /\ length (re_AV s) = N - 1 /\ length (re_Q s) = N - 1
  /\ length (re_K s) = N /\ length (re_V s) = N.

(** A module that holds a memory of such a shape for each of its heads.  [z] is the
    value of its start-up counter (mha_base.py:416-423): [-N] steps to go until 0. *)
Definition holds {S : Type} (shape : S -> Prop) (N H : nat) (o : option (list S * nat)) (h : cells) (z : Z) : Prop :=
  exists mem r, o = Some (mem, r) /\ length mem = H /\ Forall shape mem /\ r < length h
    /\ cell_get h r = z /\ (- Z.of_nat N <= z <= 0)%Z.

(** The memory after a function was applied to each of its numbers. *)
Definition so_map (f : K -> K) (s : @so_state K) : @so_state K :=
  SoS (map (map f) (so_Q s)) (map (map f) (so_K s)) (map (map f) (so_V s)).
Definition re_map (f : K -> K) (s : @re_state K) : @re_state K :=
  ReS (map f (re_d s)) (map (map f) (re_AV s)) (map (map f) (re_Q s)) (map (map f) (re_K s)) (map (map f) (re_V s)).
Definition mem_map {S : Type} (f : S -> S) (o : option (list S * nat)) : option (list S * nat) :=
  option_map (fun s => (map f (fst s), snd s)) o.

End Forget.

(** torch.Tensor.detach on a number. *)
Definition det_num {K} {NK : Num K} (a : dual K) : dual K := Du (pri a) k0.
