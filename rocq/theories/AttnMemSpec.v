(** Histories of calls on an attention module, and how much its state stores. *)
From Coq Require Import List ZArith Bool Arith.
From Verif Require Import Base Attn.
Import ListNotations.

Section AttnMemSpec.
Context {K : Type} {NK : Num K}.

(** The calls of a user: forward_step, forward_steps (each with update_state) and
    clean_state. *)
Inductive acalls := AStep (t : tok K) (update_state : bool) | ASteps (ts : list (tok K)) (update_state : bool) | AClean.
(** State after one call. A call that raises leaves the memories that were stored:
    [set_state] comes after every step that can fail (mha_base.py 472-475, 534-537),
    and on an empty clip, where [return o] fails after it, it stores what was there.
    The in-place change of stride_index by the steps before a failing one is not
    followed here; it does not change how much is stored. *)
Definition acall (c : cfg K) (p : sdpa K) (o : option (mstate p)) (h : cells) (a : acalls) : option (mstate p) * cells :=
  match a with
  | AStep t u => match m_forward_step c p o t u h with Ok (_, o', h') => (o', h') | Err _ => (o, h) end
  | ASteps ts u => match m_forward_steps c p o ts u h with Ok (_, o', h') => (o', h') | Err _ => (o, h) end
  | AClean => (m_clean o, h)
  end.
Fixpoint ahist (c : cfg K) (p : sdpa K) (o : option (mstate p)) (h : cells) (l : list acalls) : option (mstate p) * cells :=
  match l with [] => (o, h) | a :: t => let '(o, h) := acall c p o h a in ahist c p o h t end.

(** Number of rows in each memory of one head. *)
Definition so_rows (s : @so_state K) : list nat := [length (so_Q s); length (so_K s); length (so_V s)].
Definition re_rows (s : @re_state K) : list nat := [length (re_d s); length (re_AV s); length (re_Q s); length (re_K s); length (re_V s)].
End AttnMemSpec.
Arguments acalls K : clear implicits.
