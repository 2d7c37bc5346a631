(** Specification vocabulary for attention: written from the textbook
    definition, not from the code of the step functions. *)
From Coq Require Import List ZArith Bool Arith Lia.
From Verif Require Import Base Attn.
Import ListNotations.

Section Spec.
Context {K : Type} {NK : Num K}.

(** The queries, keys and values of a stream of tokens. *)
Definition qs_of (ts : list (tok K)) : list (vec K) := map (fun t => fst (fst t)) ts.
Definition ks_of (ts : list (tok K)) : list (vec K) := map (fun t => snd (fst t)) ts.
Definition vs_of (ts : list (tok K)) : list (vec K) := map (fun t => snd t) ts.

(** The [N] entries of a stream that end with entry [n]. *)
Definition window {A} (N n : nat) (ts : list A) : list A :=
  firstn N (skipn (n + 1 - N) ts).

(** Entry [e] of the attention of query [q] over keys [ks] and values [vs]:
    the exponentially weighted mean of the values. *)
Definition weighted_mean (E : nat) (q : vec K) (ks vs : list (vec K)) (e : nat) : K :=
  kdiv (ksum (map2 (fun k v => kmul (kexp (dot E q k)) (at_ v e)) ks vs))
       (ksum (map (fun k => kexp (dot E q k)) ks)).

(** Multi-head attention of one query token over key and value tokens. *)
Definition attention (c : cfg K) (q : vec K) (ks vs : list (vec K)) : vec K :=
  c_o c (map (fun h =>
    tab (c_E c)
        (weighted_mean (c_E c) (map (c_scale c) (nth h (c_q c q) []))
           (map (fun k => nth h (c_k c k) []) ks)
           (map (fun v => nth h (c_v c v) []) vs)))
    (seq 0 (c_H c))).

(** The same with extra key and value tokens that are not projected: bias_k and
    bias_v, and zeros for add_zero_attn. *)
Definition extras (c : cfg K) (b : list (vec K) * list (vec K) -> list (vec K)) (h : nat) : list (vec K) :=
  match c_bias c with Some p => [nth h (b p) []] | None => [] end
  ++ (if c_zero_attn c then [tab (c_E c) (fun _ => k0)] else []).
Definition attention_ext (c : cfg K) (q : vec K) (ks vs : list (vec K)) : vec K :=
  c_o c (map (fun h =>
    tab (c_E c)
        (weighted_mean (c_E c) (map (c_scale c) (nth h (c_q c q) []))
           (map (fun k => nth h (c_k c k) []) ks ++ extras c fst h)
           (map (fun v => nth h (c_v c v) []) vs ++ extras c snd h)))
    (seq 0 (c_H c))).

(** A configuration the step functions support: packed projections to the right
    number of heads, no key/value bias and no extra zero attention. *)
Definition supported (c : cfg K) : Prop :=
  0 < c_H c
  /\ c_bias c = None /\ c_packed c = true /\ c_zero_attn c = false
  /\ (forall x, length (c_q c x) = c_H c)
  /\ (forall x, length (c_k c x) = c_H c)
  /\ (forall x, length (c_v c x) = c_H c).

(** What can be observed of a module's state: its memories and the value of its
    start-up counter. *)
Definition observe {p : sdpa K} (o : option (mstate p)) (h : cells)
  : option (list (p_state p) * Z) :=
  match o with
  | Some (mem, r) => Some (mem, cell_get h r)
  | None => None
  end.

(** The counter of a stored state exists. *)
Definition stored {p : sdpa K} (o : option (mstate p)) (h : cells) : Prop :=
  match o with Some (_, r) => r < length h | None => True end.

(** The module has been stepped since construction or clean_state. *)
Definition started {p : sdpa K} (o : option (mstate p)) : Prop := o <> None.

End Spec.

(** Calls a user can make on an attention module, and feeding a clip in chunks. *)
Section Calls.
Context {K : Type} {NK : Num K}.

Inductive mcall :=
| MStep (t : tok K) (update_state : bool)
| MSteps (ts : list (tok K)) (update_state : bool).

Definition committed (m : mcall) : bool :=
  match m with MStep _ u => u | MSteps _ u => u end.

(** Result of a call: the outputs it returns, in order. *)
Definition m_do (c : cfg K) (p : sdpa K) (o : option (mstate p)) (m : mcall) (h : cells)
  : res (list (list (vec K)) * option (mstate p) * cells) :=
  match m with
  | MStep t u =>
      '(out, o, h) <- m_forward_step c p o t u h ;;
      Ok (match out with Some r => [r] | None => [] end, o, h)
  | MSteps ts u =>
      '(out, o, h) <- m_forward_steps c p o ts u h ;;
      Ok (match out with Some r => r | None => [] end, o, h)
  end.

Fixpoint m_calls (c : cfg K) (p : sdpa K) (o : option (mstate p)) (ms : list mcall)
  (h : cells) : res (list (list (list (vec K))) * option (mstate p) * cells) :=
  match ms with
  | [] => Ok ([], o, h)
  | m :: ms =>
      '(out, o, h) <- m_do c p o m h ;;
      '(outs, o, h) <- m_calls c p o ms h ;;
      Ok (out :: outs, o, h)
  end.

(** The results of the committed calls. *)
Fixpoint keep_committed {A} (ms : list mcall) (outs : list A) : list A :=
  match ms, outs with
  | m :: ms, a :: outs =>
      if committed m then a :: keep_committed ms outs else keep_committed ms outs
  | _, _ => []
  end.

End Calls.
Arguments mcall K : clear implicits.
