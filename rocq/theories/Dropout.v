(** Dropout in attention modules: the argument [dropout] of MultiheadAttentionBase
    (mha_base.py:250-289), which torch applies in forward and which mha_base.py:211-219
    passes on to the step functions.

    torch draws from one global generator.  It is modelled as an arbitrary sequence
    [coin] of draws (true: the entry is kept) and the number of draws made so far.
    A module has [training] and a dropout probability: [None] is 0.0 and [Some p] is a
    [p > 0.0]. *)
From Coq Require Import List ZArith Bool Arith.
From Verif Require Import Base Attn.
Import ListNotations.

Section Dropout.
Context {K : Type} {NK : Num K}.
Variable coin : nat -> bool.
Local Notation vec := (list K).

(** F.dropout(x, p) with its default training=True: entries are multiplied by 0 or by
    1/(1-p), one draw for each entry. *)
Definition factor (p : K) (b : bool) : K := if b then kdiv k1 (ksub k1 p) else k0.
Definition drop (dp : option K) (pos : nat) (x : list K) : list K :=
  match dp with
  | None => x
  | Some p => map2 (fun a b => kmul a (factor p b)) x (map coin (seq pos (length x)))
  end.
Definition drawn (dp : option K) (n : nat) : nat := match dp with None => 0 | Some _ => n end.

(** The functions that a subclass passes to the base class, with their argument
    dropout_p and the draws that they make. *)
Record dsdpa := Dsdpa {
  d_state : Type;
  d_default : d_state;
  d_step : option K -> nat -> d_state -> vec -> vec -> vec -> res (list vec * d_state * nat)
}.

(** _scaled_dot_product_attention_step, single_output_mha.py:46-117.  The warning at
    75-78 says that dropout will be skipped; lines 103-104 apply it. *)
Definition so_step_d (E : nat) (scale : K -> K) (dp : option K) (pos : nat) (s : so_state) (q k v : vec)
  : res (list vec * so_state * nat) :=
  let q := map scale q in
  let q_sel := match so_Q s with q0 :: _ => q0 | [] => q end in
  K_new <- roll_in (so_K s) k ;;
  V_new <- roll_in (so_V s) v ;;
  let attn := map (dot E q_sel) K_new in
  let attn_sm := softmax attn in
  let output := wsum E (drop dp pos attn_sm) V_new in
  let Q_new := match so_Q s with [] => [] | _ :: t => t ++ [q] end in
  Ok ([output], SoS Q_new K_new V_new, pos + drawn dp (length attn_sm)).

(** _scaled_dot_product_attention_step, retroactive_mha.py:47-144: dropout_p occurs in
    the warning at 74-75 only. *)
Definition re_step_d (E : nat) (scale : K -> K) (dp : option K) (pos : nat) (s : re_state) (q k v : vec)
  : res (list vec * re_state * nat) :=
  '(o, s) <- re_step E scale s q k v ;; Ok (o, s, pos).

Definition so_dsdpa (c : cfg K) (query_index : Z) : dsdpa :=
  Dsdpa so_state (so_default (c_N c) (c_E c) query_index) (so_step_d (c_E c) (c_scale c)).
Definition re_dsdpa (c : cfg K) : dsdpa :=
  Dsdpa re_state (re_default (c_N c) (c_E c)) (re_step_d (c_E c) (c_scale c)).

(** All heads are rows of one tensor, which F.dropout goes through in order. *)
Fixpoint heads_step_d (p : dsdpa) (dp : option K) (pos : nat) (ss : list (d_state p)) (qs ks vs : list vec)
  : res (list (list vec) * list (d_state p) * nat) :=
  match ss, qs, ks, vs with
  | [], [], [], [] => Ok ([], [], pos)
  | s :: ss, q :: qs, k :: ks, v :: vs =>
      '(o, s, pos) <- d_step p dp pos s q k v ;;
      '(os, ss, pos) <- heads_step_d p dp pos ss qs ks vs ;;
      Ok (o :: os, s :: ss, pos)
  | _, _, _, _ => Err RuntimeError
  end.

(** multi_head_attention_forward_step, mha_base.py:19-223; lines 211-213 set
    dropout_p = 0.0 unless training. *)
Definition mh_forward_step_d (c : cfg K) (training : bool) (dp : option K) (p : dsdpa) (pos : nat)
  (ss : list (d_state p)) (t : tok K) : res (list vec * list (d_state p) * nat) :=
  let '(q, k, v) := t in
  if c_zero_attn c then Err AssertionError
  else if negb (c_packed c) then Err AttributeError
  else if match c_bias c with Some _ => true | None => false end
  then Err RuntimeError
  else
    let dp := if training then dp else None in
    '(os, ss, pos) <- heads_step_d p dp pos ss (c_q c q) (c_k c k) (c_v c v) ;;
    Ok (join_heads c os, ss, pos).

(** MultiheadAttentionBase._forward_step, mha_base.py:374-428, see Attn.v. *)
Definition m_fstep_d (c : cfg K) (training : bool) (dp : option K) (p : dsdpa) (t : tok K)
  (prev : option (list (d_state p) * nat)) (h : cells) (pos : nat)
  : res (option (list vec) * (list (d_state p) * nat) * cells * nat) :=
  let '((mem, r), h) :=
    match prev with
    | Some s => (s, h)
    | None =>
        let '(r, h) := cell_new h (- Z.of_nat (c_N c)) in
        ((repeat (d_default p) (c_H c), r), h)
    end in
  '(o, mem, pos) <- mh_forward_step_d c training dp p pos mem t ;;
  let h := if Z.ltb (cell_get h r) 0 then set_nth h r (cell_get h r + 1)%Z else h in
  Ok (if Z.ltb (cell_get h r) 0 then None else Some o, (mem, r), h, pos).

(** Feeding a stream one token at a time with forward_step(update_state=True),
    mha_base.py:430-478. *)
Fixpoint m_run_d (c : cfg K) (training : bool) (dp : option K) (p : dsdpa)
  (o : option (list (d_state p) * nat)) (ts : list (tok K)) (h : cells) (pos : nat)
  : res (list (option (list vec)) * option (list (d_state p) * nat) * cells * nat) :=
  match ts with
  | [] => Ok ([], o, h, pos)
  | t :: ts =>
      '(out, s, h, pos) <- m_fstep_d c training dp p t o h pos ;;
      '(outs, o, h, pos) <- m_run_d c training dp p (Some s) ts h pos ;;
      Ok (out :: outs, o, h, pos)
  end.

(** F.multi_head_attention_forward with dropout_p and training, as called by
    MultiheadAttention.forward (mha_base.py:302-372): the weights of all heads, queries
    and keys, in this order, are dropped after the softmax. *)
Definition mha_forward_d (c : cfg K) (training : bool) (dp : option K) (pos : nat) (qs ks vs : list vec) : list vec :=
  let dp := if training then dp else None in
  let E := c_E c in
  let extra (b : list vec * list vec -> list vec) h :=
    match c_bias c with Some p => [head h (b p)] | None => [] end in
  let zero := if c_zero_attn c then [tab E (fun _ => k0)] else [] in
  map (fun '(i, q) =>
    c_o c (map (fun h =>
      let keys := map (fun k => head h (c_k c k)) ks ++ extra fst h ++ zero in
      let vals := map (fun v => head h (c_v c v)) vs ++ extra snd h ++ zero in
      let qh := map (c_scale c) (head h (c_q c q)) in
      wsum E (drop dp (pos + (h * length qs + i) * length keys) (softmax (map (dot E qh) keys))) vals)
      (seq 0 (c_H c)))) (combine (seq 0 (length qs)) qs).

(** SingleOutputMultiheadAttention.forward, single_output_mha.py:268-300. *)
Definition so_forward_d (c : cfg K) (training : bool) (dp : option K) (single_output_forward : bool)
  (query_index : Z) (pos : nat) (qs ks vs : list vec) : res (list vec) :=
  if single_output_forward
  then q <- py_index qs query_index ;; Ok (mha_forward_d c training dp pos [q] ks vs)
  else Ok (mha_forward_d c training dp pos qs ks vs).

End Dropout.
Arguments dsdpa K : clear implicits.

(** Specification: the mean of [f] over [n] independent draws, each of which is true
    (keeps) with probability 1 - p. *)
Section Mean.
Context {K : Type} {NK : Num K}.
Fixpoint mean (p : K) (n : nat) (f : list bool -> K) : K :=
  match n with
  | 0 => f []
  | S n => kadd (kmul p (mean p n (fun m => f (false :: m)))) (kmul (ksub k1 p) (mean p n (fun m => f (true :: m))))
  end.
(** A generator that returns the draws [m] from draw number [pos] on. *)
Definition draws (pos : nat) (m : list bool) (i : nat) : bool := nth (i - pos) m false.
(** Entry [e] of row [i] of the output of step [n]. *)
Definition entry (outs : list (option (list (list K)))) (n i e : nat) : K :=
  nth e (nth i (match nth n outs None with Some r => r | None => [] end) []) k0.
End Mean.
