(** Multi-head attention: co.SingleOutputMultiheadAttention and
    co.RetroactiveMultiheadAttention (continual/multihead_attention/).

    Simplifications stated once here.
    - Tensors hold numbers with arbitrary operations, see [Num]; where a theorem
      needs exact arithmetic it asks for a commutative ring, see [NumLaws].
    - One batch element is modelled: every operation of the modelled code acts
      on the entries of the batch dimension independently.
    - The layout options batch_first and embed_dim_second only permute
      dimensions. A clip is the list of its tokens in time order.
    - Dropout, masks and attention-weight outputs are not modelled.
    - Tensors of a shape that torch rejects are outside the model, except where
      a definition says that it raises. *)
From Coq Require Import List ZArith Bool Arith Lia.
From Verif Require Import Base.
Import ListNotations.

(** Numbers held by tensors and torch's operations on them.  Nothing is assumed of
    the operations here. *)
Class Num (K : Type) := {
  k0 : K; k1 : K;
  kadd : K -> K -> K;
  kopp : K -> K;
  kmul : K -> K -> K;
  kdiv : K -> K -> K;
  kexp : K -> K
}.

(** The laws of a commutative ring.  Only the theorems that mention [NumLaws] use
    them; all the others hold for floating point numbers as well.  Nothing is ever
    assumed of [kexp], and of [kdiv] only that it is a multiplication by the
    reciprocal, whatever that is where the divisor is zero. *)
Class NumLaws (K : Type) {NK : Num K} : Prop := {
  kadd_0 : forall a : K, kadd k0 a = a;
  kadd_comm : forall a b : K, kadd a b = kadd b a;
  kadd_assoc : forall a b c : K, kadd a (kadd b c) = kadd (kadd a b) c;
  kadd_opp : forall a : K, kadd a (kopp a) = k0;
  kmul_1 : forall a : K, kmul k1 a = a;
  kmul_comm : forall a b : K, kmul a b = kmul b a;
  kmul_assoc : forall a b c : K, kmul a (kmul b c) = kmul (kmul a b) c;
  kdistr : forall a b c : K, kmul (kadd a b) c = kadd (kmul a c) (kmul b c);
  kdiv_mul : forall a b : K, kdiv a b = kmul a (kdiv k1 b)
}.

Section Attn.
Context {K : Type} {NK : Num K}.

(** Subtraction of tensors of numbers. *)
Definition ksub (a b : K) : K := kadd a (kopp b).

(** Sum along a dimension, [x.sum(-1)]. *)
Definition ksum (l : list K) : K := fold_right kadd k0 l.

(** A vector of the embedding dimension. *)
Local Notation vec := (list K).

(** Entry [e] of a vector; [tab] builds a vector of [E] entries. *)
Definition at_ (v : vec) (e : nat) : K := nth e v k0.
Definition tab (E : nat) (f : nat -> K) : vec := map f (seq 0 E).

(** Pairwise and three-way map, as in elementwise tensor arithmetic. *)
Fixpoint map2 {A B C} (f : A -> B -> C) (l : list A) (m : list B) : list C :=
  match l, m with
  | a :: l, b :: m => f a b :: map2 f l m
  | _, _ => []
  end.
Fixpoint map3 {A B C D} (f : A -> B -> C -> D)
  (l : list A) (m : list B) (n : list C) : list D :=
  match l, m, n with
  | a :: l, b :: m, c :: n => f a b c :: map3 f l m n
  | _, _, _ => []
  end.

(** Inner product of a query and a key with [E] entries: one entry of
    [torch.bmm(Q, K_T)]. *)
Definition dot (E : nat) (q k : vec) : K :=
  ksum (tab E (fun e => kmul (at_ q e) (at_ k e))).

(** One row of [torch.bmm(W, V)]: weights [ws] times the rows of [vs]. *)
Definition wsum (E : nat) (ws : list K) (vs : list vec) : vec :=
  tab E (fun e => ksum (map2 (fun w v => kmul w (at_ v e)) ws vs)).

(** [F.softmax(x, dim=-1)] *)
Definition softmax (x : list K) : list K :=
  let es := map kexp x in map (fun e => kdiv e (ksum es)) es.

(** [torch.roll(mem, shifts=-1)] followed by [mem_new[:, -1] = x]: the oldest
    row leaves and [x] becomes the newest. Writing at index -1 of an empty
    dimension raises. single_output_mha.py 94-98, retroactive_mha.py 101-105, 125-126. *)
Definition roll_in {A} (mem : list A) (x : A) : res (list A) :=
  match mem with
  | [] => Err IndexError
  | _ :: t => Ok (t ++ [x])
  end.

(** Item 0 of a dimension, [mem[:, 0]]. *)
Definition first_row {A} (mem : list A) : res A :=
  match mem with [] => Err IndexError | a :: _ => Ok a end.

(** ** Single-output attention, one head *)

(** State (Q_mem, K_T_mem, V_mem) of one head; row 0 is the oldest entry.
    single_output_mha.py 17-23. [K_T_mem] is stored transposed in the code. *)
Record so_state := SoS { so_Q : list vec; so_K : list vec; so_V : list vec }.

(** Number of remembered queries. single_output_mha.py 39, and the property
    [delay], 260-266. Construction asserts query_index < sequence_len (228), so
    the first branch does not go below zero. *)
Definition so_delay (N : nat) (query_index : Z) : nat :=
  if Z.leb 0 query_index then Z.to_nat (Z.of_nat N - query_index - 1)
  else Z.to_nat (- query_index - 1).

(** _scaled_dot_product_attention_default_state, single_output_mha.py 25-43. *)
Definition so_default (N E : nat) (query_index : Z) : so_state :=
  let zero := tab E (fun _ => k0) in
  SoS (repeat zero (so_delay N query_index)) (repeat zero N) (repeat zero N).

(** _scaled_dot_product_attention_step, single_output_mha.py 46-117. [scale] is
    the division by [math.sqrt(E)]. The output has one row (Nt = 1). *)
Definition so_step (E : nat) (scale : K -> K) (s : so_state) (q k v : vec)
  : res (list vec * so_state) :=
  let q := map scale q in
  let q_sel := match so_Q s with q0 :: _ => q0 | [] => q end in
  K_new <- roll_in (so_K s) k ;;
  V_new <- roll_in (so_V s) v ;;
  let attn := map (dot E q_sel) K_new in
  let output := wsum E (softmax attn) V_new in
  let Q_new := match so_Q s with [] => [] | _ :: t => t ++ [q] end in
  Ok ([output], SoS Q_new K_new V_new).

(** ** Retroactive attention, one head *)

(** State (d_mem, AV_mem, Q_mem, K_T_mem, V_mem). retroactive_mha.py 15-23. *)
Record re_state := ReS {
  re_d : list K; re_AV : list vec; re_Q : list vec;
  re_K : list vec; re_V : list vec
}.

(** _scaled_dot_product_attention_default_state, retroactive_mha.py 25-44. *)
Definition re_default (N E : nat) : re_state :=
  let zero := tab E (fun _ => k0) in
  ReS (repeat k0 (N - 1)) (repeat zero (N - 1)) (repeat zero (N - 1))
      (repeat zero N) (repeat zero N).

(** _scaled_dot_product_attention_step, retroactive_mha.py 47-144. *)
Definition re_step (E : nat) (scale : K -> K) (s : re_state) (q k v : vec)
  : res (list vec * re_state) :=
  let q := map scale q in
  k_old <- first_row (re_K s) ;;
  let A_left := map (fun qm => kexp (dot E qm k_old)) (re_Q s) in
  let A_right := map (fun qm => kexp (dot E qm k)) (re_Q s) in
  Q_new <- roll_in (re_Q s) q ;;
  K_new <- roll_in (re_K s) k ;;
  let A_bottom := map (fun kk => kexp (dot E q kk)) K_new in
  let d := map3 (fun d l r => kadd (ksub d l) r) (re_d s) A_left A_right
           ++ [ksum A_bottom] in
  v_old <- first_row (re_V s) ;;
  let AV_top :=
    map3 (fun av l r => tab E (fun e =>
            kadd (ksub (at_ av e) (kmul l (at_ v_old e))) (kmul r (at_ v e))))
         (re_AV s) A_left A_right in
  V_new <- roll_in (re_V s) v ;;
  let AV_new := AV_top ++ [wsum E A_bottom V_new] in
  let output := map2 (fun av dd => tab E (fun e => kdiv (at_ av e) dd)) AV_new d in
  Ok (output, ReS (tl d) (tl AV_new) Q_new K_new V_new).

(** ** The multi-head module *)

(** Parameters of a module. [c_q], [c_k], [c_v]: in-projection of one token and
    its split into heads (F._in_projection_packed and the views at mha_base.py
    137-139, 178-182); [c_o]: concatenation of the heads of one row and the
    out-projection (220-221). They are arbitrary functions here, which covers
    all weights and biases. [c_bias] holds bias_k and bias_v, split into heads,
    when add_bias_kv was set. [c_packed] is false when kdim or vdim differs
    from embed_dim, in which case in_proj_weight is None. [c_zero_attn] is
    add_zero_attn. *)
Record cfg := Cfg {
  c_N : nat;                    (* sequence_len *)
  c_H : nat;                    (* num_heads *)
  c_E : nat;                    (* head_dim *)
  c_scale : K -> K;             (* division by sqrt(head_dim) *)
  c_q : vec -> list vec;
  c_k : vec -> list vec;
  c_v : vec -> list vec;
  c_o : list vec -> vec;
  c_bias : option (list vec * list vec);
  c_packed : bool;
  c_zero_attn : bool
}.

(** Head [h] of a projected token. *)
Definition head (h : nat) (l : list vec) : vec := nth h l [].

(** F.multi_head_attention_forward as called by MultiheadAttention.forward,
    mha_base.py 302-372 (torch: scaled dot product, softmax, weighted sum of the
    values, out-projection). One row per query. bias_k and bias_v are appended
    to the keys and values; a zero key and value are appended when
    add_zero_attn is set. *)
Definition mha_forward (c : cfg) (qs ks vs : list vec) : list vec :=
  let E := c_E c in
  let extra (b : list vec * list vec -> list vec) h :=
    match c_bias c with Some p => [head h (b p)] | None => [] end in
  let zero := if c_zero_attn c then [tab E (fun _ => k0)] else [] in
  map (fun q =>
    c_o c (map (fun h =>
      let keys := map (fun k => head h (c_k c k)) ks ++ extra fst h ++ zero in
      let vals := map (fun v => head h (c_v c v)) vs ++ extra snd h ++ zero in
      let qh := map (c_scale c) (head h (c_q c q)) in
      wsum E (softmax (map (dot E qh) keys)) vals) (seq 0 (c_H c)))) qs.

(** Python indexing of a list of tokens with a possibly negative index. *)
Definition py_index {A} (l : list A) (i : Z) : res A :=
  let j := if Z.ltb i 0 then (i + Z.of_nat (length l))%Z else i in
  if Z.ltb j 0 then Err IndexError
  else match nth_error l (Z.to_nat j) with
       | Some a => Ok a | None => Err IndexError
       end.

(** SingleOutputMultiheadAttention.forward, single_output_mha.py 268-300. *)
Definition so_forward (c : cfg) (single_output_forward : bool) (query_index : Z)
  (qs ks vs : list vec) : res (list vec) :=
  if single_output_forward
  then q <- py_index qs query_index ;; Ok (mha_forward c [q] ks vs)
  else Ok (mha_forward c qs ks vs).

(** A query, key and value token: the arguments of one step. *)
Definition tok : Type := vec * vec * vec.

(** The memory part of a module's state and the functions _sdpa_default_state
    and _sdpa_step a subclass passes to the base class, mha_base.py 251-289. *)
Record sdpa := Sdpa {
  p_state : Type;
  p_default : p_state;
  p_step : p_state -> vec -> vec -> vec -> res (list vec * p_state)
}.

(** SingleOutputMultiheadAttention.__init__, single_output_mha.py 184-234. *)
Definition so_sdpa (c : cfg) (query_index : Z) : sdpa :=
  Sdpa so_state (so_default (c_N c) (c_E c) query_index)
       (so_step (c_E c) (c_scale c)).

(** RetroactiveMultiheadAttention.__init__, retroactive_mha.py 209-255. *)
Definition re_sdpa (c : cfg) : sdpa :=
  Sdpa re_state (re_default (c_N c) (c_E c)) (re_step (c_E c) (c_scale c)).

(** The step function runs on all heads at once (batch * num_heads rows). A
    number of heads that does not fit the state raises. *)
Fixpoint heads_step (p : sdpa) (ss : list (p_state p)) (qs ks vs : list vec)
  : res (list (list vec) * list (p_state p)) :=
  match ss, qs, ks, vs with
  | [], [], [], [] => Ok ([], [])
  | s :: ss, q :: qs, k :: ks, v :: vs =>
      '(o, s) <- p_step p s q k v ;;
      '(os, ss) <- heads_step p ss qs ks vs ;;
      Ok (o :: os, s :: ss)
  | _, _, _, _ => Err RuntimeError
  end.

(** Output rows: row [i] joins row [i] of every head, mha_base.py 220-221. *)
Definition join_heads (c : cfg) (os : list (list vec)) : list vec :=
  let rows := match os with [] => 0 | o :: _ => length o end in
  map (fun i => c_o c (map (fun o => nth i o []) os)) (seq 0 rows).

(** multi_head_attention_forward_step, mha_base.py 19-223. add_zero_attn is
    asserted false (97). With separate projection weights in_proj_weight is None
    and the packed projection fails on it (137-139). With bias_k and bias_v the
    key and value get a second time entry, squeeze(1) at 216 does nothing and
    the step function rejects the shape (167-171). *)
Definition mh_forward_step (c : cfg) (p : sdpa) (ss : list (p_state p)) (t : tok)
  : res (list vec * list (p_state p)) :=
  let '(q, k, v) := t in
  if c_zero_attn c then Err AssertionError
  else if negb (c_packed c) then Err AttributeError
  else if match c_bias c with Some _ => true | None => false end
  then Err RuntimeError
  else
    '(os, ss) <- heads_step p ss (c_q c q) (c_k c k) (c_v c v) ;;
    Ok (join_heads c os, ss).

(** *** Module state

    The last component of a state tuple is the tensor stride_index. The code
    updates it in place, so it is modelled as a reference into [cells]. The
    other components are never written after construction and are values. *)
Definition cells := list Z.
Definition cell_get (h : cells) (r : nat) : Z := nth r h 0%Z.
Definition cell_new (h : cells) (z : Z) : nat * cells := (length h, h ++ [z]).

Definition mstate (p : sdpa) : Type := list (p_state p) * nat.

(** MultiheadAttentionBase._forward_step, mha_base.py 374-428. Returns the
    output rows (None during start-up), the new state and the cells. Line 421
    is [stride_index += 1] on a tensor: it writes the cell of [prev]. *)
Definition m_fstep (c : cfg) (p : sdpa) (t : tok) (prev : option (mstate p))
  (h : cells) : res (option (list vec) * mstate p * cells) :=
  let '((mem, r), h) :=
    match prev with
    | Some s => (s, h)
    | None =>
        let '(r, h) := cell_new h (- Z.of_nat (c_N c)) in
        ((repeat (p_default p) (c_H c), r), h)
    end in
  '(o, mem) <- mh_forward_step c p mem t ;;
  let h := if Z.ltb (cell_get h r) 0 then set_nth h r (cell_get h r + 1)%Z else h in
  Ok (if Z.ltb (cell_get h r) 0 then None else Some o, (mem, r), h).

(** _clone_state, mha_base.py 14-16. *)
Definition m_clone {p} (s : mstate p) (h : cells) : mstate p * cells :=
  let '(mem, r) := s in
  let '(r, h) := cell_new h (cell_get h r) in ((mem, r), h).

(** MultiheadAttentionBase.forward_step, mha_base.py 430-478. [o] is the state
    stored on the module: get_state returns None while nothing is stored
    (single_output_mha.py 236-244, retroactive_mha.py 257-266). In the branch at
    475-476 the name backup_state is unbound when the module had no state. *)
Definition m_forward_step (c : cfg) (p : sdpa) (o : option (mstate p)) (t : tok)
  (update_state : bool) (h : cells)
  : res (option (list vec) * option (mstate p) * cells) :=
  let '(backup, h) :=
    match o with
    | Some s => if update_state then (None, h)
                else let '(b, h) := m_clone s h in (Some b, h)
    | None => (None, h)
    end in
  '(out, s, h) <- m_fstep c p t o h ;;
  if update_state then Ok (out, Some s, h)
  else match backup with
       | Some b => Ok (out, Some b, h)
       | None => Err UnboundLocalError
       end.

(** The loop of forward_steps, mha_base.py 523-532: non-None outputs in order
    and the final temporary state. *)
Fixpoint m_loop (c : cfg) (p : sdpa) (ts : list tok) (s : option (mstate p))
  (h : cells) : res (list (list vec) * option (mstate p) * cells) :=
  match ts with
  | [] => Ok ([], s, h)
  | t :: ts =>
      '(o, s, h) <- m_fstep c p t s h ;;
      '(outs, s, h) <- m_loop c p ts (Some s) h ;;
      Ok (match o with Some a => a :: outs | None => outs end, s, h)
  end.

(** MultiheadAttentionBase.forward_steps, mha_base.py 480-544. [None] stands
    for a returned None. On an empty clip set_state(None) raises if the module
    had no state (534-535), and otherwise [return o] at 539-540 finds [o]
    unbound. The asserts at 521-522 hold by the type of [ts]. *)
Definition m_forward_steps (c : cfg) (p : sdpa) (o : option (mstate p))
  (ts : list tok) (update_state : bool) (h : cells)
  : res (option (list (list vec)) * option (mstate p) * cells) :=
  let '(backup, h) :=
    match o with
    | Some s => if update_state then (None, h)
                else let '(b, h) := m_clone s h in (Some b, h)
    | None => (None, h)
    end in
  '(outs, s, h) <- m_loop c p ts o h ;;
  o' <- (if update_state
         then match s with Some s => Ok (Some s) | None => Err TypeError end
         else match backup with
              | Some b => Ok (Some b) | None => Err UnboundLocalError
              end) ;;
  match outs, ts with
  | [], [] => Err UnboundLocalError
  | [], _ => Ok (None, o', h)
  | _, _ => Ok (Some outs, o', h)
  end.

(** clean_state: single_output_mha.py 254-258, retroactive_mha.py 278-284. *)
Definition m_clean {p} (_ : option (mstate p)) : option (mstate p) := None.

(** get_state and set_state: single_output_mha.py 236-252, retroactive_mha.py
    257-276. The tuple holds the module's own tensors. *)
Definition m_get {p} (o : option (mstate p)) : option (mstate p) := o.
Definition m_set {p} (s : mstate p) : option (mstate p) := Some s.

(** Feeding a stream one token at a time with forward_step(update_state=True). *)
Fixpoint m_run (c : cfg) (p : sdpa) (o : option (mstate p)) (ts : list tok)
  (h : cells) : res (list (option (list vec)) * option (mstate p) * cells) :=
  match ts with
  | [] => Ok ([], o, h)
  | t :: ts =>
      '(out, o, h) <- m_forward_step c p o t true h ;;
      '(outs, o, h) <- m_run c p o ts h ;;
      Ok (out :: outs, o, h)
  end.

End Attn.
Arguments cfg K : clear implicits.
Arguments sdpa K : clear implicits.
Arguments tok K : clear implicits.
Notation vec K := (list K) (only parsing).
