(** Masks, attention weights and the arguments of attention calls.

    [Attn.v] has forward without masks. Here forward takes key_padding_mask, attn_mask and
    need_weights (mha_base.py 302-372, single_output_mha.py 268-300), and the calls of
    forward, forward_step and forward_steps take any positional and keyword arguments, since
    their signatures differ: masks are arguments of forward only, and the steps drop what
    they do not know ([*args, **kwargs], mha_base.py 430-438 and 480-488).

    Simplifications: one sample of a batch, as in [Attn.v]. An entry of an additive mask is
    minus infinity or a number; the exponential of minus infinity is 0. Byte masks are
    boolean masks. Arguments of a wrong kind raise; which exception it is, and the truth
    value of a one-element tensor of floats, are not modelled. *)
From Coq Require Import List ZArith Bool Arith.
From Verif Require Import Base Attn.
Import ListNotations.

Section Mask.
Context {K : Type} {NK : Num K}.
Notation vec := (vec K).
Notation cfg := (cfg K).

(** What a mask says about a query and a key: [False] of a boolean mask; [True], or minus
    infinity; a number to be added to the score. *)
Inductive mentry := Keep | Hide | Plus (z : K).

(** attn_mask: one (L, S) mask for all heads, or one for each, (num_heads, L, S). *)
Inductive amask := For_all (m : list (list mentry)) | For_each (ms : list (list (list mentry))).
Definition of_head (m : amask) (h : nat) : list (list mentry) :=
  match m with For_all m => m | For_each ms => nth h ms [] end.

(** The checks of shapes in F.multi_head_attention_forward, called at mha_base.py 360-362:
    attn_mask is (L, S) or (num_heads, L, S), key_padding_mask has S entries. *)
Definition has_shape (L S : nat) (m : list (list mentry)) : bool :=
  Nat.eqb (length m) L && forallb (fun r => Nat.eqb (length r) S) m.
Definition check_masks (H L S : nat) (kpm : option (list bool)) (am : option amask) : res unit :=
  _ <- match am with
       | None => Ok tt
       | Some (For_all m) => if has_shape L S m then Ok tt else Err RuntimeError
       | Some (For_each ms) =>
           if Nat.eqb (length ms) H && forallb (has_shape L S) ms then Ok tt else Err RuntimeError
       end ;;
  match kpm with
  | None => Ok tt
  | Some p => if Nat.eqb (length p) S then Ok tt else Err AssertionError
  end.

(** The two masks merged, for one query: masked by either of them (the code is quoted as
    comments at mha_base.py 186-206). *)
Definition merge (S : nat) (kpm : option (list bool)) (row : option (list mentry)) : list mentry :=
  let row := match row with Some r => r | None => repeat Keep S end in
  match kpm with
  | Some p => map2 (fun (b : bool) e => if b then Hide else e) p row
  | None => row
  end.

(** softmax of the masked scores. *)
Definition weight (m : mentry) (x : K) : K :=
  match m with Keep => kexp x | Hide => k0 | Plus z => kexp (kadd z x) end.
Definition masked_softmax (ms : list mentry) (xs : list K) : list K :=
  let es := map2 weight ms xs in map (fun e => kdiv e (ksum es)) es.

(** A natural number among the numbers. *)
Definition of_nat (n : nat) : K := ksum (repeat k1 n).
(** The attention weights returned for a query: the mean over the heads. *)
Definition mean_heads (n : nat) (ws : list (list K)) : list K :=
  tab n (fun j => kdiv (ksum (map (fun w => at_ w j) ws)) (of_nat (length ws))).

(** MultiheadAttention.forward as called by MultiheadAttentionBase.forward, mha_base.py
    302-372. The masks do not cover bias_k, bias_v and the zero key: both are padded with
    entries that keep them. *)
Definition mha_masked (c : cfg) (kpm : option (list bool)) (am : option amask) (need_weights : bool)
  (qs ks vs : list vec) : res (list vec * option (list (list K))) :=
  let E := c_E c in
  let S := length ks in
  let extra (b : list vec * list vec -> list vec) h :=
    match c_bias c with Some p => [head h (b p)] | None => [] end in
  let zero := if c_zero_attn c then [tab E (fun _ => k0)] else [] in
  let keys h := map (fun k => head h (c_k c k)) ks ++ extra fst h ++ zero in
  let vals h := map (fun v => head h (c_v c v)) vs ++ extra snd h ++ zero in
  let mask h i :=
    merge S kpm (option_map (fun m => nth i (of_head m h) []) am)
    ++ repeat Keep (length (extra fst h) + length zero) in
  let w i h :=
    masked_softmax (mask h i) (map (dot E (map (c_scale c) (head h (c_q c (nth i qs []))))) (keys h)) in
  _ <- check_masks (c_H c) (length qs) S kpm am ;;
  Ok (map (fun i => c_o c (map (fun h => wsum E (w i h) (vals h)) (seq 0 (c_H c)))) (seq 0 (length qs)),
      if need_weights
      then Some (map (fun i => mean_heads (S + length (extra fst 0) + length zero) (map (w i) (seq 0 (c_H c))))
                     (seq 0 (length qs)))
      else None).

(** SingleOutputMultiheadAttention.forward, single_output_mha.py 268-300: the query is
    selected first, the masks are passed on as they are. *)
Definition so_masked (c : cfg) (single_output_forward : bool) (query_index : Z)
  (kpm : option (list bool)) (am : option amask) (need_weights : bool) (qs ks vs : list vec)
  : res (list vec * option (list (list K))) :=
  if single_output_forward
  then q <- py_index qs query_index ;; mha_masked c kpm am need_weights [q] ks vs
  else mha_masked c kpm am need_weights qs ks vs.

(** ** Arguments *)

(** Values that are passed: None, a token of shape (B, E), a clip of tokens, a bool, a
    key_padding_mask and an attn_mask. *)
Inductive arg :=
| ANone | ATok (v : vec) | AClip (l : list vec) | ABool (b : bool) | APad (p : list bool) | AMask (m : amask).
(** Names of parameters; [Other] is any name that no signature has. *)
Inductive pname := Query | Key | Value | KeyPaddingMask | NeedWeights | AttnMask | UpdateState | Other (n : nat).
Definition pname_eqb (a b : pname) : bool :=
  match a, b with
  | Query, Query | Key, Key | Value, Value | KeyPaddingMask, KeyPaddingMask | NeedWeights, NeedWeights
  | AttnMask, AttnMask | UpdateState, UpdateState => true
  | Other m, Other n => Nat.eqb m n
  | _, _ => false
  end.

(** Python's binding of a call's arguments to a signature: positional arguments in order,
    then keywords. [open]: the signature ends with [*args, **kwargs]. *)
Definition bound := list (pname * arg).
Definition given (n : pname) (b : bound) : option arg :=
  option_map snd (find (fun x => pname_eqb n (fst x)) b).
Fixpoint bind_pos (open : bool) (names : list pname) (pos : list arg) : res bound :=
  match names, pos with
  | _, [] => Ok []
  | n :: names, a :: pos => b <- bind_pos open names pos ;; Ok ((n, a) :: b)
  | [], _ :: _ => if open then Ok [] else Err TypeError
  end.
Fixpoint bind_kw (open : bool) (names : list pname) (kw : list (pname * arg)) (b : bound) : res bound :=
  match kw with
  | [] => Ok b
  | (n, a) :: kw =>
      if existsb (pname_eqb n) names
      then match given n b with Some _ => Err TypeError | None => bind_kw open names kw ((n, a) :: b) end
      else if open then bind_kw open names kw b else Err TypeError
  end.
(** The first parameter has no default. *)
Definition bind_args (open : bool) (names : list pname) (pos : list arg) (kw : list (pname * arg)) : res bound :=
  b <- bind_pos open names pos ;;
  b <- bind_kw open names kw b ;;
  match given Query b with Some _ => Ok b | None => Err TypeError end.

(** mha_base.py 302-310 and single_output_mha.py 268-276; mha_base.py 430-438 and 480-488. *)
Definition forward_names := [Query; Key; Value; KeyPaddingMask; NeedWeights; AttnMask].
Definition step_names := [Query; Key; Value; UpdateState].

Definition value (n : pname) (default : arg) (b : bound) : arg :=
  match given n b with Some a => a | None => default end.
(** [if key is None: key = query], mha_base.py 349-352, 454-457, 504-507. *)
Definition or_query (a q : arg) : arg := match a with ANone => q | _ => a end.

(** [bool(a)]: mha_base.py 461, 473. A tensor of several entries has no truth value. *)
Definition truth (a : arg) : res bool :=
  match a with
  | ANone => Ok false
  | ABool b => Ok b
  | APad [b] => Ok b
  | _ => Err RuntimeError
  end.

Definition clip_of (a : arg) : res (list vec) := match a with AClip l => Ok l | _ => Err RuntimeError end.
Definition tok_of (a : arg) : res vec := match a with ATok v => Ok v | _ => Err AssertionError end.
Definition pad_of (a : arg) : res (option (list bool)) :=
  match a with ANone => Ok None | APad p => Ok (Some p) | _ => Err RuntimeError end.
Definition mask_of (a : arg) : res (option amask) :=
  match a with ANone => Ok None | AMask m => Ok (Some m) | _ => Err RuntimeError end.

(** The two kinds of modules. *)
Inductive kind := Single (single_output_forward : bool) (query_index : Z) | Retro.
Definition sdpa_of (c : cfg) (k : kind) : sdpa K :=
  match k with Single _ qi => so_sdpa c qi | Retro => re_sdpa c end.

(** [module.forward( *pos, **kw)]: output and weights; with forward_returns_attn_mask=False
    the caller gets the first component alone (mha_base.py 367-370). *)
Definition call_forward (c : cfg) (k : kind) (pos : list arg) (kw : list (pname * arg))
  : res (list vec * option (list (list K))) :=
  b <- bind_args false forward_names pos kw ;;
  let q := value Query ANone b in
  qs <- clip_of q ;;
  ks <- clip_of (or_query (value Key ANone b) q) ;;
  vs <- clip_of (or_query (value Value ANone b) q) ;;
  kpm <- pad_of (value KeyPaddingMask ANone b) ;;
  need <- truth (value NeedWeights (ABool true) b) ;;
  am <- mask_of (value AttnMask ANone b) ;;
  match k with
  | Single sof qi => so_masked c sof qi kpm am need qs ks vs
  | Retro => mha_masked c kpm am need qs ks vs
  end.

(** [module.forward_step( *pos, **kw)]. update_state is tested before anything is computed
    (mha_base.py 461). *)
Definition call_step (c : cfg) (p : sdpa K) (o : option (mstate p)) (pos : list arg) (kw : list (pname * arg))
  (h : cells) : res (option (list vec) * option (mstate p) * cells) :=
  b <- bind_args true step_names pos kw ;;
  let q := value Query ANone b in
  upd <- truth (value UpdateState (ABool true) b) ;;
  q' <- tok_of q ;;
  k <- tok_of (or_query (value Key ANone b) q) ;;
  v <- tok_of (or_query (value Value ANone b) q) ;;
  m_forward_step c p o (q', k, v) upd h.

(** [module.forward_steps( *pos, **kw)]. The assertions on the lengths are at 520-521. *)
Definition call_steps (c : cfg) (p : sdpa K) (o : option (mstate p)) (pos : list arg) (kw : list (pname * arg))
  (h : cells) : res (option (list (list vec)) * option (mstate p) * cells) :=
  b <- bind_args true step_names pos kw ;;
  let q := value Query ANone b in
  qs <- clip_of q ;;
  ks <- clip_of (or_query (value Key ANone b) q) ;;
  vs <- clip_of (or_query (value Value ANone b) q) ;;
  upd <- truth (value UpdateState (ABool true) b) ;;
  if Nat.eqb (length qs) (length ks) && Nat.eqb (length qs) (length vs)
  then m_forward_steps c p o (combine (combine qs ks) vs) upd h
  else Err AssertionError.
End Mask.
Arguments mentry K : clear implicits.
Arguments amask K : clear implicits.
Arguments arg K : clear implicits.
