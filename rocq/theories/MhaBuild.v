(** Conversion of one attention module: mha_base.py:550-590 [MultiheadAttentionBase.build_from], for
    RetroactiveMultiheadAttention and SingleOutputMultiheadAttention alike.  device and dtype are left
    out, and so are the keyword arguments that the classes of torch do not know. *)
From Coq Require Import List ZArith Bool Arith.
From Verif Require Import Base Attn Tensor.
Import ListNotations.

(** The arguments of nn.MultiheadAttention (mha_base.py:251-283); [kdim] and [vdim] are resolved. *)
Record mha_args (P : Type) := {
  a_embed : nat; a_heads : nat; a_dropout : P; a_bias : bool; a_bias_kv : bool; a_zero : bool;
  a_kdim : nat; a_vdim : nat; a_bf : bool }.
Arguments a_embed {P}. Arguments a_heads {P}. Arguments a_dropout {P}. Arguments a_bias {P}.
Arguments a_bias_kv {P}. Arguments a_zero {P}. Arguments a_kdim {P}. Arguments a_vdim {P}. Arguments a_bf {P}.
(** Keyword arguments of build_from that replace those of the module. *)
Record mha_kwargs (P : Type) := {
  o_embed : option nat; o_heads : option nat; o_dropout : option P; o_bias : option bool; o_bias_kv : option bool;
  o_zero : option bool; o_kdim : option nat; o_vdim : option nat; o_bf : option bool }.
Arguments o_embed {P}. Arguments o_heads {P}. Arguments o_dropout {P}. Arguments o_bias {P}.
Arguments o_bias_kv {P}. Arguments o_zero {P}. Arguments o_kdim {P}. Arguments o_vdim {P}. Arguments o_bf {P}.

Section Build.
Context {K : Type} {SC : Scal K}.

(** A parameter: shape and row-major data. *)
Definition param : Type := list nat * list K.
Record mha_params := {
  p_in : option param; p_q : option param; p_k : option param; p_v : option param; p_inb : option param;
  p_out : param; p_outb : option param; p_bk : option param; p_bv : option param }.

(** torch's nn.MultiheadAttention.__init__ and _reset_parameters: biases of projections are zero,
    [rnd] are the random numbers of the others. *)
Definition opt {A} (b : bool) (a : A) : option A := if b then Some a else None.
Definition same_dims (a : mha_args K) : bool := (a_kdim a =? a_embed a) && (a_vdim a =? a_embed a).
Definition zeros_of (sh : list nat) : param := (sh, repeat s0 (size sh)).
Definition random (rnd : nat -> nat -> K) (n : nat) (sh : list nat) : param := (sh, map (rnd n) (seq 0 (size sh))).
Definition construct (a : mha_args K) (rnd : nat -> nat -> K) : res mha_params :=
  let e := a_embed a in
  if a_heads a =? 0 then Err ZeroDivisionError
  else if negb (e / a_heads a * a_heads a =? e) then Err AssertionError
  else Ok {|
    p_in := opt (same_dims a) (random rnd 0 [3 * e; e]);
    p_q := opt (negb (same_dims a)) (random rnd 1 [e; e]);
    p_k := opt (negb (same_dims a)) (random rnd 2 [e; a_kdim a]);
    p_v := opt (negb (same_dims a)) (random rnd 3 [e; a_vdim a]);
    p_inb := opt (a_bias a) (zeros_of [3 * e]);
    p_out := random rnd 4 [e; e]; p_outb := opt (a_bias a) (zeros_of [e]);
    p_bk := opt (a_bias_kv a) (random rnd 5 [1; 1; e]);
    p_bv := opt (a_bias_kv a) (random rnd 6 [1; 1; e]) |}.

(** torch.Tensor.copy_ for tensors of equal rank: dimensions of size 1 are expanded. *)
Fixpoint expands (s d : list nat) : bool :=
  match s, d with
  | [], [] => true
  | a :: s, b :: d => ((a =? b) || (a =? 1)) && expands s d
  | _, _ => false
  end.
Definition copy_ (dst src : param) : res param :=
  if expands (fst src) (fst dst)
  then Ok (fst dst, tab (fst dst) (fun ix => at_ (fst src) (snd src) (map Z.of_nat (map2 (fun a i => if a =? 1 then 0 else i) (fst src) ix))))
  else Err RuntimeError.
(** [if src is not None: dst.copy_(src)]: None has no copy_. *)
Definition copy_opt (dst src : option param) : res (option param) :=
  match src, dst with
  | None, _ => Ok dst
  | Some _, None => Err AttributeError
  | Some s, Some d => x <- copy_ d s ;; Ok (Some x)
  end.

Definition or_else {A} (o : option A) (d : A) : A := match o with Some a => a | None => d end.
Definition given {A} (o : option A) : bool := match o with Some _ => true | None => false end.
(** mha_base.py:552-569. *)
Definition arguments (a : mha_args K) (p : mha_params) (kw : mha_kwargs K) : mha_args K := {|
  a_embed := or_else (o_embed kw) (a_embed a); a_heads := or_else (o_heads kw) (a_heads a);
  a_dropout := or_else (o_dropout kw) (a_dropout a); a_bias := or_else (o_bias kw) (given (p_inb p));
  a_bias_kv := or_else (o_bias_kv kw) (given (p_bk p)); a_zero := or_else (o_zero kw) (a_zero a);
  a_kdim := or_else (o_kdim kw) (a_kdim a); a_vdim := or_else (o_vdim kw) (a_vdim a); a_bf := or_else (o_bf kw) (a_bf a) |}.
(** mha_base.py:550-590. *)
Definition mha_build (a : mha_args K) (p : mha_params) (kw : mha_kwargs K) (rnd : nat -> nat -> K) : res (mha_args K * mha_params) :=
  let a' := arguments a p kw in
  c <- construct a' rnd ;;
  w <- copy_opt (p_in c) (p_in p) ;;
  q <- copy_opt (p_q c) (p_q p) ;;
  k <- copy_opt (p_k c) (p_k p) ;;
  v <- copy_opt (p_v c) (p_v p) ;;
  b <- copy_opt (p_inb c) (p_inb p) ;;
  o <- copy_ (p_out c) (p_out p) ;;
  ob <- copy_opt (p_outb c) (p_outb p) ;;
  bk <- copy_opt (p_bk c) (p_bk p) ;;
  bv <- copy_opt (p_bv c) (p_bv p) ;;
  Ok (a', {| p_in := w; p_q := q; p_k := k; p_v := v; p_inb := b; p_out := o; p_outb := ob; p_bk := bk; p_bv := bv |}).

(** No keyword arguments. *)
Definition no_kwargs : mha_kwargs K := {| o_embed := None; o_heads := None; o_dropout := None; o_bias := None; o_bias_kv := None;
  o_zero := None; o_kdim := None; o_vdim := None; o_bf := None |}.

(** Specification: the parameters that a module with arguments [a] has. *)
Definition shaped (sh : list nat) (x : param) : Prop := fst x = sh /\ length (snd x) = size sh.
Definition present (b : bool) (sh : list nat) (x : option param) : Prop :=
  match x with Some x => b = true /\ shaped sh x | None => b = false end.
Record made (a : mha_args K) (p : mha_params) : Prop := {
  md_heads : a_heads a <> 0 /\ exists h, a_embed a = h * a_heads a;
  md_in : present (same_dims a) [3 * a_embed a; a_embed a] (p_in p);
  md_q : present (negb (same_dims a)) [a_embed a; a_embed a] (p_q p);
  md_k : present (negb (same_dims a)) [a_embed a; a_kdim a] (p_k p);
  md_v : present (negb (same_dims a)) [a_embed a; a_vdim a] (p_v p);
  md_inb : present (a_bias a) [3 * a_embed a] (p_inb p);
  md_out : shaped [a_embed a; a_embed a] (p_out p);
  md_outb : present (a_bias a) [a_embed a] (p_outb p);
  md_bk : present (a_bias_kv a) [1; 1; a_embed a] (p_bk p);
  md_bv : present (a_bias_kv a) [1; 1; a_embed a] (p_bv p) }.
(** Keyword arguments that leave the sizes. *)
Definition keeps_sizes (kw : mha_kwargs K) : Prop := o_embed kw = None /\ o_kdim kw = None /\ o_vdim kw = None.
(** Another size of the keys. *)
Definition with_kdim (k : nat) : mha_kwargs K := {| o_embed := None; o_heads := None; o_dropout := None; o_bias := None; o_bias_kv := None;
  o_zero := None; o_kdim := Some k; o_vdim := None; o_bf := None |}.
End Build.
