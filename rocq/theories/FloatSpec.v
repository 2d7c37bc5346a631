(** Specification vocabulary for C68: what holds without any law of arithmetic,
    that is, also for floating-point numbers. *)
From Coq Require Import List ZArith Bool Arith.
From Verif Require Import Base Frames CoMod Leaf Rnn Net Spec NetSpec NetDef Batch.
Import ListNotations.

(* ------------------------------------------------------------------ *)
(** ** Networks built by the public constructors, whatever their arithmetic *)

Section Built.
Context {F : Type} {FA : Frames F}.

(** The conditions of [conv_ok] on the temporal configuration.  The taps may do
    anything: they need not map zeros to zeros (they do not if a weight is
    infinite or NaN, nor bit for bit if a weight is negative). *)
Record conv_shape (c : conv_cfg F) : Prop := {
  csh_k : 1 <= ck c;
  csh_s : 1 <= cs c;
  csh_p : cp c <= ck c - 1;
  csh_1 : ck c = 1 -> cs c = 1;
  csh_fill : cfill c <> NegInf;
  csh_mode : cp c = 0 \/ cmode c = cfill c;
  csh_mode' : cmode c <> NegInf
}.

(** The conditions of [pool_ok] on the temporal configuration.  The aggregation
    may depend on the order of the frames, as a floating-point sum does. *)
Record pool_shape (c : pool_cfg F) : Prop := {
  psh_k : 1 <= pk c;
  psh_s : 1 <= ps c;
  psh_p : 2 * pp c <= pk c;
  psh_p1 : pp c <= pk c - 1;
  psh_d : pd c = 1;
  psh_fd : pfdil c = 1;
  psh_fill : pp c = 0 \/ pmode c = pfill c
}.

(** As [net], but with no condition on the arithmetic of the leaves. *)
Inductive built (sh : bool) : md F -> Prop :=
| built_conv c : conv_shape c -> built sh (MConv c obj_init)
| built_pool c : pool_shape c -> built sh (MPool c obj_init)
| built_delay d f : built sh (MDelay d f ShNo obj_init)
| built_map g : built sh (MMap g)
| built_rnn c : Forall cell_len (r_cells c) -> built sh (MRnn c None)
| built_seq ms : (forall m, In m ms -> built sh m) -> built sh (mk_seq ms)
| built_br ms r auto m :
    (forall x, In x ms -> built sh x) -> aligned ms auto ->
    mk_br ms r auto = Ok m -> same_len (branches m) -> built sh m
| built_res m0 tf r rs m :
    built sh m0 -> shrink_allowed sh m0 rs ->
    residual m0 tf r rs = Ok m -> same_len (branches m) -> built sh m.

(** As [regular], but with no condition on the arithmetic of the leaves: every
    condition is on the temporal configuration and the reported numbers. *)
Inductive shaped (sh : bool) : md F -> Prop :=
| shaped_conv c : conv_shape c -> shaped sh (MConv c obj_init)
| shaped_pool c : pool_shape c -> shaped sh (MPool c obj_init)
| shaped_map g : shaped sh (MMap g)
| shaped_rnn c : Forall cell_len (r_cells c) -> shaped sh (MRnn c None)
| shaped_seq ms : (forall m, In m ms -> shaped sh m) -> shaped sh (mk_seq ms)
| shaped_br ms r auto m :
    (forall x, In x ms -> shaped sh x) -> aligned ms auto ->
    (forall a b, In a ms -> In b ms -> (rfield a - 2 * padg a = rfield b - 2 * padg b)%Z) ->
    mk_br ms r auto = Ok m -> shaped sh m
| shaped_res m0 tf r rs m :
    shaped sh m0 ->
    (rfield m0 - padg m0 * 2 = 1)%Z \/
    (padg m0 = 0%Z /\ (rs = RLeading \/ (sh = true /\ (rs = RTrue \/ rs = RLagging)))) ->
    residual m0 tf r rs = Ok m -> shaped sh m.
End Built.

(** No convolution. *)
Fixpoint conv_free {F} (m : md F) : Prop :=
  match m with
  | MConv _ _ => False
  | MSeq ms | MPar ms | MBR ms _ => allP conv_free ms
  | MCond _ _ _ a b => conv_free a /\ match b with Some b0 => conv_free b0 | None => True end
  | _ => True
  end.

(* ------------------------------------------------------------------ *)
(** ** Marks: which results may depend on a marked frame *)

(** A mark instead of a frame; a sum is marked if one of its terms is. *)
#[export] Instance mark_frames : Frames bool := {| f0 := false; finf := false; fadd := orb |}.

Definition some_marked (l : list bool) : bool := existsb (fun b => b) l.

Section Skeleton.
Context {F : Type} {FA : Frames F}.

Definition sk_obj (o : obj F) : obj bool := Obj (map (fun _ => false) (o_buf o)) (o_idx o) (o_str o).
Definition sk_objs (o : obj (list F)) : obj (list bool) :=
  Obj (map (map (fun _ => false)) (o_buf o)) (o_idx o) (o_str o).
Definition sk_conv (c : conv_cfg F) : conv_cfg bool :=
  {| ck := ck c; cs := cs c; cp := cp c; cW _ t := t; cb := option_map (fun _ => false) (cb c);
     cmode := cmode c; cfill := cfill c |}.
Definition sk_pool (c : pool_cfg F) : pool_cfg bool :=
  {| pk := pk c; ps := ps c; pp := pp c; pd := pd c; psp t := t; pagg := some_marked;
     pfill := pfill c; pmode := pmode c; pfdil := pfdil c |}.
Definition sk_cell (f : hid F -> F -> hid F * F) (h : hid bool) (t : bool) : hid bool * bool :=
  let u := t || some_marked h in
  (repeat u (length (fst (f (repeat f0 (length h)) f0))), u).
Definition sk_rnn (c : rnn_cfg F) : rnn_cfg bool :=
  {| r_cells := map sk_cell (r_cells c); r_h0 := map (fun _ => false) (r_h0 c) |}.
Definition sk_red (r : red F) : red bool :=
  {| r_op := orb; r_bcast := r_bcast r; r_min2 := r_min2 r |}.

(** The network with its temporal configuration, buffers and counters, in which
    every frame is replaced by a mark and every operation on frames by "one of
    the arguments is marked". *)
Fixpoint skeleton (m : md F) : md bool :=
  match m with
  | MDelay d f sh o => MDelay d f sh (sk_obj o)
  | MSkip n o => MSkip n o
  | MConv c o => MConv (sk_conv c) (sk_objs o)
  | MPool c o => MPool (sk_pool c) (sk_obj o)
  | MMap g => MMap (fun t => t)
  | MRnn c o => MRnn (sk_rnn c) (option_map (map (map (fun _ => false))) o)
  | MSeq ms => MSeq (map skeleton ms)
  | MBroadcast n => MBroadcast n
  | MPar ms => MPar (map skeleton ms)
  | MDispatch d => MDispatch d
  | MReduce r => MReduce (sk_red r)
  | MBR ms r => MBR (map skeleton ms) (sk_red r)
  | MCond p D R a b => MCond (fun _ => true) D R (skeleton a) (option_map skeleton b)
  end.

(** Two frames and a mark: the frames are equal unless marked. *)
Definition agree (p : F * F) (t : bool) : Prop := t = false -> fst p = snd p.
End Skeleton.

(* ------------------------------------------------------------------ *)
(** ** What a step computes, operation by operation *)

(** The [k] newest frames at step [n]. *)
Definition newest {A} (k n : nat) (xs : list A) : list A := firstn k (skipn (S n - k) xs).

Section Expr.
Context {F : Type} {FA : Frames F}.

(** Frame [x] under tap [m], all other taps on zeros. *)
Definition tap (c : conv_cfg F) (m : nat) (x : F) : F :=
  fsum (map (fun i => cW c i (if Nat.eqb i m then x else f0)) (seq 0 (ck c))).

(** The products that a step reads from the buffer: those of frame [z] under tap
    [m]; before the first frame, the fill. *)
Definition stored (c : conv_cfg F) (xs : list F) (m : nat) (z : Z) : F :=
  if Z.ltb z 0 then make_padding (cfill c) (tap c m (hd f0 xs)) else tap c m (nth (Z.to_nat z) xs f0).

(** The newest product, plus the sum of the stored ones, plus the bias. *)
Definition conv_value (c : conv_cfg F) (xs : list F) (n : nat) : F :=
  add_bias (cb c) (fadd (tap c (ck c - 1) (nth n xs f0))
    (fsum (map (fun m => stored c xs m (Z.of_nat n - Z.of_nat (ck c - 1) + Z.of_nat m)%Z) (seq 0 (ck c - 1))))).

(** The same for a full window [w], oldest frame first. *)
Definition conv_window (c : conv_cfg F) (w : list F) : F :=
  add_bias (cb c) (fadd (tap c (ck c - 1) (nth (ck c - 1) w f0))
    (fsum (map (fun m => tap c m (nth m w f0)) (seq 0 (ck c - 1))))).

(** The order in which the ring buffer holds a window after step [n]. *)
Definition rotated {A} (k n : nat) (w : list A) : list A :=
  let r := S n mod k in skipn (k - r) w ++ firstn (k - r) w.
End Expr.
