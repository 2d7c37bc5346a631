(** Specification vocabulary for C53 and C54: two networks with the same temporal
    configuration whose frame operations respect a relation between frames. *)
From Coq Require Import List ZArith Bool Arith.
From Verif Require Import Base Frames CoMod Leaf Rnn Net Spec NetSpec Calls.
Import ListNotations.

(** Two results: related values, or the same exception. *)
Inductive rel_res {A B} (R : A -> B -> Prop) : res A -> res B -> Prop :=
| rel_ok a b : R a b -> rel_res R (Ok a) (Ok b)
| rel_err e : rel_res R (Err e) (Err e).

Inductive rel_opt {A B} (R : A -> B -> Prop) : option A -> option B -> Prop :=
| rel_some a b : R a b -> rel_opt R (Some a) (Some b)
| rel_none : rel_opt R None None.

Definition rel_pair {A B C D} (R : A -> B -> Prop) (S : C -> D -> Prop) (p : A * C) (q : B * D) : Prop :=
  R (fst p) (fst q) /\ S (snd p) (snd q).

Section NetRel.
Context {F G : Type} {FA : Frames F} {GA : Frames G}.
Variable R : F -> G -> Prop.

(** The relation respects the zero frame, and the addition of frames.  Only
    convolutions add frames. *)
Record rel_frames : Prop := { rf_0 : R f0 f0 }.
Definition rel_sum : Prop := forall a a' b b', R a a' -> R b b' -> R (fadd a b) (fadd a' b').

(** The padding frame respects it (always so for zeros and replicate). *)
Definition rel_fill (m : fill) : Prop := m = NegInf -> R finf finf.

Inductive rel_val : val F -> val G -> Prop :=
| rv_none : rel_val VNone VNone
| rv_t x y : R x y -> rel_val (VT x) (VT y)
| rv_s xs ys : Forall2 R xs ys -> rel_val (VS xs) (VS ys)
| rv_l l l' : Forall2 rel_val l l' -> rel_val (VL l) (VL l').

Definition rel_obj {A B} (S : A -> B -> Prop) (o : obj A) (o' : obj B) : Prop :=
  Forall2 S (o_buf o) (o_buf o') /\ o_idx o = o_idx o' /\ o_str o = o_str o'.

Record rel_conv (c : conv_cfg F) (c' : conv_cfg G) : Prop := {
  rc_k : ck c = ck c'; rc_s : cs c = cs c'; rc_p : cp c = cp c';
  rc_mode : cmode c = cmode c'; rc_fill : cfill c = cfill c';
  rc_okmode : rel_fill (cmode c); rc_okfill : rel_fill (cfill c);
  rc_W : forall i x y, R x y -> R (cW c i x) (cW c' i y);
  rc_b : rel_opt R (cb c) (cb c');
  rc_sum : rel_sum
}.

Record rel_pool (c : pool_cfg F) (c' : pool_cfg G) : Prop := {
  rp_k : pk c = pk c'; rp_s : ps c = ps c'; rp_p : pp c = pp c'; rp_d : pd c = pd c'; rp_fd : pfdil c = pfdil c';
  rp_mode : pmode c = pmode c'; rp_fill : pfill c = pfill c';
  rp_okmode : rel_fill (pmode c); rp_okfill : rel_fill (pfill c);
  rp_sp : forall x y, R x y -> R (psp c x) (psp c' y);
  rp_agg : forall l l', Forall2 R l l' -> R (pagg c l) (pagg c' l')
}.

Definition rel_cell (f : hid F -> F -> hid F * F) (g : hid G -> G -> hid G * G) : Prop :=
  forall h h' x y, Forall2 R h h' -> R x y -> rel_pair (Forall2 R) R (f h x) (g h' y).

Record rel_rnn (c : rnn_cfg F) (c' : rnn_cfg G) : Prop := {
  rr_cells : Forall2 rel_cell (r_cells c) (r_cells c');
  rr_h0 : Forall2 R (r_h0 c) (r_h0 c')
}.

Record rel_red (r : red F) (r' : red G) : Prop := {
  rd_op : forall a a' b b', R a a' -> R b b' -> R (r_op r a b) (r_op r' a' b');
  rd_bc : r_bcast r = r_bcast r'; rd_m2 : r_min2 r = r_min2 r'
}.

(** Same architecture, same temporal configuration, related operations and
    buffers.  The predicates of a Conditional decide alike. *)
Inductive rel_md : md F -> md G -> Prop :=
| rm_delay d f sh o o' : rel_fill f -> rel_obj R o o' -> rel_md (MDelay d f sh o) (MDelay d f sh o')
| rm_skip n o : rel_md (MSkip n o) (MSkip n o)
| rm_conv c c' o o' : rel_conv c c' -> rel_obj (Forall2 R) o o' -> rel_md (MConv c o) (MConv c' o')
| rm_pool c c' o o' : rel_pool c c' -> rel_obj R o o' -> rel_md (MPool c o) (MPool c' o')
| rm_map g g' : (forall x y, R x y -> R (g x) (g' y)) -> rel_md (MMap g) (MMap g')
| rm_rnn c c' o o' : rel_rnn c c' -> rel_opt (Forall2 (Forall2 R)) o o' -> rel_md (MRnn c o) (MRnn c' o')
| rm_seq ms ms' : Forall2 rel_md ms ms' -> rel_md (MSeq ms) (MSeq ms')
| rm_bc n : rel_md (MBroadcast n) (MBroadcast n)
| rm_par ms ms' : Forall2 rel_md ms ms' -> rel_md (MPar ms) (MPar ms')
| rm_disp d : rel_md (MDispatch d) (MDispatch d)
| rm_red r r' : rel_red r r' -> rel_md (MReduce r) (MReduce r')
| rm_br ms ms' r r' : Forall2 rel_md ms ms' -> rel_red r r' -> rel_md (MBR ms r) (MBR ms' r')
| rm_cond p p' D Q a a' b b' : (forall v v', rel_val v v' -> p v = p' v') -> rel_md a a' -> rel_opt rel_md b b' ->
    rel_md (MCond p D Q a b) (MCond p' D Q a' b').

Inductive rel_sst : sst F -> sst G -> Prop :=
| rs_d o o' : rel_obj R o o' -> rel_sst (SD o) (SD o')
| rs_k n : rel_sst (SK n) (SK n)
| rs_c o o' : rel_obj (Forall2 R) o o' -> rel_sst (SC o) (SC o')
| rs_r h h' : Forall2 (Forall2 R) h h' -> rel_sst (SR h) (SR h')
| rs_n l l' : Forall2 (rel_opt rel_sst) l l' -> rel_sst (SN l) (SN l').

Inductive rel_call : call F -> call G -> Prop :=
| rl_step v w u : rel_val v w -> rel_call (CStep v u) (CStep w u)
| rl_steps v w p u : rel_val v w -> rel_call (CSteps v p u) (CSteps w p u)
| rl_fwd v w : rel_val v w -> rel_call (CForward v) (CForward w)
| rl_clean : rel_call CClean CClean.

End NetRel.
