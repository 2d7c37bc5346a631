(** Specification vocabulary for C53 and C54: batches of streams, linear and
    equivariant networks. *)
From Coq Require Import List ZArith Bool Arith.
From Verif Require Import Base Frames CoMod Leaf Rnn Net Spec NetSpec Calls NetRel.
Import ListNotations.

(** A batch of two: frames are pairs and torch's additions act entry by entry. *)
Definition pair_add {F G} {FA : Frames F} {GA : Frames G} (a b : F * G) : F * G :=
  (fadd (fst a) (fst b), fadd (snd a) (snd b)).
#[export] Instance pair_frames {F G} {FA : Frames F} {GA : Frames G} : Frames (F * G) :=
  {| f0 := (f0, f0); finf := (finf, finf); fadd := pair_add |}.
#[export] Instance pair_laws {F G} {FA : Frames F} {FL : FrameLaws F} {GA : Frames G} {GL : FrameLaws G} :
  FrameLaws (F * G).
Proof.
  split; cbn [fadd f0 pair_frames]; unfold pair_add; cbn [fst snd]; intros.
  - f_equal; apply fadd_comm.
  - f_equal; apply fadd_assoc.
  - destruct a. cbn [fst snd]. f_equal; apply fadd_0_l.
Qed.

Section Maps.
Context {F G : Type} (h : F -> G).

(** Apply a function to every frame of an input or of a call. *)
Fixpoint val_map (v : val F) : val G :=
  match v with
  | VNone => VNone
  | VT x => VT (h x)
  | VS xs => VS (map h xs)
  | VL l => VL (map val_map l)
  end.

Definition call_map (c : call F) : call G :=
  match c with
  | CStep v u => CStep (val_map v) u
  | CSteps v p u => CSteps (val_map v) p u
  | CForward v => CForward (val_map v)
  | CClean => CClean
  end.

(** The graph of [h] as a relation. *)
Definition graph (x : F) (y : G) : Prop := h x = y.
End Maps.

Section Batch.
Context {F : Type} {FA : Frames F}.

(** Results of a history: the outputs, or the exception. *)
Definition outs {A B} (r : res (A * B)) : res A := '(a, _) <- r ;; Ok a.
(** Apply a function to the outputs of a history. *)
Definition outs_map {A B} (h : A -> B) (r : res (list (val A))) : res (list (val B)) := ws <- r ;; Ok (map (val_map h) ws).

(* ------------------------------------------------------------------ *)
(** ** The network that processes two streams at once *)

Definition two (x : F) : F * F := (x, x).
Definition two_fun (g : F -> F) (p : F * F) : F * F := (g (fst p), g (snd p)).
Definition two_agg (g : list F -> F) (l : list (F * F)) : F * F := (g (map fst l), g (map snd l)).
Definition two_obj (o : obj F) : obj (F * F) := Obj (map two (o_buf o)) (o_idx o) (o_str o).
Definition two_objs (o : obj (list F)) : obj (list (F * F)) := Obj (map (map two) (o_buf o)) (o_idx o) (o_str o).

Definition two_conv (c : conv_cfg F) : conv_cfg (F * F) :=
  {| ck := ck c; cs := cs c; cp := cp c; cW i := two_fun (cW c i); cb := option_map two (cb c);
     cmode := cmode c; cfill := cfill c |}.
Definition two_pool (c : pool_cfg F) : pool_cfg (F * F) :=
  {| pk := pk c; ps := ps c; pp := pp c; pd := pd c; psp := two_fun (psp c); pagg := two_agg (pagg c);
     pfill := pfill c; pmode := pmode c; pfdil := pfdil c |}.
Definition two_cell (f : hid F -> F -> hid F * F) (h : hid (F * F)) (x : F * F) : hid (F * F) * (F * F) :=
  let '(h1, y1) := f (map fst h) (fst x) in
  let '(h2, y2) := f (map snd h) (snd x) in (combine h1 h2, (y1, y2)).
Definition two_rnn (c : rnn_cfg F) : rnn_cfg (F * F) :=
  {| r_cells := map two_cell (r_cells c); r_h0 := map two (r_h0 c) |}.
Definition two_red (r : red F) : red (F * F) :=
  {| r_op a b := (r_op r (fst a) (fst b), r_op r (snd a) (snd b)); r_bcast := r_bcast r; r_min2 := r_min2 r |}.

(** The frame operations of [m] applied to each of two streams; a Conditional
    looks at the first stream (it is excluded below). *)
Fixpoint two_md (m : md F) : md (F * F) :=
  match m with
  | MDelay d f sh o => MDelay d f sh (two_obj o)
  | MSkip n o => MSkip n o
  | MConv c o => MConv (two_conv c) (two_objs o)
  | MPool c o => MPool (two_pool c) (two_obj o)
  | MMap g => MMap (two_fun g)
  | MRnn c o => MRnn (two_rnn c) (option_map (map (map two)) o)
  | MSeq ms => MSeq (map two_md ms)
  | MBroadcast n => MBroadcast n
  | MPar ms => MPar (map two_md ms)
  | MDispatch d => MDispatch d
  | MReduce r => MReduce (two_red r)
  | MBR ms r => MBR (map two_md ms) (two_red r)
  | MCond p D R a b => MCond (fun v => p (val_map fst v)) D R (two_md a) (option_map two_md b)
  end.

(** The size of the hidden state does not depend on the values. *)
Definition cell_len (f : hid F -> F -> hid F * F) : Prop :=
  forall h h' x x', length h = length h' -> length (fst (f h x)) = length (fst (f h' x')).

Fixpoint cells_len (m : md F) : Prop :=
  match m with
  | MRnn c _ => Forall cell_len (r_cells c)
  | MSeq ms | MPar ms | MBR ms _ => allP cells_len ms
  | MCond _ _ _ a b => cells_len a /\ match b with Some x => cells_len x | None => True end
  | _ => True
  end.

(* ------------------------------------------------------------------ *)
(** ** Linear networks *)

Definition additive (g : F -> F) : Prop := forall x y, g (fadd x y) = fadd (g x) (g y).
Definition plus (p : F * F) : F := fadd (fst p) (snd p).

(** Convolutions without bias, pools and reductions that are sums, linear maps
    between frames, no minus-infinity padding, nothing recurrent, no Conditional. *)
Fixpoint linear (m : md F) : Prop :=
  match m with
  | MDelay _ f _ _ => f <> NegInf
  | MConv c _ => cmode c <> NegInf /\ cfill c <> NegInf /\ cb c = None /\ forall i, additive (cW c i)
  | MPool c _ => pmode c <> NegInf /\ pfill c <> NegInf /\ additive (psp c) /\
      forall l : list (F * F), pagg c (map plus l) = fadd (pagg c (map fst l)) (pagg c (map snd l))
  | MMap g => additive g
  | MReduce r => forall a b c d, r_op r (fadd a b) (fadd c d) = fadd (r_op r a c) (r_op r b d)
  | MSeq ms | MPar ms => allP linear ms
  | MBR ms r => allP linear ms /\ forall a b c d, r_op r (fadd a b) (fadd c d) = fadd (r_op r a c) (r_op r b d)
  | MRnn _ _ | MCond _ _ _ _ _ => False
  | _ => True
  end.

(* ------------------------------------------------------------------ *)
(** ** Equivariant networks *)

Variable h : F -> F.
Definition commutes (g : F -> F) : Prop := forall x, g (h x) = h (g x).
Definition fill_ok (f : fill) : Prop := f = NegInf -> h finf = finf.

(** Every frame operation of the network commutes with [h]. *)
Fixpoint equivariant (m : md F) : Prop :=
  match m with
  | MDelay _ f _ _ => fill_ok f
  | MConv c _ => fill_ok (cmode c) /\ fill_ok (cfill c) /\ (forall b, cb c = Some b -> h b = b) /\ forall i, commutes (cW c i)
  | MPool c _ => fill_ok (pmode c) /\ fill_ok (pfill c) /\ commutes (psp c) /\ forall l, pagg c (map h l) = h (pagg c l)
  | MMap g => commutes g
  | MRnn c _ => map h (r_h0 c) = r_h0 c /\
      Forall (fun f => forall k x, f (map h k) (h x) = (map h (fst (f k x)), h (snd (f k x)))) (r_cells c)
  | MReduce r => forall a b, r_op r (h a) (h b) = h (r_op r a b)
  | MSeq ms | MPar ms => allP equivariant ms
  | MBR ms r => allP equivariant ms /\ forall a b, r_op r (h a) (h b) = h (r_op r a b)
  | MCond p _ _ a b => (forall v, p (val_map h v) = p v) /\ equivariant a /\ match b with Some x => equivariant x | None => True end
  | _ => True
  end.
End Batch.
