(** Specification vocabulary for C80: parameters and inputs that move along a curve. *)
From Coq Require Import List ZArith Bool Arith.
From Verif Require Import Base Frames CoMod Leaf Rnn Net Spec NetSpec Calls NetRel Grad.
Import ListNotations.

Section GradSpec.
Context {P F : Type} {FA : Frames F}.

(** [T g p]: the frame [g t], which depends on a parameter [t], has at a fixed point
    the value [pri p] and the derivative [tan p].  What a derivative is, is left open:
    the zero frame must have derivative zero, and sums are differentiated term by
    term. *)
Variable T : (P -> F) -> dual F -> Prop.
Record tangency : Prop := {
  tg_0 : T (fun _ => f0) f0;
  tg_add : forall g h p q, T g p -> T h q -> T (fun t => fadd (g t) (h t)) (fadd p q)
}.

Definition at_ (t : P) (g : P -> F) : F := g t.

Definition fill_fine (m : fill) : Prop := m = NegInf -> T (fun _ => finf) finf.

(** The components of a network that depend on [t], and their derivatives. *)
Record moves_conv (c : P -> conv_cfg F) (c' : conv_cfg (dual F)) : Prop := {
  mc_shape : forall t, ck (c t) = ck c' /\ cs (c t) = cs c' /\ cp (c t) = cp c' /\ cmode (c t) = cmode c' /\ cfill (c t) = cfill c';
  mc_mode : fill_fine (cmode c'); mc_fill : fill_fine (cfill c');
  mc_W : forall i g p, T g p -> T (fun t => cW (c t) i (g t)) (cW c' i p);
  mc_b : match cb c' with
         | Some b' => exists b, (forall t, cb (c t) = Some (b t)) /\ T b b'
         | None => forall t, cb (c t) = None
         end
}.

Record moves_pool (c : P -> pool_cfg F) (c' : pool_cfg (dual F)) : Prop := {
  mp_shape : forall t, pk (c t) = pk c' /\ ps (c t) = ps c' /\ pp (c t) = pp c' /\ pd (c t) = pd c' /\
                       pfdil (c t) = pfdil c' /\ pmode (c t) = pmode c' /\ pfill (c t) = pfill c';
  mp_mode : fill_fine (pmode c'); mp_fill : fill_fine (pfill c');
  mp_sp : forall g p, T g p -> T (fun t => psp (c t) (g t)) (psp c' p);
  mp_agg : forall gs ps, Forall2 T gs ps -> T (fun t => pagg (c t) (map (at_ t) gs)) (pagg c' ps)
}.

Definition moves_red (r : P -> red F) (r' : red (dual F)) : Prop :=
  (forall t, r_bcast (r t) = r_bcast r' /\ r_min2 (r t) = r_min2 r') /\
  forall g h p q, T g p -> T h q -> T (fun t => r_op (r t) (g t) (h t)) (r_op r' p q).

(** A recurrent cell: output and every part of the next hidden state. *)
Definition moves_cell (f : P -> hid F -> F -> hid F * F) (f' : hid (dual F) -> dual F -> hid (dual F) * dual F) : Prop :=
  (exists n, (forall t h x, length (fst (f t h x)) = n) /\ (forall h x, length (fst (f' h x)) = n)) /\
  forall hs ps g p, Forall2 T hs ps -> T g p ->
    T (fun t => snd (f t (map (at_ t) hs) (g t))) (snd (f' ps p)) /\
    forall k, T (fun t => nth k (fst (f t (map (at_ t) hs) (g t))) f0) (nth k (fst (f' ps p)) f0).

Record moves_rnn (c : P -> rnn_cfg F) (c' : rnn_cfg (dual F)) : Prop := {
  mr_cells : exists fs, (forall t, r_cells (c t) = map (fun f => f t) fs) /\ Forall2 moves_cell fs (r_cells c');
  mr_h0 : exists hs, (forall t, r_h0 (c t) = map (at_ t) hs) /\ Forall2 T hs (r_h0 c')
}.

(** [M t] is a new network whose parameters depend on [t]; [D] is the network with
    tangents. *)
Inductive moves : (P -> md F) -> md (dual F) -> Prop :=
| mv_delay d f sh : fill_fine f -> moves (fun _ => MDelay d f sh obj_init) (MDelay d f sh obj_init)
| mv_skip n o : moves (fun _ => MSkip n o) (MSkip n o)
| mv_conv c c' : moves_conv c c' -> moves (fun t => MConv (c t) obj_init) (MConv c' obj_init)
| mv_pool c c' : moves_pool c c' -> moves (fun t => MPool (c t) obj_init) (MPool c' obj_init)
| mv_map g g' : (forall x p, T x p -> T (fun t => g t (x t)) (g' p)) -> moves (fun t => MMap (g t)) (MMap g')
| mv_rnn c c' : moves_rnn c c' -> moves (fun t => MRnn (c t) None) (MRnn c' None)
| mv_seq Ms Ds : Forall2 moves Ms Ds -> moves (fun t => MSeq (map (fun M => M t) Ms)) (MSeq Ds)
| mv_bc n : moves (fun _ => MBroadcast n) (MBroadcast n)
| mv_par Ms Ds : Forall2 moves Ms Ds -> moves (fun t => MPar (map (fun M => M t) Ms)) (MPar Ds)
| mv_disp d : moves (fun _ => MDispatch d) (MDispatch d)
| mv_red r r' : moves_red r r' -> moves (fun t => MReduce (r t)) (MReduce r')
| mv_br Ms Ds r r' : Forall2 moves Ms Ds -> moves_red r r' ->
    moves (fun t => MBR (map (fun M => M t) Ms) (r t)) (MBR Ds r').

End GradSpec.

(** The tangent of output [n] of a convolution whose buffers were detached before
    frame [n0]: only frames that arrived since then contribute. *)
Section Truncated.
Context {F : Type} {FA : Frames F}.
Definition dual_at (l : list (dual F)) (m : fill) (z : Z) : dual F :=
  if Z.ltb z 0 then make_padding m (nth 0 l f0) else nth (Z.to_nat z) l f0.
Definition truncated (c : conv_cfg F) (dW : nat -> F -> F) (db : F) (l : list (dual F)) (n0 n : nat) : F :=
  let sum := fsum (map (fun i => let z := (Z.of_nat n - Z.of_nat (ck c - 1) + Z.of_nat i)%Z in
                         let p := dual_at l (cfill c) z in
                         if Z.ltb z (Z.of_nat n0) then f0 else fadd (cW c i (tan p)) (dW i (pri p)))
                       (seq 0 (ck c))) in
  match cb c with Some _ => fadd sum db | None => sum end.
End Truncated.
