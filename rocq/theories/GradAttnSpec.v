(** Specification vocabulary for C81: numbers, vectors, tokens and attention modules
    that move along a curve. *)
From Coq Require Import List ZArith Bool Arith Reals.
From Verif Require Import Base Attn AttnSpec Grad GradAttn.
Import ListNotations.

(** The real numbers, with the exponential function and the quotient of analysis. *)
#[export] Instance real_num : Num R :=
  {| k0 := 0%R; k1 := 1%R; kadd := Rplus; kopp := Ropp; kmul := Rmult; kdiv := Rdiv; kexp := exp |}.

(** The number [g t] has at [t = 0] the value [pri p] and the derivative [tan p]. *)
Definition dnum (g : R -> R) (p : dual R) : Prop :=
  g 0%R = pri p /\ derivable_pt_lim g 0 (tan p).

(** A list of fixed length whose entries move. *)
Definition dlist {A B} (T : (R -> A) -> B -> Prop) (g : R -> list A) (ps : list B) : Prop :=
  exists gs, (forall t, g t = map (fun f => f t) gs) /\ Forall2 T gs ps.
Definition dvec : (R -> vec R) -> vec (dual R) -> Prop := dlist dnum.
Definition dtok (g : R -> tok R) (p : tok (dual R)) : Prop :=
  dvec (fun t => fst (fst (g t))) (fst (fst p)) /\ dvec (fun t => snd (fst (g t))) (snd (fst p)) /\
  dvec (fun t => snd (g t)) (snd p).
Definition dopt {A B} (T : (R -> A) -> B -> Prop) (g : R -> option A) (p : option B) : Prop :=
  match p with
  | Some b => exists f, (forall t, g t = Some (f t)) /\ T f b
  | None => forall t, g t = None
  end.

(** A module whose projections depend on [t], and the module with tangents. *)
Record dcfg (c : R -> cfg R) (c' : cfg (dual R)) : Prop := {
  dc_shape : forall t, c_N (c t) = c_N c' /\ c_H (c t) = c_H c' /\ c_E (c t) = c_E c';
  dc_scale : forall g p, dnum g p -> dnum (fun t => c_scale (c t) (g t)) (c_scale c' p);
  dc_q : forall g p, dvec g p -> dlist dvec (fun t => c_q (c t) (g t)) (c_q c' p);
  dc_k : forall g p, dvec g p -> dlist dvec (fun t => c_k (c t) (g t)) (c_k c' p);
  dc_v : forall g p, dvec g p -> dlist dvec (fun t => c_v (c t) (g t)) (c_v c' p);
  dc_o : forall g p, dlist dvec g p -> dvec (fun t => c_o (c t) (g t)) (c_o c' p)
}.

(** Parameters that move; sqrt(head_dim) is not zero. *)
Definition drow (g : R -> list R * R) (p : list (dual R) * dual R) : Prop :=
  dvec (fun t => fst (g t)) (fst p) /\ dnum (fun t => snd (g t)) (snd p).
Record dparams (P : R -> params R) (P' : params (dual R)) : Prop := {
  dp_i : forall j, dlist (dlist drow) (fun t => wi (P t) j) (wi P' j);
  dp_o : dlist drow (fun t => wo (P t)) (wo P');
  dp_r : dnum (fun t => rt (P t)) (rt P') /\ pri (rt P') <> 0%R
}.
