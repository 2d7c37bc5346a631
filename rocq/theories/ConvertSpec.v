(** What conversion should do, without stores and closures. *)
From Coq Require Import List Bool Arith String.
From Verif Require Import Base Convert.
Import ListNotations.
Open Scope list_scope.

(** Apply a function [n] times. *)
Fixpoint times {T} (n : nat) (f : T -> T) (a : T) : T :=
  match n with 0 => a | S n => f (times n f a) end.

(** How often forward_stepping was applied. *)
Fixpoint depth (c : clo) : nat :=
  match c with Native => 0 | WithMode c => S (depth c) end.

Section Spec.
Context {X W : Type}.
Notation tmod := (@tmod X W).

Definition every (P : tmod -> Prop) (l : list (string * tmod)) : Prop :=
  fold_right (fun km Q => P (snd km) /\ Q) True l.

(** Trees that [continual] accepts. *)
Fixpoint convertible (m : tmod) : bool :=
  match m with
  | TNaive _ => true
  | TNorm _ affine track => affine && track
  | TConv c => Nat.eqb (hd 1 (cv_d c)) 1 &&
               (String.eqb (cv_mode c) "zeros" || String.eqb (cv_mode c) "replicate")
  | TPool c => negb (Nat.eqb (hd 1 (pf_k c)) 0)
  | TLinear _ | TFunc _ => true
  | TNeedsArg | TOther _ => false
  | TSeq l => forallb (fun km => convertible (snd km)) l
  | _ => true
  end.

(** Modules whose attributes a continual module can have: convolutions of the
    default type, pools that return no indices. *)
Fixpoint faithful (m : tmod) : Prop :=
  match m with
  | TConv c => cv_dtype c = 0
  | TPool c => pf_indices c = false
  | TFunc _ => True
  | TSeq l => every faithful l
  | _ => True
  end.

(** The function that a network computes on a clip, as torch defines it: a
    composition of the layers' functions. *)
Section Plain.
Variable naive_fn : nat -> X -> res X.
Variable other_fn : nat -> X -> res X.
Variable F_conv : X -> W -> option W -> list nat -> list nat -> list nat -> nat -> nat -> res X.
Variable F_pad : list nat -> string -> X -> X.
Variable F_pool : poolf -> X -> res X.
Variable F_linear : W -> option W -> nat -> X -> res X.
Variable each_step : (X -> res X) -> X -> res X.
Fixpoint plain (m : tmod) (x : X) {struct m} : res X :=
  match m with
  | TNaive i | TNorm i _ _ => naive_fn i x
  | TConv c | CConv c =>
      if String.eqb (cv_mode c) "zeros"
      then F_conv x (cv_weight c) (cv_bias c) (cv_s c) (cv_p c) (cv_d c) (cv_g c) (cv_dtype c)
      else F_conv (F_pad (cv_p c) (cv_mode c) x) (cv_weight c) (cv_bias c) (cv_s c)
             (map (fun _ => 0) (cv_p c)) (cv_d c) (cv_g c) (cv_dtype c)
  | TPool c | CPool c => F_pool c x
  | TLinear c | CLinear c => F_linear (li_weight c) (li_bias c) (li_dtype c) x
  | TFunc f | CLambda f => each_step f x
  | TNeedsArg => Err TypeError
  | TOther i => other_fn i x
  | TSeq l | CSeq l =>
      fold_left (fun r km => y <- r ;; plain (snd km) y) l (Ok x)
  end.
End Plain.

(** How often a module occurs in the parts of a tree that are converted. *)
Fixpoint occ (i : nat) (m : tmod) : nat :=
  match m with
  | TNaive j | TNorm j _ _ => if Nat.eqb j i then 1 else 0
  | TSeq l => list_sum (map (fun km => occ i (snd km)) l)
  | _ => 0
  end.

(** The deepest wrapping of any module in a tree. *)
Fixpoint deepest (st : store) (m : tmod) : nat :=
  match m with
  | TNaive i | TNorm i _ _ => depth (a_fwd (st i))
  | TSeq l | CSeq l => list_max (map (fun km => deepest st (snd km)) l)
  | _ => 0
  end.

(** Weights with their names, as in the state dict: the path of names in containers. *)
Fixpoint named (m : tmod) : list (list string * W) :=
  match m with
  | TConv c | CConv c =>
      ([("weight"%string)], cv_weight c) ::
      match cv_bias c with Some b => [([("bias"%string)], b)] | None => [] end
  | TLinear c | CLinear c =>
      ([("weight"%string)], li_weight c) ::
      match li_bias c with Some b => [([("bias"%string)], b)] | None => [] end
  | TSeq l | CSeq l =>
      flat_map (fun km => map (fun nw => (fst km :: fst nw, snd nw)) (named (snd km))) l
  | _ => []
  end.

End Spec.
