(** How many operations attention takes, as closed formulas. *)
From Coq Require Import List ZArith Bool Arith.
From Verif Require Import Base Tensor TAttn Attn Count.
Import ListNotations.

Fixpoint times (n : nat) (c : cost) : cost := match n with 0 => free | S n => plus c (times n c) end.

(** F.linear from E to E features, on a number of tokens. *)
Definition project (tokens E : nat) (bias : bool) : cost :=
  Cost (tokens * E * E) (tokens * (E * (E - 1) + if bias then E else 0)) 0.

(** One head of dimension d with n keys and values: one query of the single-output
    module; one retroactive update; n queries of the ordinary attention. *)
Definition single_head (n d : nat) : cost := Cost (2 * n * d + n + d) (2 * n * d - d - 1) n.
Definition retro_head (n d : nat) : cost := Cost (7 * n * d - 3 * d) (6 * n * d - 5 * d - 1) (3 * n - 2).
Definition full_head (n d : nat) : cost := Cost (2 * n * n * d + n * d + n * n) (2 * n * n * d - n * d - n) (n * n).

(** The result of the uncounted computation, together with a cost. *)
Definition costing {A} (R : res A) (c : cost) : res (cnt A) := match R with Ok a => Ok (a, c) | Err e => Err e end.

Definition has {A} (o : option A) : bool := match o with Some _ => true | None => false end.

Section CountSpec.
Context {K : Type}.
Variable m : tattn K.
Notation N := (t_N m). Notation H := (t_H m). Notation d := (t_D m). Notation E := (t_H m * t_D m).

(** One step, and forward on a window of N tokens, for a batch of B samples. *)
Definition single_step (B : nat) : cost :=
  times B (plus (project 3 E (has (t_bin m))) (plus (times H (single_head N d)) (project 1 E (has (t_bout m))))).
Definition retro_step (B : nat) : cost :=
  times B (plus (project 3 E (has (t_bin m))) (plus (times H (retro_head N d)) (project N E (has (t_bout m))))).
Definition full_forward (B : nat) : cost :=
  times B (plus (project (3 * N) E (has (t_bin m))) (plus (times H (full_head N d)) (project N E (has (t_bout m))))).
(** forward with single_output_forward: one query, N keys and values. *)
Definition single_forward (B : nat) : cost :=
  times B (plus (project (1 + 2 * N) E (has (t_bin m))) (plus (times H (single_head N d)) (project 1 E (has (t_bout m))))).

(** No more operations of any kind. *)
Definition cheaper (a b : cost) : Prop := muls a <= muls b /\ adds a <= adds b /\ exps a <= exps b.
End CountSpec.

(** A module of the sizes [m] reports [r] multiplications for one call and one sample. *)
Local Open Scope Z_scope.
Section Reported.
Context {K : Type}.
Variable m : tattn K.
Notation n := (Z.of_nat (t_N m)). Notation H := (Z.of_nat (t_H m)). Notation E := (Z.of_nat (t_H m * t_D m)).
Definition re_reports (mode : cmode) (include_muls include_adds include_exps : bool) : res Z :=
  re_flops n E H (has (t_bin m)) mode include_muls include_adds include_exps.
Definition so_reports (single_output_forward : bool) (mode : cmode) (include_muls include_adds include_exps : bool) : res Z :=
  so_flops n E H (has (t_bin m)) single_output_forward mode include_muls include_adds include_exps.
End Reported.
