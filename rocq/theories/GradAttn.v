(** Automatic differentiation of attention, in forward mode as in Grad.v: torch
    differentiates every operation of a step (single_output_mha.py:46-117,
    retroactive_mha.py:47-144) and of a forward pass (mha_base.py:302-372). *)
From Coq Require Import List ZArith Bool Arith.
From Verif Require Import Base Attn Grad.
Import ListNotations.

Section GradAttn.
Context {K : Type} {NK : Num K}.

(** Numbers with a tangent: the rules for sums, products, quotients and the
    exponential function, which are all the operations of the step functions
    (torch.bmm, torch.sub, torch.add, torch.exp, torch.div, F.softmax). *)
#[export] Instance dual_num : Num (dual K) :=
  {| k0 := Du k0 k0; k1 := Du k1 k0;
     kadd a b := Du (kadd (pri a) (pri b)) (kadd (tan a) (tan b));
     kopp a := Du (kopp (pri a)) (kopp (tan a));
     kmul a b := Du (kmul (pri a) (pri b)) (kadd (kmul (pri a) (tan b)) (kmul (tan a) (pri b)));
     kdiv a b := Du (kdiv (pri a) (pri b))
       (kadd (kdiv (tan a) (pri b))
             (kopp (kmul (pri a) (kmul (tan b) (kmul (kdiv k1 (pri b)) (kdiv k1 (pri b)))))));
     kexp a := Du (kexp (pri a)) (kmul (kexp (pri a)) (tan a)) |}.

(** A module with numbers as parameters (mha_base.py:226-300): [wi j] are the rows
    of in_proj_weight of queries (0), keys (1) and values (2), grouped by head, with
    the entries of in_proj_bias; [wo] are the rows of out_proj.weight with the
    entries of out_proj.bias; [r] is sqrt(head_dim) (single_output_mha.py:85,
    retroactive_mha.py:92). *)
Record params := Params { wi : nat -> list (list (list K * K)); wo : list (list K * K); rt : K }.

(** A row of a linear layer: inner product with the row of the weight, plus bias. *)
Fixpoint inner (w x : list K) : K :=
  match w, x with a :: w, b :: x => kadd (kmul a b) (inner w x) | _, _ => k0 end.
Definition rows (ws : list (list K * K)) (x : list K) : list K :=
  map (fun r => kadd (inner (fst r) x) (snd r)) ws.

(** In-projection, split into heads, join of the heads and out-projection. *)
Definition param_cfg (N E : nat) (P : params) : cfg K :=
  {| c_N := N; c_H := length (wi P 0); c_E := E;
     c_scale x := kdiv x (rt P);
     c_q x := map (fun ws => rows ws x) (wi P 0);
     c_k x := map (fun ws => rows ws x) (wi P 1);
     c_v x := map (fun ws => rows ws x) (wi P 2);
     c_o hs := rows (wo P) (concat hs);
     c_bias := None; c_packed := true; c_zero_attn := false |}.

End GradAttn.
Arguments params K : clear implicits.
