(** C87: conversion of an nn.MultiheadAttention. *)
From Coq Require Import List ZArith Bool Arith Lia.
From Verif Require Import Base Attn Tensor MhaBuild MhaBuildProof PTensor.
Import ListNotations.
Open Scope nat_scope.

(** build_from without keyword arguments: the continual module has the arguments and the parameters
    of the module, whatever it was initialised with, and the constructor makes modules of this kind. *)
Theorem C87_same_module :
  forall (K : Type) (SC : Scal K) (a : mha_args K) p rnd, made a p -> mha_build a p no_kwargs rnd = Ok (a, p).
Proof. intros. apply build_plain. assumption. Qed.
Print Assumptions C87_same_module.
Theorem C87_constructed :
  forall (K : Type) (SC : Scal K) (a : mha_args K) rnd rnd' p, construct a rnd = Ok p -> mha_build a p no_kwargs rnd' = Ok (a, p).
Proof. intros K SC a rnd rnd' p H. apply build_plain. eapply construct_made. exact H. Qed.
Print Assumptions C87_constructed.

(** Keyword arguments that leave the sizes: a bias (or bias_k and bias_v) that the module has cannot
    be left out; one that it does not have starts from zero (bias_k and bias_v from random numbers);
    all other parameters are those of the module, for another number of heads too. *)
Theorem C87_keyword_arguments :
  forall (K : Type) (SC : Scal K) (a : mha_args K) p kw rnd, made a p -> keeps_sizes kw ->
    let a' := arguments a p kw in
    mha_build a p kw rnd =
      if a_heads a' =? 0 then Err ZeroDivisionError
      else if negb (a_embed a / a_heads a' * a_heads a' =? a_embed a) then Err AssertionError
      else if (a_bias a && negb (a_bias a')) || (a_bias_kv a && negb (a_bias_kv a')) then Err AttributeError
      else Ok (a', {| p_in := p_in p; p_q := p_q p; p_k := p_k p; p_v := p_v p;
        p_inb := if a_bias a then p_inb p else opt (a_bias a') (zeros_of [3 * a_embed a]);
        p_out := p_out p;
        p_outb := if a_bias a then p_outb p else opt (a_bias a') (zeros_of [a_embed a]);
        p_bk := if a_bias_kv a then p_bk p else opt (a_bias_kv a') (random rnd 5 [1; 1; a_embed a]);
        p_bv := if a_bias_kv a then p_bv p else opt (a_bias_kv a') (random rnd 6 [1; 1; a_embed a]) |}).
Proof. intros. apply build_sizes; assumption. Qed.
Print Assumptions C87_keyword_arguments.

(** Of every keyword argument the converted module has the value, of the others that of the module. *)
Theorem C87_arguments :
  forall (K : Type) (SC : Scal K) (a : mha_args K) p kw rnd a' q, made a p -> mha_build a p kw rnd = Ok (a', q) ->
    (forall v, o_embed kw = Some v -> a_embed a' = v) /\ (o_embed kw = None -> a_embed a' = a_embed a)
    /\ (forall v, o_heads kw = Some v -> a_heads a' = v) /\ (o_heads kw = None -> a_heads a' = a_heads a)
    /\ (forall v, o_dropout kw = Some v -> a_dropout a' = v) /\ (o_dropout kw = None -> a_dropout a' = a_dropout a)
    /\ (forall v, o_bias kw = Some v -> a_bias a' = v) /\ (o_bias kw = None -> a_bias a' = a_bias a)
    /\ (forall v, o_bias_kv kw = Some v -> a_bias_kv a' = v) /\ (o_bias_kv kw = None -> a_bias_kv a' = a_bias_kv a)
    /\ (forall v, o_zero kw = Some v -> a_zero a' = v) /\ (o_zero kw = None -> a_zero a' = a_zero a)
    /\ (forall v, o_kdim kw = Some v -> a_kdim a' = v) /\ (o_kdim kw = None -> a_kdim a' = a_kdim a)
    /\ (forall v, o_vdim kw = Some v -> a_vdim a' = v) /\ (o_vdim kw = None -> a_vdim a' = a_vdim a)
    /\ (forall v, o_bf kw = Some v -> a_bf a' = v) /\ (o_bf kw = None -> a_bf a' = a_bf a).
Proof.
  intros K SC a p kw rnd a' q M H. pose proof (given_present _ _ _ (md_inb _ _ M)) as G1. pose proof (given_present _ _ _ (md_bk _ _ M)) as G2.
  apply build_arguments in H. subst a'. cbn [arguments a_embed a_heads a_dropout a_bias a_bias_kv a_zero a_kdim a_vdim a_bf].
  repeat split; intros; match goal with E : _ = _ |- _ => rewrite E end; cbn [or_else]; auto.
Qed.
Print Assumptions C87_arguments.

(** Another kdim: AttributeError for modules with one projection matrix. *)
Theorem C87_kdim_shared :
  forall (K : Type) (SC : Scal K) (a : mha_args K) p k rnd,
    made a p -> same_dims a = true -> k <> a_embed a -> mha_build a p (with_kdim k) rnd = Err AttributeError.
Proof. intros. apply kdim_shared; assumption. Qed.
Print Assumptions C87_kdim_shared.

(** For modules with separate matrices RuntimeError, except that a matrix of one column is
    repeated without notice. *)
Theorem C87_kdim_separate_refuted :
  forall (K : Type) (SC : Scal K) (a : mha_args K) p k rnd,
    made a p -> same_dims a = false -> (k = a_embed a -> a_vdim a <> a_embed a) -> k <> a_kdim a ->
    if a_kdim a =? 1 then
      exists q kp kp', mha_build a p (with_kdim k) rnd = Ok q /\ p_k p = Some kp /\ p_k (snd q) = Some kp'
        /\ p_q (snd q) = p_q p /\ p_v (snd q) = p_v p
        /\ forall i j, i < a_embed a -> j < k ->
             at_ [a_embed a; k] (snd kp') [Z.of_nat i; Z.of_nat j] = at_ [a_embed a; 1] (snd kp) [Z.of_nat i; 0%Z]
    else mha_build a p (with_kdim k) rnd = Err RuntimeError.
Proof. intros. apply kdim_separate; assumption. Qed.
Print Assumptions C87_kdim_separate_refuted.

(** Concrete instances: two heads, keys of size 1, biases. *)
Definition ex_a : mha_args Z := {| a_embed := 2; a_heads := 2; a_dropout := 0%Z; a_bias := true; a_bias_kv := false; a_zero := false;
  a_kdim := 1; a_vdim := 2; a_bf := true |}.
Definition ex_p : mha_params (K := Z) := {| p_in := None; p_q := Some ([2; 2], [1; 2; 3; 4]%Z); p_k := Some ([2; 1], [5; 6]%Z);
  p_v := Some ([2; 2], [7; 8; 9; 1]%Z); p_inb := Some ([6], [1; 2; 3; 4; 5; 6]%Z); p_out := ([2; 2], [2; 4; 6; 8]%Z);
  p_outb := Some ([2], [3; 5]%Z); p_bk := None; p_bv := None |}.
Definition ex_rnd (n i : nat) : Z := Z.of_nat (100 * n + i).
Definition ex_kw (heads : option nat) (bias kv : option bool) : mha_kwargs Z := {| o_embed := None; o_heads := heads; o_dropout := None;
  o_bias := bias; o_bias_kv := kv; o_zero := None; o_kdim := None; o_vdim := None; o_bf := None |}.
Example C87_example :
  made ex_a ex_p
  /\ mha_build ex_a ex_p no_kwargs ex_rnd = Ok (ex_a, ex_p)
  /\ mha_build ex_a ex_p (ex_kw (Some 0) None None) ex_rnd = Err ZeroDivisionError
  /\ mha_build ex_a ex_p (ex_kw (Some 3) None None) ex_rnd = Err AssertionError
  /\ mha_build ex_a ex_p (ex_kw None (Some false) None) ex_rnd = Err AttributeError
  /\ (exists q, mha_build ex_a ex_p (ex_kw (Some 1) None (Some true)) ex_rnd = Ok q /\ a_heads (fst q) = 1
        /\ p_bk (snd q) = Some ([1; 1; 2], [500; 501]%Z) /\ p_k (snd q) = p_k ex_p)
  /\ (exists q, mha_build ex_a ex_p (with_kdim 3) ex_rnd = Ok q /\ p_k (snd q) = Some ([2; 3], [5; 5; 5; 6; 6; 6]%Z)).
Proof.
  split; [constructor; cbn; repeat split; try discriminate; exists 1; reflexivity|].
  split; [vm_compute; reflexivity|]. split; [vm_compute; reflexivity|]. split; [vm_compute; reflexivity|]. split; [vm_compute; reflexivity|].
  split; eexists; vm_compute; repeat split; reflexivity.
Qed.
