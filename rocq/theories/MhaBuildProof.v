(** Proofs for C87. *)
From Coq Require Import List ZArith Bool Arith Lia.
From Verif Require Import Base Attn Tensor TensorProof MhaBuild.
Import ListNotations.

Section P.
Context {K : Type} {SC : Scal K}.

Lemma expands_refl sh : expands sh sh = true.
Proof. induction sh as [|a sh IH]; [reflexivity|]. cbn [expands]. rewrite Nat.eqb_refl. exact IH. Qed.
Lemma pin_in sh ix : inr ix sh -> map2 (fun a i => if a =? 1 then 0 else i) sh ix = ix.
Proof.
  induction 1 as [|i n ix sh H _ IH]; [reflexivity|]. cbn [map2]. rewrite IH. f_equal. destruct (Nat.eqb_spec n 1); lia.
Qed.
Lemma copy_same sh (d s : @param K) : fst d = sh -> shaped sh s -> copy_ d s = Ok s.
Proof.
  intros Hd [Hs L]. destruct s as [sh' x]. cbn [fst snd] in *. subst sh'. unfold copy_. cbn [fst snd]. rewrite Hd, expands_refl. f_equal. f_equal.
  etransitivity; [|apply tab_at; exact L]. apply tab_ext. intros ix Hx. rewrite pin_in by exact Hx. reflexivity.
Qed.
Lemma copy_fail (d s : @param K) : expands (fst s) (fst d) = false -> copy_ d s = Err RuntimeError.
Proof. intros H. unfold copy_. rewrite H. reflexivity. Qed.

(** A copy of a parameter that the source has with flag [b] into one with flag [b']. *)
Lemma copy_opt_same b b' sh (d : @param K) s : fst d = sh -> present b sh s ->
  copy_opt (opt b' d) s = if b then (if b' then Ok s else Err AttributeError) else Ok (opt b' d).
Proof.
  intros Hd Hp. destruct s as [s|]; cbn [present] in Hp.
  - destruct Hp as [-> Hs]. destruct b'; cbn [opt copy_opt]; [|reflexivity]. rewrite (copy_same sh) by assumption. reflexivity.
  - subst b. reflexivity.
Qed.
Lemma given_present b sh (s : option (@param K)) : present b sh s -> given s = b.
Proof. destruct s as [s|]; cbn; [intros [-> _]; reflexivity|intros ->; reflexivity]. Qed.

Lemma divides e h : h <> 0 -> (exists n, e = n * h) -> (e / h * h =? e) = true.
Proof. intros H (n & ->). rewrite Nat.div_mul by exact H. apply Nat.eqb_refl. Qed.

Lemma build_sizes a p kw rnd : made a p -> keeps_sizes kw ->
  let a' := arguments a p kw in
  mha_build a p kw rnd =
    if a_heads a' =? 0 then Err ZeroDivisionError
    else if negb (a_embed a / a_heads a' * a_heads a' =? a_embed a) then Err AssertionError
    else if (a_bias a && negb (a_bias a')) || (a_bias_kv a && negb (a_bias_kv a')) then Err AttributeError
    else Ok (a', {| p_in := p_in p; p_q := p_q p; p_k := p_k p; p_v := p_v p;
      p_inb := if a_bias a then p_inb p else opt (a_bias a') (zeros_of [3 * a_embed a]);
      p_out := p_out p;
      p_outb := if a_bias a then p_outb p else opt (a_bias a') (zeros_of [a_embed a]);
      p_bk := if a_bias_kv a then p_bk p else opt (a_bias_kv a') (random rnd 5 [1; 1; a_embed a]);
      p_bv := if a_bias_kv a then p_bv p else opt (a_bias_kv a') (random rnd 6 [1; 1; a_embed a]) |}).
Proof.
  intros M (K1 & K2 & K3). cbv zeta. unfold mha_build. set (a' := arguments a p kw).
  assert (E1 : a_embed a' = a_embed a) by (unfold a', arguments; cbn [a_embed]; rewrite K1; reflexivity).
  assert (E2 : a_kdim a' = a_kdim a) by (unfold a', arguments; cbn [a_kdim]; rewrite K2; reflexivity).
  assert (E3 : a_vdim a' = a_vdim a) by (unfold a', arguments; cbn [a_vdim]; rewrite K3; reflexivity).
  assert (E4 : same_dims a' = same_dims a) by (unfold same_dims; rewrite E1, E2, E3; reflexivity).
  unfold construct. rewrite E1, E2, E3, E4. destruct (a_heads a' =? 0); [reflexivity|].
  destruct (negb (a_embed a / a_heads a' * a_heads a' =? a_embed a)); [reflexivity|]. cbn [bind p_in p_q p_k p_v p_inb p_out p_outb p_bk p_bv].
  destruct M as [_ M1 M2 M3 M4 M5 M6 M7 M8 M9].
  rewrite (copy_opt_same (same_dims a) (same_dims a) [3 * a_embed a; a_embed a]) by (reflexivity || exact M1).
  rewrite (copy_opt_same (negb (same_dims a)) (negb (same_dims a)) [a_embed a; a_embed a]) by (reflexivity || exact M2).
  rewrite (copy_opt_same (negb (same_dims a)) (negb (same_dims a)) [a_embed a; a_kdim a]) by (reflexivity || exact M3).
  rewrite (copy_opt_same (negb (same_dims a)) (negb (same_dims a)) [a_embed a; a_vdim a]) by (reflexivity || exact M4).
  rewrite (copy_opt_same (a_bias a) (a_bias a') [3 * a_embed a]) by (reflexivity || exact M5).
  rewrite (copy_same [a_embed a; a_embed a]) by (reflexivity || exact M6).
  rewrite (copy_opt_same (a_bias a) (a_bias a') [a_embed a]) by (reflexivity || exact M7).
  rewrite (copy_opt_same (a_bias_kv a) (a_bias_kv a') [1; 1; a_embed a]) by (reflexivity || exact M8).
  rewrite (copy_opt_same (a_bias_kv a) (a_bias_kv a') [1; 1; a_embed a]) by (reflexivity || exact M9).
  assert (N : forall s : option (@param K), present (same_dims a) [3 * a_embed a; a_embed a] s -> same_dims a = false -> s = None)
    by (intros [s|] H H'; [destruct H; congruence|reflexivity]).
  assert (N' : forall sh (s : option (@param K)), present (negb (same_dims a)) sh s -> same_dims a = true -> s = None)
    by (intros sh [s|] H H'; [destruct H as [H _]; rewrite H' in H; discriminate H|reflexivity]).
  destruct (same_dims a) eqn:S; cbn [negb bind opt] in *.
  - rewrite (N' _ _ M2 eq_refl), (N' _ _ M3 eq_refl), (N' _ _ M4 eq_refl).
    destruct (a_bias a), (a_bias a'), (a_bias_kv a), (a_bias_kv a'); reflexivity.
  - rewrite (N _ M1 eq_refl).
    destruct (a_bias a), (a_bias a'), (a_bias_kv a), (a_bias_kv a'); reflexivity.
Qed.

Lemma build_plain a p rnd : made a p -> mha_build a p no_kwargs rnd = Ok (a, p).
Proof.
  intros M. rewrite build_sizes; [|exact M|repeat split]. cbv zeta.
  assert (E : arguments a p no_kwargs = a).
  { unfold arguments, no_kwargs. cbn. rewrite (given_present _ _ _ (md_inb _ _ M)), (given_present _ _ _ (md_bk _ _ M)). destruct a. reflexivity. }
  rewrite E. destruct (md_heads _ _ M) as [H0 H1]. rewrite (proj2 (Nat.eqb_neq _ _) H0), divides by assumption. cbn [negb].
  replace (a_bias a && negb (a_bias a) || a_bias_kv a && negb (a_bias_kv a)) with false by (destruct (a_bias a), (a_bias_kv a); reflexivity).
  destruct M as [_ _ _ _ _ M5 _ M7 M8 M9]. f_equal. f_equal. destruct p as [w q k v b o ob bk bv]. cbn [p_in p_q p_k p_v p_inb p_out p_outb p_bk p_bv] in *.
  assert (X : forall f sh (s : option (@param K)) d, present f sh s -> (if f then s else opt f d) = s).
  { intros f sh [s|] d H; cbn [present] in H; [destruct H as [-> _]; reflexivity|subst f; reflexivity]. }
  rewrite (X _ _ _ _ M5), (X _ _ _ _ M7), (X _ _ _ _ M8), (X _ _ _ _ M9). reflexivity.
Qed.

Lemma kdim_shared a p k rnd : made a p -> same_dims a = true -> k <> a_embed a -> mha_build a p (with_kdim k) rnd = Err AttributeError.
Proof.
  intros M S Hk. unfold mha_build, construct. set (a' := arguments a p (with_kdim k)).
  assert (E : same_dims a' = false) by (unfold same_dims, a'; cbn; rewrite (proj2 (Nat.eqb_neq _ _) Hk); reflexivity).
  assert (E1 : a_embed a' = a_embed a) by reflexivity. assert (E4 : a_heads a' = a_heads a) by reflexivity.
  rewrite E, E1, E4. clearbody a'. destruct (md_heads _ _ M) as [H0 H1]. rewrite (proj2 (Nat.eqb_neq _ _) H0), divides by assumption.
  cbn [negb bind p_in opt]. pose proof (md_in _ _ M) as Hi. destruct (p_in p) as [w|]; [reflexivity|]. cbn [present] in Hi. congruence.
Qed.

Lemma kdim_separate a p k rnd : made a p -> same_dims a = false -> (k = a_embed a -> a_vdim a <> a_embed a) -> k <> a_kdim a ->
  if a_kdim a =? 1 then
    exists q kp kp', mha_build a p (with_kdim k) rnd = Ok q /\ p_k p = Some kp /\ p_k (snd q) = Some kp'
      /\ p_q (snd q) = p_q p /\ p_v (snd q) = p_v p
      /\ forall i j, i < a_embed a -> j < k ->
           at_ [a_embed a; k] (snd kp') [Z.of_nat i; Z.of_nat j] = at_ [a_embed a; 1] (snd kp) [Z.of_nat i; 0%Z]
  else mha_build a p (with_kdim k) rnd = Err RuntimeError.
Proof.
  intros M S Hs Hk. unfold mha_build, construct. set (a' := arguments a p (with_kdim k)).
  assert (E : same_dims a' = false).
  { unfold same_dims, a'. cbn [arguments with_kdim or_else o_embed o_kdim o_vdim a_embed a_kdim a_vdim].
    destruct (Nat.eqb_spec k (a_embed a)) as [Ek|]; [|reflexivity]. cbn [andb]. apply Nat.eqb_neq. apply Hs. exact Ek. }
  assert (E1 : a_embed a' = a_embed a) by reflexivity. assert (E2 : a_kdim a' = k) by reflexivity. assert (E3 : a_vdim a' = a_vdim a) by reflexivity.
  assert (E4 : a_heads a' = a_heads a) by reflexivity.
  assert (E5 : a_bias a' = a_bias a) by exact (given_present _ _ _ (md_inb _ _ M)).
  assert (E6 : a_bias_kv a' = a_bias_kv a) by exact (given_present _ _ _ (md_bk _ _ M)).
  rewrite E, E1, E2, E3, E4, E5, E6. clearbody a'. destruct (md_heads _ _ M) as [H0 H1]. rewrite (proj2 (Nat.eqb_neq _ _) H0), divides by assumption.
  cbn [negb bind p_in p_q p_k p_v p_inb p_out p_outb p_bk p_bv opt].
  destruct M as [_ M1 M2 M3 M4 M5 M6 M7 M8 M9]. rewrite S in *. cbn [negb] in *.
  destruct (p_in p) as [w|]; [destruct M1; discriminate|]. cbn [copy_opt bind].
  destruct (p_q p) as [q|]; [|discriminate M2]. destruct (p_k p) as [kp|]; [|discriminate M3]. destruct (p_v p) as [v|]; [|discriminate M4].
  destruct M2 as [_ M2]. destruct M3 as [_ M3]. destruct M4 as [_ M4]. cbn [copy_opt bind].
  rewrite (copy_same [a_embed a; a_embed a]) by (reflexivity || exact M2). cbn [bind].
  destruct M3 as [F L]. destruct kp as [sh x]. cbn [fst snd] in F, L. subst sh.
  destruct (Nat.eqb_spec (a_kdim a) 1) as [K1|K1].
  - rewrite K1 in *. unfold copy_ at 1. cbn [fst snd random expands]. rewrite Nat.eqb_refl. cbn [orb andb]. rewrite Bool.orb_true_r. cbn [andb bind].
    rewrite (copy_same [a_embed a; a_vdim a]) by (reflexivity || exact M4). cbn [bind].
    rewrite (copy_opt_same (a_bias a) (a_bias a) [3 * a_embed a]) by (reflexivity || exact M5).
    rewrite (copy_same [a_embed a; a_embed a] _ (p_out p)) by (reflexivity || exact M6).
    rewrite (copy_opt_same (a_bias a) (a_bias a) [a_embed a]) by (reflexivity || exact M7).
    rewrite (copy_opt_same (a_bias_kv a) (a_bias_kv a) [1; 1; a_embed a]) by (reflexivity || exact M8).
    rewrite (copy_opt_same (a_bias_kv a) (a_bias_kv a) [1; 1; a_embed a]) by (reflexivity || exact M9).
    destruct (a_bias a), (a_bias_kv a); cbn [bind]; (eexists; eexists; eexists; split; [reflexivity|]; split; [reflexivity|]; split; [reflexivity|]; split; [reflexivity|]; split; [reflexivity|]); intros i j Hi Hj; cbn [snd];
      (change [Z.of_nat i; Z.of_nat j] with (map Z.of_nat [i; j]); rewrite at_tab_in by (repeat constructor; assumption);
       cbn [map2 map Nat.eqb]; destruct (Nat.eqb_spec (a_embed a) 1) as [Q|Q]; [replace i with 0 by lia|]; reflexivity).
  - rewrite copy_fail; [reflexivity|]. cbn [fst random expands]. rewrite Nat.eqb_refl. cbn [orb andb].
    rewrite (proj2 (Nat.eqb_neq (a_kdim a) k)) by auto. rewrite (proj2 (Nat.eqb_neq (a_kdim a) 1) K1). reflexivity.
Qed.

(** The constructor makes such modules. *)
Lemma construct_made a rnd p : construct a rnd = Ok p -> made a p.
Proof.
  unfold construct. destruct (Nat.eqb_spec (a_heads a) 0) as [|H]; [discriminate|].
  destruct (Nat.eqb_spec (a_embed a / a_heads a * a_heads a) (a_embed a)) as [E|]; [|discriminate]. cbn [negb].
  intros X. assert (P : forall x y : mha_params (K := K), Ok x = Ok y -> x = y) by (intros x y Y; congruence). apply P in X. subst p.
  assert (R : forall n sh, shaped sh (random rnd n sh)) by (intros n sh; split; [reflexivity|]; cbn [snd random]; rewrite map_length, seq_length; reflexivity).
  assert (Z : forall sh, shaped sh (zeros_of (K := K) sh)) by (intros sh; split; [reflexivity|]; cbn [snd zeros_of]; apply repeat_length).
  assert (O : forall b sh (x : @param K), shaped sh x -> present b sh (opt b x)) by (intros [] sh x Hx; cbn; auto).
  constructor; cbn [p_in p_q p_k p_v p_inb p_out p_outb p_bk p_bv]; auto. split; [exact H|]. exists (a_embed a / a_heads a). symmetry. exact E.
Qed.

Lemma bind_ok {A B} (r : res A) (f : A -> res B) y : bind r f = Ok y -> exists x, f x = Ok y.
Proof. destruct r as [x|]; cbn [bind]; [intros H; exists x; exact H|discriminate]. Qed.
Lemma build_arguments a p kw rnd a' q : mha_build a p kw rnd = Ok (a', q) -> a' = arguments a p kw.
Proof.
  unfold mha_build. set (b := arguments a p kw). clearbody b. intros H.
  repeat (apply bind_ok in H; let x := fresh in destruct H as [x H]). congruence.
Qed.
End P.
