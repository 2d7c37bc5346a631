(** Further lemmas about leaves: shapes of the results stated in the property
    files, and the configurations that go wrong. *)
From Coq Require Import List ZArith Bool Arith Lia Permutation ZifyBool ZifyNat.
From Verif Require Import Base Frames CoMod Leaf Spec LeafSpec Ring LeafProof.
Import ListNotations.
Ltac Zify.zify_post_hook ::= Z.div_mod_to_equations.

Section More.
Context {F : Type} {FA : Frames F} {FL : FrameLaws F}.
Implicit Types xs ys : list F.

Lemma delay_pad_end_thm d m sh xs : sh <> ShTrue -> xs <> [] ->
  exists o, delay_forward_steps d m sh obj_init xs true true = Ok (Some xs, o).
Proof.
  intros Hsh Hx. destruct (delay_steps_thm d m sh xs true Hx) as [o E]. exists o. rewrite E.
  do 2 f_equal. destruct (Nat.eqb_spec d 0) as [->|Hd]; auto.
  replace (delay_lim d sh) with d by (destruct sh; simpl; congruence).
  replace (length xs + d - d) with (length xs) by lia.
  rewrite Nat.sub_diag. simpl. rewrite firstn_all. destruct xs; [congruence|reflexivity].
Qed.

Lemma delay_shrink_thm d m sh xs : sh = ShTrue \/ sh = ShLagging -> xs <> [] ->
  exists o, delay_forward_steps d m sh obj_init xs false true
  = Ok (stack_outs (delay_forward d sh xs), o).
Proof.
  intros Hsh Hx. destruct (delay_steps_thm d m sh xs false Hx) as [o E]. exists o. rewrite E.
  do 2 f_equal. destruct (Nat.eqb_spec d 0) as [->|Hd].
  { destruct Hsh as [->| ->]; simpl; destruct xs; (congruence || reflexivity). }
  replace (length xs + 0 - delay_lim d sh) with (length xs - delay_lim d sh) by lia.
  f_equal. destruct Hsh as [->| ->]; unfold delay_forward, delay_lim, slice_ab;
  replace (Nat.eqb d 0) with false by lia.
  - rewrite skipn_firstn_comm. f_equal; [lia|]. f_equal. lia.
  - rewrite Nat.sub_diag. reflexivity.
Qed.

Lemma delay_steps_noshrink_thm d m xs : xs <> [] ->
  exists o, delay_forward_steps d m ShNo obj_init xs false true
  = Ok (stack_outs (firstn (length xs - d) xs), o).
Proof.
  intros Hx. destruct (delay_steps_thm d m ShNo xs false Hx) as [o E]. exists o. rewrite E.
  do 2 f_equal. destruct (Nat.eqb_spec d 0) as [->|Hd].
  - rewrite Nat.sub_0_r, firstn_all. destruct xs; [congruence|reflexivity].
  - simpl. rewrite Nat.sub_diag. simpl. do 2 f_equal. lia.
Qed.

(** *** Kernel size 1 in time with a temporal stride *)

Lemma conv_k1_fstep c x : ck c = 1 -> cp c = 0 -> 2 <= cs c -> 
  exists s, conv_fstep c x None = Ok (Some (conv1_val c x), Some s) /\ o_buf s = [].
Proof.
  intros Hk Hp Hs. unfold conv_fstep.
  assert (Es : conv_stateless c = false) by (unfold conv_stateless; lia).
  rewrite Es, Hk. cbn. unfold conv_init. rewrite Hk, Hp. cbn.
  replace (Z.eqb _ _) with true by lia. cbn.
  eexists; split; [unfold conv1_val; rewrite (fadd_0_r (fadd _ _)); reflexivity|reflexivity].
Qed.

Lemma conv_k1_feed c xs : ck c = 1 -> cp c = 0 -> 2 <= cs c ->
  forall o, o_buf o = [] ->
  exists o', feed (fun o x => conv_forward_step c o x true) o xs
  = Ok (map (fun x => Some (conv1_val c x)) xs, o').
Proof.
  intros Hk Hp Hs. induction xs as [|x xs IH]; intros o Ho; simpl; [eauto|].
  unfold conv_forward_step at 1, co_forward_step, obj_get. rewrite Ho.
  destruct (conv_k1_fstep c x Hk Hp Hs) as (s & -> & Hb). simpl.
  destruct (IH s Hb) as [o' E]. unfold obj_set. rewrite E. eexists. reflexivity.
Qed.

(** *** Pooling with any temporal dilation: when outputs appear *)

Lemma pool_dil_state c (n : nat) x buf idx : 
  1 <= pk c -> 1 <= ps c -> 1 <= pd c -> pp c <= pd c * (pk c - 1) ->
  length buf = pool_buflen c -> (0 <= idx < Z.of_nat (pk c))%Z ->
  exists o buf' idx', pool_fstep c x
     (Some (Obj buf idx (str_at (Z.of_nat (ps c) - Z.of_nat (pool_buflen c) + Z.of_nat (pp c)) (ps c) n)))
   = Ok (o, Some (Obj buf' idx' (str_at (Z.of_nat (ps c) - Z.of_nat (pool_buflen c) + Z.of_nat (pp c)) (ps c) (S n))))
   /\ length buf' = pool_buflen c /\ (0 <= idx' < Z.of_nat (pk c))%Z
   /\ (match o with Some _ => true | None => false end) = emits (pd c * (pk c - 1) - pp c) (ps c) n.
Proof.
  intros Hk Hs Hd Hp Hl Hi. unfold pool_fstep. cbn [o_buf o_idx o_str].
  assert (Hkb : pk c <= pool_buflen c) by (unfold pool_buflen; nia).
  rewrite setz_ok by lia. cbn [bind].
  pose proof (str_at_next (Z.of_nat (ps c) - Z.of_nat (pool_buflen c) + Z.of_nat (pp c)) (ps c) n) as Hn.
  cbv zeta in Hn. rewrite Hn by lia.
  assert (Ev : Z.eqb (str_at (Z.of_nat (ps c) - Z.of_nat (pool_buflen c) + Z.of_nat (pp c)) (ps c) n) (Z.of_nat (ps c) - 1)
             = emits (pd c * (pk c - 1) - pp c) (ps c) n).
  { rewrite <- str_at_valid by lia. unfold pool_buflen. do 2 f_equal. lia. }
  rewrite Ev.
  set (buf' := set_nth buf (Z.to_nat idx) (psp c x)).
  assert (Hl' : length buf' = pool_buflen c) by (unfold buf'; now rewrite length_set_nth).
  assert (Hi' : (0 <= (idx + 1) mod Z.of_nat (pk c) < Z.of_nat (pk c))%Z) by (apply Z.mod_pos_bound; lia).
  destruct (emits _ _ n).
  - destruct (Nat.eqb (pd c) 1).
    + cbn [bind]. do 3 eexists. repeat split; try eassumption; lia.
    + erewrite (mapM_ok _ (fun i => nth (Z.to_nat ((Z.of_nat (i * pd c) + (idx + 1) mod Z.of_nat (pk c)) mod Z.of_nat (length buf'))) buf' f0)).
      * cbn [bind]. do 3 eexists. repeat split; try eassumption; lia.
      * intros i _. apply getz_nth. apply Z.mod_pos_bound. lia.
  - cbn [bind]. do 3 eexists. repeat split; try eassumption; lia.
Qed.

(** For every kernel size, stride, dilation: a tensor is returned exactly at the
    steps d*(k-1)-p + j*s. *)
Lemma pool_dil_feed c xs : 1 <= pk c -> 1 <= ps c -> 1 <= pd c ->
  pp c <= pd c * (pk c - 1) ->
  exists os o, feed (fun o x => pool_forward_step c o x true) obj_init xs = Ok (os, o) /\
   map (fun o => match o with Some _ => true | None => false end) os
   = map (emits (pd c * (pk c - 1) - pp c) (ps c)) (seq 0 (length xs)).
Proof.
  intros Hk Hs Hd Hp.
  set (a := (Z.of_nat (ps c) - Z.of_nat (pool_buflen c) + Z.of_nat (pp c))%Z).
  assert (Hkb : pk c <= pool_buflen c) by (unfold pool_buflen; nia).
  assert (G : forall n buf idx, length buf = pool_buflen c -> (0 <= idx < Z.of_nat (pk c))%Z ->
    exists os o, feed (fun o x => pool_forward_step c o x true) (Obj buf idx (str_at a (ps c) n)) xs = Ok (os, o) /\
    map (fun o => match o with Some _ => true | None => false end) os
   = map (emits (pd c * (pk c - 1) - pp c) (ps c)) (seq n (length xs))).
  { induction xs as [|x xs IH]; intros n buf idx Hl Hi; simpl; [eauto|].
    unfold pool_forward_step at 1, co_forward_step, obj_get. simpl o_buf.
    destruct buf as [|b0 bt] eqn:Eb; [simpl in Hl; lia|]. rewrite <- Eb in *.
    destruct (pool_dil_state c n x buf idx) as (o & buf' & idx' & E & Hl' & Hi' & He); auto.
    fold a in E. rewrite E. simpl.
    destruct (IH (S n) buf' idx') as (os & o' & E' & Em); auto. unfold obj_set. rewrite E'. simpl.
    do 2 eexists. split; [reflexivity|]. simpl. now rewrite He, Em. }
  destruct xs as [|x xs]; [do 2 eexists; split; reflexivity|].
  assert (E0 : pool_init c (psp c x) = Obj (repeat (make_padding (pfill c) (psp c x)) (pool_buflen c)) 0 (str_at a (ps c) 0)).
  { unfold pool_init. f_equal. rewrite str_at_0 by (unfold a, pool_buflen; lia). reflexivity. }
  destruct (G 0 (repeat (make_padding (pfill c) (psp c x)) (pool_buflen c)) 0%Z) as (os & o & E & Em);
   [apply repeat_length|lia|].
  exists os, o. split; [|exact Em]. rewrite <- E. cbn [feed]. f_equal.
  rewrite <- E0. unfold pool_forward_step, co_forward_step.
  assert (Eg : obj_get (pool_init c (psp c x)) = Some (pool_init c (psp c x))).
  { unfold obj_get, pool_init. cbn [o_buf]. destruct (repeat _ _) eqn:Er; [|reflexivity].
    apply (f_equal (@length _)) in Er. rewrite repeat_length in Er. simpl in Er. lia. }
  rewrite Eg. cbn [obj_get obj_init o_buf]. unfold pool_fstep. cbv zeta.
  destruct (setz _ _ _) as [b|e]; cbn [bind]; [|reflexivity].
  match goal with |- context [bind (bind ?r _) _] => destruct r as [r0|e] end; reflexivity.
Qed.

End More.
