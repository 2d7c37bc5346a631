(** Networks forget: two states of a network that differ in the contents of their
    buffers only cannot be told apart after [receptive_field - 1] common frames. *)
From Coq Require Import List ZArith Bool Arith Lia ZifyBool ZifyNat.
From Verif Require Import Base Frames CoMod Leaf Rnn Net Spec LeafSpec Ring LeafProof NetSpec NetOk Calls NetDef NetProps NetCore.
From Verif Require Import NetRel RelProof NetFwd NetPad Reload.
Import ListNotations.
Ltac Zify.zify_post_hook ::= Z.div_mod_to_equations.

(* ------------------------------------------------------------------ *)
(** ** Ring buffers *)
Section Slots.
Context {B : Type}.
Implicit Types b c : list B.

(** The slots written in the last [j] steps hold the same. *)
Definition agree (tot j : nat) (idx : Z) b c : Prop :=
  length b = tot /\ length c = tot /\
  forall i, (1 <= i <= Z.of_nat j)%Z ->
    nth_error b (Z.to_nat ((idx - i) mod Z.of_nat tot)) = nth_error c (Z.to_nat ((idx - i) mod Z.of_nat tot)).

Lemma agree_step tot j idx b c x : 0 < tot -> agree tot j idx b c ->
  agree tot (S j) (idx + 1) (set_nth b (Z.to_nat (idx mod Z.of_nat tot)) x) (set_nth c (Z.to_nat (idx mod Z.of_nat tot)) x).
Proof.
  intros Ht (Lb & Lc & H). unfold agree. rewrite !length_set_nth. split; [auto|]. split; [auto|]. intros i Hi.
  assert (W : Z.to_nat (idx mod Z.of_nat tot) < tot) by (pose proof (Z.mod_pos_bound idx (Z.of_nat tot)); lia).
  rewrite !nth_error_set_nth by lia. destruct (Nat.eqb_spec (Z.to_nat (idx mod Z.of_nat tot)) (Z.to_nat ((idx + 1 - i) mod Z.of_nat tot))) as [E|E]; [reflexivity|].
  replace (idx + 1 - i)%Z with (idx - (i - 1))%Z in * by lia. apply H.
  destruct (Z.eq_dec i 1) as [->|]; [|lia]. exfalso. apply E. f_equal. f_equal. lia.
Qed.

Lemma agree_mod tot j idx idx' b c : (idx mod Z.of_nat tot = idx' mod Z.of_nat tot)%Z -> agree tot j idx b c -> agree tot j idx' b c.
Proof.
  intros E (Lb & Lc & H). split; [auto|]. split; [auto|]. intros i Hi. specialize (H i Hi).
  rewrite Zminus_mod, <- E, <- Zminus_mod. exact H.
Qed.

Lemma agree_but tot j idx b c q : 0 < tot -> tot - 1 <= j -> agree tot j idx b c ->
  q <> Z.to_nat (idx mod Z.of_nat tot) -> nth_error b q = nth_error c q.
Proof.
  intros Ht Hj (Lb & Lc & H) Hq. destruct (Nat.ltb_spec q tot) as [L|L].
  - set (i := ((idx - Z.of_nat q) mod Z.of_nat tot)%Z).
    assert (Bi : (0 <= i < Z.of_nat tot)%Z) by (apply Z.mod_pos_bound; lia).
    assert (Eq : ((idx - i) mod Z.of_nat tot = Z.of_nat q)%Z).
    { subst i. rewrite Zminus_mod_idemp_r. replace (idx - (idx - Z.of_nat q))%Z with (Z.of_nat q) by lia. apply Z.mod_small. lia. }
    assert (i <> 0)%Z.
    { intros E. apply Hq. rewrite E, Z.sub_0_r in Eq. rewrite Eq. lia. }
    specialize (H i ltac:(lia)). rewrite Eq, Nat2Z.id in H. exact H.
  - rewrite !(proj2 (nth_error_None _ _)) by lia. reflexivity.
Qed.

Lemma nth_error_ext' b : forall c, (forall q, nth_error b q = nth_error c q) -> b = c.
Proof.
  induction b as [|x b IH]; intros [|y c] H; auto; try (specialize (H 0); discriminate).
  f_equal; [specialize (H 0); simpl in H; congruence|]. apply IH. intros q. exact (H (S q)).
Qed.

Lemma agree_all tot j idx b c : 0 < tot -> tot <= j -> agree tot j idx b c -> b = c.
Proof.
  intros Ht Hj H. apply nth_error_ext'. intros q.
  destruct (Nat.eq_dec q (Z.to_nat (idx mod Z.of_nat tot))) as [E|E]; [|apply (agree_but tot j idx); auto; lia].
  destruct H as (Lb & Lc & H). specialize (H (Z.of_nat tot) ltac:(lia)).
  replace ((idx - Z.of_nat tot) mod Z.of_nat tot)%Z with (idx mod Z.of_nat tot)%Z in H; [rewrite E; exact H|].
  replace (idx - Z.of_nat tot)%Z with (idx + (-1) * Z.of_nat tot)%Z by lia. now rewrite Z_mod_plus_full.
Qed.

Lemma agree_0 tot idx b c : length b = tot -> length c = tot -> agree tot 0 idx b c.
Proof. intros. split; [auto|]. split; [auto|]. intros i Hi. lia. Qed.

Lemma set_nth_but b c q x : length b = length c -> (forall p, p <> q -> nth_error b p = nth_error c p) ->
  set_nth b q x = set_nth c q x.
Proof.
  revert b c. induction q as [|q IH]; intros [|y b] [|z c] L H; try discriminate; auto; cbn [set_nth]; f_equal.
  - apply nth_error_ext'. intros p. exact (H (S p) ltac:(lia)).
  - specialize (H 0 ltac:(lia)). simpl in H. congruence.
  - apply IH; [simpl in L; lia|]. intros p Hp. exact (H (S p) ltac:(lia)).
Qed.
End Slots.

Section Forget.
Context {F : Type} {FA : Frames F}.
Implicit Types m : md F.
Implicit Types ms : list (md F).

(** Frames that are remembered besides the newest one. *)
Fixpoint lag m : nat :=
  match m with
  | MDelay d _ sh _ => match sh with ShTrue => 2 * d | _ => d end
  | MSkip n _ => n
  | MConv c _ => ck c - 1
  | MPool c _ => pk c - 1
  | MSeq ms => fold_right (fun m a => lag m + per m * a) 0 ms
  | MBR ms _ => fold_right (fun m a => Nat.max (lag m) a) 0 ms
  | _ => 0
  end.

(** The first output is not later than it can be. *)
Fixpoint sane m : Prop :=
  match m with
  | MSeq ms | MBR ms _ => allP sane ms
  | MPool c o => pd c = 1 /\ ph m <= pk c - 1 + (ps c - 1)
  | _ => ph m <= lag m + (per m - 1)
  end.

Lemma sane_ph m : ok m -> sane m -> ph m <= lag m + (per m - 1).
Proof.
  induction m using md_ind'; intros Ho Hs; try (cbn [ok] in Ho; tauto); try exact Hs.
  - apply Hs.
  - cbn [ok sane ph lag per] in *. apply allP_Forall in Ho, Hs. induction H as [|m t Hm HF IH]; cbn [fold_right]; [lia|].
    inversion Ho; inversion Hs; subst. specialize (Hm H1 H5). specialize (IH H2 H6).
    pose proof (per_pos m H1) as P1. pose proof (per_pos (MSeq t)) as P2. cbn [ok per] in P2. rewrite allP_Forall in P2. specialize (P2 H2).
    set (a := fold_right (fun m a => ph m + per m * a) 0 t) in *. set (b := fold_right (fun m a => lag m + per m * a) 0 t) in *.
    set (p := fold_right (fun m a => per m * a) 1 t) in *. nia.
  - cbn [ok sane ph lag per] in *. destruct Ho as (Ho & Hp & _). apply allP_Forall in Ho, Hs.
    destruct ms as [|m t]; [destruct Hp|]. inversion H; inversion Ho; inversion Hs; subst. cbn [fold_right].
    specialize (H2 H6 H10). lia.
Qed.

(** Same network, same indices, other contents of the buffers. *)
Definition twin m n : Prop := rel_md (fun _ _ => True) m n /\ clean m = clean n.

(** The same, up to the slot of a pooling buffer that is written next. *)
Inductive settled : md F -> md F -> Prop :=
| st_eq m : settled m m
| st_d0 f sh o o' : settled (MDelay 0 f sh o) (MDelay 0 f sh o')
| st_pool c o o' : o_idx o = o_idx o' -> o_str o = o_str o' -> length (o_buf o) = length (o_buf o') -> o_buf o <> [] -> (0 <= o_idx o)%Z ->
    (forall q, q <> Z.to_nat (o_idx o) -> nth_error (o_buf o) q = nth_error (o_buf o') q) -> settled (MPool c o) (MPool c o')
| st_seq ms ns : Forall2 settled ms ns -> settled (MSeq ms) (MSeq ns)
| st_br ms ns r : Forall2 settled ms ns -> settled (MBR ms r) (MBR ns r).

Lemma settled_step m : forall n v w m', settled m n -> step m v true = Ok (w, m') ->
  exists n', step n v true = Ok (w, n') /\ settled m' n'.
Proof.
  induction m using md_ind'; intros m2 v w m' Hs E; inversion Hs; subst; try (exists m'; split; [exact E|constructor]).
  - cbn [step] in *. destruct v as [|x| |]; try discriminate. cbn in *. injection E as <- <-. eexists. split; [reflexivity|constructor].
  - match goal with H : o_idx o = o_idx _ |- _ => rename H into Hi end. match goal with H : o_str o = o_str _ |- _ => rename H into Ht end.
    match goal with H : length (o_buf o) = _ |- _ => rename H into Hl end.
    cbn [step] in *. destruct v as [|x| |]; try discriminate.
    assert (Eb : pool_forward_step c o' x true = pool_forward_step c o x true).
    { unfold pool_forward_step, co_forward_step. 
      assert (G : obj_get o = Some o /\ obj_get o' = Some o').
      { unfold obj_get. destruct o as [[|] i s], o' as [[|] i' s']; cbn in *; try congruence; auto; discriminate. }
      destruct G as [-> ->]. unfold pool_fstep. cbv zeta.
      assert (Eb : setz (o_buf o') (o_idx o') (psp c x) = setz (o_buf o) (o_idx o) (psp c x)).
      { unfold setz. rewrite <- Hi, <- Hl. destruct (Z.ltb_spec (o_idx o) 0); [lia|].
        destruct (Z.to_nat (o_idx o) <? length (o_buf o)); [|reflexivity]. f_equal. symmetry. apply set_nth_but; auto. }
      rewrite Eb, <- Hi, <- Ht. destruct (setz (o_buf o) (o_idx o) (psp c x)) as [b|]; [|reflexivity]. cbn [bind].
      match goal with |- context [bind (if ?q then ?a else ?d)] => destruct (if q then a else d) end; reflexivity. }
    rewrite Eb. exists m'. split; [exact E|constructor].
  - cbn [step] in *. destruct (seq_step (fun m v => step m v true) ms v) as [[w1 ms1]|] eqn:Es; [|discriminate]. cbn [bind] in E. injection E as <- <-.
    assert (G : exists ns1, seq_step (fun m v => step m v true) ns v = Ok (w1, ns1) /\ Forall2 settled ms1 ns1).
    { clear Hs. revert ns H1 v w1 ms1 Es. induction H as [|m t Hm HF IH]; intros ns H1 v w1 ms1 Es; inversion H1; subst; cbn [seq_step] in *.
      - injection Es as <- <-. eauto.
      - destruct (step m v true) as [[v1 m1]|] eqn:E1; [|discriminate]. cbn [bind] in Es.
        destruct (Hm _ _ _ _ H2 E1) as (n1 & -> & S1). cbn [bind]. destruct (is_none v1).
        + injection Es as <- <-. eexists. split; [reflexivity|]. constructor; auto.
        + destruct (seq_step _ t v1) as [[v2 t2]|] eqn:E2; [|discriminate]. cbn [bind] in Es. injection Es as <- <-.
          destruct (IH _ H4 _ _ _ E2) as (u & -> & S2). cbn [bind]. eexists. split; [reflexivity|]. constructor; auto. }
    destruct G as (ns1 & -> & S1). cbn [bind]. eexists. split; [reflexivity|]. now constructor.
  - cbn [step] in *. destruct (br_run (fun m v => step m v true) ms v) as [[w1 ms1]|] eqn:Es; [|discriminate]. cbn [bind] in E.
    assert (G : exists ns1, br_run (fun m v => step m v true) ns v = Ok (w1, ns1) /\ Forall2 settled ms1 ns1).
    { clear Hs E. revert ns H3 w1 ms1 Es. induction H as [|m t Hm HF IH]; intros ns H3 w1 ms1 Es; inversion H3; subst; cbn [br_run] in *.
      - injection Es as <- <-. eauto.
      - destruct (step m v true) as [[v1 m1]|] eqn:E1; [|discriminate]. cbn [bind] in Es.
        destruct (Hm _ _ _ _ H1 E1) as (n1 & -> & S1). cbn [bind].
        destruct (br_run _ t v) as [[v2 t2]|] eqn:E2; [|discriminate]. cbn [bind] in Es. injection Es as <- <-.
        destruct (IH _ H4 _ _ eq_refl) as (u & -> & S2). cbn [bind]. eexists. split; [reflexivity|]. constructor; auto. }
    destruct G as (ns1 & -> & S1). cbn [bind]. destruct (if forallb is_tensor w1 then reduce_vals r w1 else Ok VNone) as [w2|]; [|discriminate].
    cbn [bind] in *. injection E as <- <-. eexists. split; [reflexivity|]. now constructor.
Qed.

Lemma settled_feed xs : forall m n ys m', settled m n -> feed (nstep true) m xs = Ok (ys, m') ->
  exists n', feed (nstep true) n xs = Ok (ys, n') /\ settled m' n'.
Proof.
  induction xs as [|x xs IH]; intros m n ys m' Hs E; cbn [feed] in *.
  - injection E as <- <-. eauto.
  - unfold nstep at 1 in E. unfold nstep at 1. destruct (step m (VT x) true) as [[v m1]|] eqn:E1; [|discriminate].
    destruct (settled_step _ _ _ _ _ Hs E1) as (n1 & -> & S1). cbn [bind] in *.
    destruct v; try discriminate; cbn [bind] in *;
      (destruct (feed (nstep true) m1 xs) as [[zs m2]|] eqn:E2; [|discriminate]); cbn [bind] in E; injection E as <- <-;
      destruct (IH _ _ _ _ S1 E2) as (n2 & -> & S2); cbn [bind]; eauto.
Qed.

(* ------------------------------------------------------------------ *)
(** ** What stays the same *)

Lemma lag_clean m : lag (clean m) = lag m /\ per (clean m) = per m.
Proof.
  induction m using md_ind'; cbn [clean lag per]; auto.
  - induction H as [|m t [Hm1 Hm2] HF [IH1 IH2]]; cbn [map fold_right]; rewrite ?Hm1, ?Hm2, ?IH1, ?IH2; auto.
  - split.
    + induction H as [|m t [Hm1 Hm2] HF IH]; cbn [map fold_right]; auto.
    + destruct H as [|m t [_ Hm] HF]; auto.
Qed.

Lemma lag_eq m n : clean m = clean n -> lag m = lag n.
Proof. intros E. rewrite <- (proj1 (lag_clean m)), <- (proj1 (lag_clean n)). now rewrite E. Qed.

Lemma ok_cond_free m : ok m -> cond_free m.
Proof.
  induction m using md_ind'; intros Ho; try exact I; try (cbn [ok] in Ho; tauto).
  - cbn [ok cond_free] in *. apply allP_Forall in Ho. apply allP_Forall. induction H; inversion Ho; subst; auto.
  - cbn [ok cond_free] in *. destruct Ho as [Ho _]. apply allP_Forall in Ho. apply allP_Forall. induction H; inversion Ho; subst; auto.
Qed.

Lemma step_ok m x v m' : ok m -> step m (VT x) true = Ok (v, m') -> exists y, v = of_opt y /\ ok m' /\ per m' = per m /\ ph m' = nxt (per m) (ph m).
Proof.
  intros Ho E. destruct (step_good m Ho x) as (y & m1 & E1 & _ & O1 & P1 & _ & P2). rewrite E in E1. injection E1 as -> ->. eauto.
Qed.

Lemma nxt_le p h b : h <= b + (p - 1) -> nxt p h <= b + (p - 1).
Proof. unfold nxt. destruct h; lia. Qed.

Lemma sane_step m : forall x v m', ok m -> sane m -> step m (VT x) true = Ok (v, m') -> sane m'.
Proof.
  induction m using md_ind'; intros x v m' Ho Hs E; try (cbn [ok] in Ho; tauto);
    pose proof (step_ok _ _ _ _ Ho E) as (y & Ev & Ho' & Hp & Hh).
  1,2,3,5,6: pose proof (lag_eq _ _ (proj1 (clean_step _ (ok_cond_free _ Ho) _ _ _ _ E))) as Hl;
    cbn [step] in E; (try (match type of E with bind ?r _ = _ => destruct r as [[? ?]|]; [|discriminate] end)); cbn [bind] in E;
    injection E as _ <-; cbn [sane] in Hs |- *; apply nxt_le in Hs; lia.
  - cbn [step] in E. destruct (pool_forward_step c o x true) as [[? ?]|]; [|discriminate]. cbn [bind] in E. injection E as _ <-.
    destruct Hs as [Hd Hs]. split; [exact Hd|]. rewrite Hh. cbn [per]. now apply nxt_le.
  - cbn [ok sane step] in *. apply allP_Forall in Ho, Hs. clear Ev Ho' Hp Hh.
    destruct (seq_step (fun m v => step m v true) ms (VT x)) as [[w ms1]|] eqn:Es; [|discriminate]. cbn [bind] in E. injection E as _ <-.
    cbn [sane]. apply allP_Forall. revert x w ms1 Es. induction H as [|m t Hm HF IH]; intros x w ms1 Es; cbn [seq_step] in Es.
    + injection Es as _ <-. constructor.
    + inversion Ho; inversion Hs; subst. destruct (step m (VT x) true) as [[v1 m1]|] eqn:E1; [|discriminate]. cbn [bind] in Es.
      pose proof (Hm x _ _ H1 H5 E1) as S1. destruct (step_ok _ _ _ _ H1 E1) as (z & -> & _).
      destruct z as [z|]; cbn [of_opt is_none] in Es.
      * destruct (seq_step _ t (VT z)) as [[v2 t2]|] eqn:E2; [|discriminate]. cbn [bind] in Es. injection Es as _ <-.
        constructor; [exact S1|]. exact (IH H2 H6 _ _ _ E2).
      * injection Es as _ <-. constructor; auto.
  - cbn [ok sane step] in *. destruct Ho as [Ho _]. apply allP_Forall in Ho, Hs. clear Ev Ho' Hp Hh.
    destruct (br_run (fun m v => step m v true) ms (VT x)) as [[w ms1]|] eqn:Es; [|discriminate]. cbn [bind] in E.
    destruct (if forallb is_tensor w then reduce_vals r w else Ok VNone); [|discriminate]. cbn [bind] in E. injection E as _ <-.
    cbn [sane]. apply allP_Forall. revert w ms1 Es. induction H as [|m t Hm HF IH]; intros w ms1 Es; cbn [br_run] in Es.
    + injection Es as _ <-. constructor.
    + inversion Ho; inversion Hs; subst. destruct (step m (VT x) true) as [[v1 m1]|] eqn:E1; [|discriminate]. cbn [bind] in Es.
      pose proof (Hm x _ _ H1 H5 E1) as S1. destruct (br_run _ t (VT x)) as [[v2 t2]|] eqn:E2; [|discriminate]. cbn [bind] in Es. injection Es as _ <-.
      constructor; [exact S1|]. exact (IH H2 H6 _ _ eq_refl).
Qed.

Lemma nstep_step m x y m' : nstep true m x = Ok (y, m') -> step m (VT x) true = Ok (of_opt y, m').
Proof.
  unfold nstep. destruct (step m (VT x) true) as [[v m1]|]; [|discriminate]. cbn [bind].
  destruct v; intros E; try discriminate; injection E as <- <-; reflexivity.
Qed.

Lemma sane_feed xs : forall m ys m', ok m -> sane m -> feed (nstep true) m xs = Ok (ys, m') -> sane m'.
Proof.
  induction xs as [|x xs IH]; intros m ys m' Ho Hs E; cbn [feed] in E; [injection E as _ <-; auto|].
  destruct (nstep true m x) as [[y m1]|] eqn:E1; [|discriminate]. cbn [bind] in E.
  destruct (feed (nstep true) m1 xs) as [[zs m2]|] eqn:E2; [|discriminate]. cbn [bind] in E. injection E as _ <-.
  apply nstep_step in E1. destruct (step_ok _ _ _ _ Ho E1) as (_ & _ & Ho1 & _). exact (IH m1 zs m2 Ho1 (sane_step _ _ _ _ Ho Hs E1) E2).
Qed.

Lemma feed_ok xs m ys m' : ok m -> feed (nstep true) m xs = Ok (ys, m') ->
  ok m' /\ per m' = per m /\ map is_some ys = pat (ph m) (per m) (length xs).
Proof.
  intros Ho E. destruct (feed_good xs m Ho) as (ys1 & m1 & E1 & H). rewrite E in E1. injection E1 as -> ->. exact H.
Qed.

Lemma feed_clean xs : forall m ys m', ok m -> feed (nstep true) m xs = Ok (ys, m') -> clean m' = clean m.
Proof.
  induction xs as [|x xs IH]; intros m ys m' Ho E; cbn [feed] in E; [injection E as _ <-; auto|].
  destruct (nstep true m x) as [[y m1]|] eqn:E1; [|discriminate]. cbn [bind] in E.
  destruct (feed (nstep true) m1 xs) as [[zs m2]|] eqn:E2; [|discriminate]. cbn [bind] in E. injection E as _ <-.
  apply nstep_step in E1. destruct (step_ok _ _ _ _ Ho E1) as (_ & _ & Ho1 & _).
  rewrite (IH _ _ _ Ho1 E2). apply (clean_step _ (ok_cond_free _ Ho) _ _ _ _ E1).
Qed.

(** Emissions of a module that has already started. *)
Lemma ph_after xs : forall m ys m', ok m -> feed (nstep true) m xs = Ok (ys, m') ->
  ph m <= length xs + (per m - 1) -> ph m' <= per m' - 1.
Proof.
  induction xs as [|x xs IH]; intros m ys m' Ho E H; cbn [feed] in E; [injection E as _ <-; cbn [length] in H; lia|].
  destruct (nstep true m x) as [[y m1]|] eqn:E1; [|discriminate]. cbn [bind] in E.
  destruct (feed (nstep true) m1 xs) as [[zs m2]|] eqn:E2; [|discriminate]. cbn [bind] in E. injection E as _ <-.
  apply nstep_step in E1. destruct (step_ok _ _ _ _ Ho E1) as (_ & _ & Ho1 & Hp & Hh). apply (IH _ _ _ Ho1 E2).
  rewrite Hp, Hh. unfold nxt. destruct (ph m); cbn [length] in H; lia.
Qed.

Lemma emissions m xs ys m' k : ok m -> feed (nstep true) m xs = Ok (ys, m') -> ph m <= per m - 1 ->
  per m * k <= length xs -> k <= length (somes ys).
Proof.
  intros Ho E H L. destruct (feed_len m xs ys m' Ho E) as (_ & -> & _). pose proof (per_pos m Ho).
  unfold cnt. destruct k as [|k]; [lia|]. destruct (Nat.leb_spec (length xs) (ph m)); [nia|].
  assert (k <= (length xs - 1 - ph m) / per m); [|lia]. apply Nat.div_le_lower_bound; nia.
Qed.

(** Feeding as many frames to both keeps them twins. *)
Lemma twin_feed xs : forall ys m n us m' vs n', length xs = length ys -> ok m -> ok n -> twin m n ->
  feed (nstep true) m xs = Ok (us, m') -> feed (nstep true) n ys = Ok (vs, n') ->
  twin m' n' /\ map is_some us = map is_some vs.
Proof.
  induction xs as [|x xs IH]; intros [|y ys] m n us m' vs n' L Hm Hn Ht Em En; try discriminate; cbn [feed] in *.
  - injection Em as <- <-. injection En as <- <-. auto.
  - destruct (nstep true m x) as [[u m1]|] eqn:E1; [|discriminate]. destruct (nstep true n y) as [[v n1]|] eqn:E2; [|discriminate]. cbn [bind] in *.
    destruct (feed (nstep true) m1 xs) as [[us1 m2]|] eqn:E3; [|discriminate]. destruct (feed (nstep true) n1 ys) as [[vs1 n2]|] eqn:E4; [|discriminate].
    cbn [bind] in *. injection Em as <- <-. injection En as <- <-. apply nstep_step in E1, E2. destruct Ht as [R C].
    pose proof (r_step (fun _ _ => True) (Build_rel_frames _ I) m n (VT x) (VT y) true R (rv_t _ _ _ I)) as G. rewrite E1, E2 in G. inversion G as [? ? [G1 G2]|]; subst.
    cbn [fst snd] in G1, G2. destruct (step_ok _ _ _ _ Hm E1) as (_ & _ & O1 & _). destruct (step_ok _ _ _ _ Hn E2) as (_ & _ & O2 & _).
    destruct (IH ys m1 n1 us1 m2 vs1 n2) as [I1 I2]; auto.
    { split; [exact G2|]. rewrite (proj1 (clean_step _ (ok_cond_free _ Hm) _ _ _ _ E1)), (proj1 (clean_step _ (ok_cond_free _ Hn) _ _ _ _ E2)). exact C. }
    split; [exact I1|]. cbn [map]. f_equal; [|exact I2]. destruct u, v; cbn [of_opt] in G1; inversion G1; reflexivity.
Qed.

(* ------------------------------------------------------------------ *)
(** ** Leaves forget *)

Lemma rel_obj_len {A} (S : A -> A -> Prop) o o' : rel_obj S o o' -> length (o_buf o) = length (o_buf o').
Proof. intros (H & _). exact (F2_length _ _ _ H). Qed.

Lemma rel_obj_nil {A} (S : A -> A -> Prop) (o o' : obj A) : rel_obj S o o' -> o_buf o = [] -> o = o'.
Proof.
  intros (H & Hi & Hs) E. rewrite E in H. inversion H as [E'|]. destruct o, o'. cbn in *. congruence.
Qed.

(** One step of a leaf with a ring buffer of [tot] slots. *)
Definition leaf_step {B} (tot : nat) (stp : obj B -> F -> res (option F * obj B)) : Prop :=
  forall o x y o1, length (o_buf o) = tot -> stp o x = Ok (y, o1) ->
    exists row, o1 = Obj (set_nth (o_buf o) (Z.to_nat (o_idx o mod Z.of_nat tot)) (row x)) (o_idx o1) (o_str o1) /\
      (o_idx o1 mod Z.of_nat tot = (o_idx o + 1) mod Z.of_nat tot)%Z /\
      forall o' y' o1', length (o_buf o') = tot -> o_idx o' = o_idx o -> o_str o' = o_str o -> stp o' x = Ok (y', o1') ->
        o1' = Obj (set_nth (o_buf o') (Z.to_nat (o_idx o mod Z.of_nat tot)) (row x)) (o_idx o1) (o_str o1).

Lemma leaf_feed {B} tot (stp : obj B -> F -> res (option F * obj B)) : 0 < tot -> leaf_step tot stp ->
  forall xs o o' j us o1 vs o1', agree tot j (o_idx o) (o_buf o) (o_buf o') -> o_idx o = o_idx o' -> o_str o = o_str o' ->
    feed stp o xs = Ok (us, o1) -> feed stp o' xs = Ok (vs, o1') ->
    agree tot (j + length xs) (o_idx o1) (o_buf o1) (o_buf o1') /\ o_idx o1 = o_idx o1' /\ o_str o1 = o_str o1'.
Proof.
  intros Ht Hs. induction xs as [|x xs IH]; intros o o' j us o1 vs o1' A Hi Hr E E'; cbn [feed] in *.
  - injection E as _ <-. injection E' as _ <-. rewrite Nat.add_0_r. auto.
  - destruct (stp o x) as [[y p]|] eqn:E1; [|discriminate]. destruct (stp o' x) as [[y' p']|] eqn:E2; [|discriminate]. cbn [bind] in *.
    destruct (feed stp p xs) as [[zs q]|] eqn:E3; [|discriminate]. destruct (feed stp p' xs) as [[zs' q']|] eqn:E4; [|discriminate]. cbn [bind] in *.
    injection E as _ <-. injection E' as _ <-. pose proof A as (Lb & Lc & _).
    destruct (Hs o x y p Lb E1) as (row & Ep & Em & Ho). specialize (Ho o' y' p' Lc (eq_sym Hi) (eq_sym Hr) E2).
    replace (j + length (x :: xs)) with (S j + length xs) by (cbn [length]; lia).
    apply (IH p p' (S j) zs q zs' q'); auto; try (rewrite Ho; reflexivity).
    apply (agree_mod _ _ (o_idx o + 1)); [now rewrite Em|].
    rewrite Ho. cbn [o_buf]. rewrite Ep. cbn [o_buf]. now apply agree_step.
Qed.

Lemma obj_get_full {B} (o : obj B) n : length (o_buf o) = S n -> obj_get o = Some o.
Proof. unfold obj_get. destruct (o_buf o); [discriminate|reflexivity]. Qed.

Lemma setz_inv {A} (l : list A) i x l' : setz l i x = Ok l' -> l' = set_nth l (Z.to_nat i) x.
Proof.
  unfold setz. destruct (i <? 0)%Z; [discriminate|]. destruct (_ <? _); [|discriminate]. now injection 1 as <-.
Qed.

Lemma delay_leaf d f sh : 0 < d -> leaf_step d (fun o x => delay_forward_step d f sh o x true).
Proof.
  intros Hd o x y o1 L E. exists (fun x => x). destruct d as [|d']; [lia|]. set (d := S d') in *.
  assert (G : forall o y o1, length (o_buf o) = d -> delay_forward_step d f sh o x true = Ok (y, o1) ->
     o1 = Obj (set_nth (o_buf o) (Z.to_nat (o_idx o mod Z.of_nat d)) x)
            (if Z.ltb 0 (o_idx o + 1) then ((o_idx o + 1) mod Z.of_nat d)%Z else (o_idx o + 1)%Z) (o_str o)).
  { clear. intros o y o1 L E. unfold delay_forward_step, co_forward_step, delay_fstep in E. rewrite (obj_get_full o d' L) in E.
    replace (d =? 0) with false in E by reflexivity. cbv zeta in E.
    destruct (if (0 <=? o_idx o)%Z then _ else _) as [out|]; [|discriminate]. cbn [bind] in E.
    destruct (setz (o_buf o) (o_idx o mod Z.of_nat d) x) as [b|] eqn:Es; [|discriminate]. cbn [bind obj_set] in E. injection E as _ <-.
    now rewrite (setz_inv _ _ _ _ Es). }
  rewrite (G o y o1 L E). cbn [o_buf o_idx o_str]. split; [reflexivity|]. split.
  - destruct (Z.ltb 0 (o_idx o + 1)); [|reflexivity]. apply Z.mod_mod. lia.
  - intros o' y' o1' L' Hi Hr E'. rewrite (G o' y' o1' L' E'), Hi, Hr. reflexivity.
Qed.

Lemma conv_leaf c : 2 <= ck c -> leaf_step (ck c - 1) (fun o x => conv_forward_step c o x true).
Proof.
  intros Hk o x y o1 L E. 
  assert (Es : conv_stateless c = false) by (unfold conv_stateless; lia).
  assert (G : exists row, forall o y o1, length (o_buf o) = ck c - 1 -> conv_forward_step c o x true = Ok (y, o1) ->
     o1 = Obj (set_nth (o_buf o) (Z.to_nat (o_idx o)) row) ((o_idx o + 1) mod Z.of_nat (ck c - 1))%Z
            (if Z.ltb 0 (o_str o + 1) then ((o_str o + 1) mod Z.of_nat (cs c))%Z else (o_str o + 1)%Z) /\ (0 <= o_idx o < Z.of_nat (ck c - 1))%Z).
  { destruct (xp <- pad_time Zeros (ck c - 1) [x] ;; xcorr (cW c) None (ck c) 1 xp) as [zs|] eqn:Ez.
    - exists (skipn 1 zs). clear -Hk Es Ez. intros o y o1 L E. unfold conv_forward_step, co_forward_step, conv_fstep in E.
      rewrite (obj_get_full o (ck c - 2)) in E by lia. rewrite Es in E.
      destruct (pad_time Zeros (ck c - 1) [x]) as [xp|]; [|discriminate]. cbn [bind] in *. rewrite Ez in E. cbn [bind] in E.
      destruct (getz zs 0) as [xo|]; [|discriminate]. cbn [bind] in E. cbv zeta in E.
      destruct (if (o_str o =? Z.of_nat (cs c) - 1)%Z then _ else _) as [out|]; [|discriminate]. cbn [bind] in E.
      replace (1 <? ck c) with true in E by lia. destruct (setz (o_buf o) (o_idx o) (skipn 1 zs)) as [b|] eqn:Eb; [|discriminate].
      cbn [bind obj_set] in E. injection E as _ <-. rewrite (setz_inv _ _ _ _ Eb). split; [reflexivity|].
      unfold setz in Eb. destruct (Z.ltb_spec (o_idx o) 0); [discriminate|]. destruct (Nat.ltb_spec (Z.to_nat (o_idx o)) (length (o_buf o))); [|discriminate]. lia.
    - exfalso. unfold conv_forward_step, co_forward_step, conv_fstep in E. rewrite (obj_get_full o (ck c - 2)) in E by lia. rewrite Es in E.
      destruct (pad_time Zeros (ck c - 1) [x]) as [xp|]; [|discriminate]. cbn [bind] in *. rewrite Ez in E. discriminate. }
  destruct G as [row G]. exists (fun _ => row). destruct (G o y o1 L E) as [-> B]. cbn [o_buf o_idx o_str].
  rewrite (Z.mod_small (o_idx o)) by lia. split; [reflexivity|]. split; [apply Z.mod_mod; lia|].
  intros o' y' o1' L' Hi Hr E'. destruct (G o' y' o1' L' E') as [-> _]. now rewrite Hi, Hr.
Qed.

Lemma pool_leaf c : 0 < pk c -> pd c = 1 -> leaf_step (pk c) (fun o x => pool_forward_step c o x true).
Proof.
  intros Hk Hd o x y o1 L E. exists (psp c).
  assert (G : forall o y o1, length (o_buf o) = pk c -> pool_forward_step c o x true = Ok (y, o1) ->
     o1 = Obj (set_nth (o_buf o) (Z.to_nat (o_idx o)) (psp c x)) ((o_idx o + 1) mod Z.of_nat (pk c))%Z
            (if Z.ltb 0 (o_str o + 1) then ((o_str o + 1) mod Z.of_nat (ps c))%Z else (o_str o + 1)%Z) /\ (0 <= o_idx o < Z.of_nat (pk c))%Z).
  { clear -Hk Hd. intros o y o1 L E. unfold pool_forward_step, co_forward_step, pool_fstep in E.
    rewrite (obj_get_full o (pk c - 1)) in E by lia. cbv zeta in E.
    destruct (setz (o_buf o) (o_idx o) (psp c x)) as [b|] eqn:Eb; [|discriminate]. cbn [bind] in E.
    destruct (if (o_str o =? Z.of_nat (ps c) - 1)%Z then _ else _) as [out|]; [|discriminate]. cbn [bind obj_set] in E. injection E as _ <-.
    rewrite (setz_inv _ _ _ _ Eb). split; [reflexivity|].
    unfold setz in Eb. destruct (Z.ltb_spec (o_idx o) 0); [discriminate|]. destruct (Nat.ltb_spec (Z.to_nat (o_idx o)) (length (o_buf o))); [|discriminate]. lia. }
  destruct (G o y o1 L E) as [-> B]. cbn [o_buf o_idx o_str].
  rewrite (Z.mod_small (o_idx o)) by lia. split; [reflexivity|]. split; [apply Z.mod_mod; lia|].
  intros o' y' o1' L' Hi Hr E'. destruct (G o' y' o1' L' E') as [-> _]. now rewrite Hi, Hr.
Qed.

Lemma feed_leaf {B} (mk : obj B -> md F) (stp : obj B -> F -> res (option F * obj B)) :
  (forall o x, step (mk o) (VT x) true = bind (stp o x) (fun p => let '(y, o1) := p in Ok (of_opt y, mk o1))) ->
  forall xs o ys m', feed (nstep true) (mk o) xs = Ok (ys, m') -> exists o1, m' = mk o1 /\ feed stp o xs = Ok (ys, o1).
Proof.
  intros H. induction xs as [|x xs IH]; intros o ys m' E; cbn [feed] in *.
  - injection E as <- <-. eauto.
  - unfold nstep at 1 in E. rewrite H in E. destruct (stp o x) as [[y o1]|]; [|discriminate]. cbn [bind] in *.
    assert (E' : bind (feed (nstep true) (mk o1) xs) (fun p => let '(ys, o2) := p in Ok (y :: ys, o2)) = Ok (ys, m')) by (destruct y; exact E).
    destruct (feed (nstep true) (mk o1) xs) as [[zs m2]|] eqn:E2; [|discriminate]. cbn [bind] in E'. injection E' as <- <-.
    destruct (IH _ _ _ E2) as (o2 & -> & ->). cbn [bind]. eauto.
Qed.

Definition forgets m : Prop := forall n ys us m' vs n', ok m -> ok n -> sane m -> rnn_free m -> twin m n ->
  lag m <= length ys -> feed (nstep true) m ys = Ok (us, m') -> feed (nstep true) n ys = Ok (vs, n') -> settled m' n'.

Lemma settled_same m ys us m' vs n' :
  feed (nstep true) m ys = Ok (us, m') -> feed (nstep true) m ys = Ok (vs, n') -> settled m' n'.
Proof. intros E1 E2. rewrite E1 in E2. injection E2 as _ <-. constructor. Qed.

Lemma forgets_delay d f sh o : forgets (MDelay d f sh o).
Proof.
  intros n ys us m' vs n' Om On Sm _ [R C] L E1 E2. inversion R as [? ? ? ? o' _ Ro| | | | | | | | | | | |]; subst. cbn [ok] in Om, On.
  destruct (feed_leaf (MDelay d f sh) (fun o x => delay_forward_step d f sh o x true) (fun _ _ => eq_refl) _ _ _ _ E1) as (o1 & -> & F1).
  destruct (feed_leaf (MDelay d f sh) (fun o x => delay_forward_step d f sh o x true) (fun _ _ => eq_refl) _ _ _ _ E2) as (o2 & -> & F2).
  destruct (Nat.eq_dec d 0) as [->|Hd]; [constructor|].
  destruct Om as [|[Eb|[Lb _]]]; [lia| |].
  - rewrite <- (rel_obj_nil _ _ _ Ro Eb) in F2. rewrite F1 in F2. injection F2 as _ <-. constructor.
  - pose proof (rel_obj_len _ _ _ Ro) as Ll. destruct Ro as (_ & Hi & Hs).
    destruct (leaf_feed d _ ltac:(lia) (delay_leaf d f sh ltac:(lia)) ys o o' 0 us o1 vs o2) as (A & Ei & Et); auto.
    { apply agree_0; congruence. }
    apply agree_all in A; [|lia|cbn [lag] in L; destruct sh; lia]. destruct o1, o2. cbn in *. subst. constructor.
Qed.

Lemma forgets_conv c o : forgets (MConv c o).
Proof.
  intros n ys us m' vs n' Om On Sm _ [R C] L E1 E2. inversion R as [| | ? c' ? o' _ Ro| | | | | | | | | |]; subst. cbn [ok clean] in Om, On, C. injection C as <-.
  destruct (feed_leaf (MConv c) (fun o x => conv_forward_step c o x true) (fun _ _ => eq_refl) _ _ _ _ E1) as (o1 & -> & F1).
  destruct (feed_leaf (MConv c) (fun o x => conv_forward_step c o x true) (fun _ _ => eq_refl) _ _ _ _ E2) as (o2 & -> & F2).
  destruct Om as [_ [Eb|(Hk & Lb & _)]].
  - rewrite <- (rel_obj_nil _ _ _ Ro Eb) in F2. rewrite F1 in F2. injection F2 as _ <-. constructor.
  - pose proof (rel_obj_len _ _ _ Ro) as Ll. destruct Ro as (_ & Hi & Hs).
    destruct (leaf_feed (ck c - 1) _ ltac:(lia) (conv_leaf c Hk) ys o o' 0 us o1 vs o2) as (A & Ei & Et); auto.
    { apply agree_0; congruence. }
    apply agree_all in A; [|lia|cbn [lag] in L; lia]. destruct o1, o2. cbn in *. subst. constructor.
Qed.

Lemma forgets_pool c o : forgets (MPool c o).
Proof.
  intros n ys us m' vs n' Om On Sm _ [R C] L E1 E2. pose proof (feed_ok _ _ _ _ Om E1) as (Om' & _).
  inversion R as [| | |? c' ? o' _ Ro| | | | | | | | |]; subst. cbn [ok clean] in Om, On, C. injection C as <-.
  destruct (feed_leaf (MPool c) (fun o x => pool_forward_step c o x true) (fun _ _ => eq_refl) _ _ _ _ E1) as (o1 & -> & F1).
  destruct (feed_leaf (MPool c) (fun o x => pool_forward_step c o x true) (fun _ _ => eq_refl) _ _ _ _ E2) as (o2 & -> & F2).
  destruct Sm as [Hd _]. destruct Om as [Rc Om]. pose proof (pr_k _ Rc) as Hk. assert (Eb : pool_buflen c = pk c) by (unfold pool_buflen; rewrite Hd; lia).
  destruct Om as [En|(Lb & _)].
  - rewrite <- (rel_obj_nil _ _ _ Ro En) in F2. rewrite F1 in F2. injection F2 as _ <-. constructor.
  - pose proof (rel_obj_len _ _ _ Ro) as Ll. destruct Ro as (_ & Hi & Hs).
    destruct (leaf_feed (pk c) _ ltac:(lia) (pool_leaf c ltac:(lia) Hd) ys o o' 0 us o1 vs o2) as (A & Ei & Et); auto.
    { apply agree_0; congruence. }
    cbn [ok] in Om'. destruct A as (L1 & L2 & A). destruct Om' as [_ [En|(_ & B & _)]]; [rewrite En in L1; cbn in L1; lia|].
    apply st_pool; auto; try lia.
    { intros En. rewrite En in L1. cbn in L1. lia. }
    intros q Hq. apply (agree_but (pk c) (0 + length ys) (o_idx o1)); try (cbn [lag] in L; lia); [split; auto|].
    now rewrite Z.mod_small by lia.
Qed.

Lemma settled_refl ms : Forall2 settled ms ms.
Proof. induction ms; constructor; auto; constructor. Qed.

Lemma settled_seq ms ns : settled (MSeq ms) (MSeq ns) -> Forall2 settled ms ns.
Proof. intros H. inversion H; subst; auto. apply settled_refl. Qed.

Lemma feed_seq_inv m t xs us n' : ok m -> allP ok t -> feed (nstep true) (MSeq (m :: t)) xs = Ok (us, n') ->
  exists ys m' zs t', feed (nstep true) m xs = Ok (ys, m') /\ feed (nstep true) (MSeq t) (somes ys) = Ok (zs, MSeq t') /\
    n' = MSeq (m' :: t') /\ us = spread ys zs.
Proof.
  intros Hm Ht E. destruct (feed_good xs m Hm) as (ys & m' & E1 & _). destruct (feed_good (somes ys) (MSeq t) Ht) as (zs & t0 & E2 & _).
  destruct (feed_seq_shape _ _ _ _ E2) as (t' & ->). destruct (feed_seq_cons _ _ _ _ _ _ _ E1 E2) as [E3 _].
  rewrite E in E3. injection E3 as -> ->. do 4 eexists. eauto.
Qed.

Lemma feed_split {O} (st : O -> F -> res (option F * O)) o xs ys us o' : feed st o (xs ++ ys) = Ok (us, o') ->
  exists ua o1 ub, feed st o xs = Ok (ua, o1) /\ feed st o1 ys = Ok (ub, o') /\ us = ua ++ ub.
Proof.
  rewrite feed_app. destruct (feed st o xs) as [[ua o1]|]; [|discriminate]. cbn [bind fst snd].
  destruct (feed st o1 ys) as [[ub o2]|] eqn:E; [|discriminate]. cbn [bind fst snd]. injection 1 as <- <-. eauto 7.
Qed.

Lemma length_somes_eq (us vs : list (option F)) : map is_some us = map is_some vs -> length (somes us) = length (somes vs).
Proof.
  revert vs. induction us as [|[u|] us IH]; intros [|[v|] vs] E; try discriminate; cbn in *; auto; injection E as E; rewrite ?(IH _ E); auto.
Qed.

Lemma rnn_free_clean m : rnn_free (clean m) <-> rnn_free m.
Proof.
  induction m using md_ind'; cbn [clean rnn_free]; try tauto.
  all: induction H; cbn [map allP fold_right] in *; tauto.
Qed.

(** All states of a network. *)
Definition always (P : md F -> Prop) m : Prop := forall a, clean a = clean m -> P a.

Lemma forgets_seq ms : Forall (always forgets) ms -> always forgets (MSeq ms).
Proof.
  induction 1 as [|m0 t0 Hm HF IH]; intros a Ea n ys us m' vs n' Om On Sm Rm [R C] L E1 E2;
    (destruct a as [| | | | | |l| | | | | |]; try discriminate Ea); cbn [clean map] in Ea; injection Ea as Ea;
    (destruct l as [|m t]; try discriminate Ea).
  - inversion R as [| | | | | |? ? HR| | | | | |]; subst. inversion HR; subst. eapply settled_same; eauto.
  - cbn [map] in Ea. injection Ea as Ea1 Ea2. specialize (Hm m Ea1).
    inversion R as [| | | | | |? ? HR| | | | | |]; subst. inversion HR as [|? n ? t2 Rn Rt]; subst.
    cbn [ok sane rnn_free allP fold_right] in Om, On, Sm, Rm. destruct Om as [Om Ot], On as [On Ot2], Sm as [Sm St], Rm as [Rm Rf].
    change (ok (MSeq t)) in Ot. change (ok (MSeq t2)) in Ot2. change (sane (MSeq t)) in St. change (rnn_free (MSeq t)) in Rf.
    cbn [clean map] in C. injection C as C1 C2.
    destruct (feed_seq_inv _ _ _ _ _ Om Ot E1) as (u1 & m1 & w1 & t1 & F1 & G1 & -> & ->).
    destruct (feed_seq_inv _ _ _ _ _ On Ot2 E2) as (u2 & n1 & w2 & t3 & F2 & G2 & -> & ->).
    cbn [lag fold_right] in L. rewrite <- (firstn_skipn (lag m) ys) in F1, F2.
    destruct (feed_split _ _ _ _ _ _ F1) as (ua & ma & ub & Fa & Fb & ->). destruct (feed_split _ _ _ _ _ _ F2) as (va & na & vb & Ga & Gb & ->).
    assert (La : length (firstn (lag m) ys) = lag m) by (rewrite firstn_length; lia).
    assert (Sa : settled ma na) by (apply (Hm n (firstn (lag m) ys) ua ma va na); auto; [split; auto|lia]).
    destruct (settled_feed _ _ _ _ _ Sa Fb) as (nb & Gb' & Sb). rewrite Gb in Gb'. injection Gb' as <- <-.
    destruct (twin_feed (firstn (lag m) ys) (firstn (lag m) ys) m n ua ma va na eq_refl Om On (conj Rn C1) Fa Ga) as [_ Hsame].
    rewrite somes_app in G1, G2.
    destruct (feed_split _ _ _ _ _ _ G1) as (xa & ta & xb & Ha & Hb & ->). destruct (feed_split _ _ _ _ _ _ G2) as (za & tb & zb & Ka & Kb & ->).
    destruct (twin_feed (somes ua) (somes va) (MSeq t) (MSeq t2) xa ta za tb) as [Tt _]; auto.
    { now apply length_somes_eq. }
    { split; [constructor; exact Rt|]. cbn [clean]. now rewrite C2. }
    destruct (feed_seq_shape _ _ _ _ Ha) as (ta' & ->). destruct (feed_seq_shape _ _ _ _ Ka) as (tb' & ->).
    assert (Hl : lag (MSeq ta') <= length (somes vb)).
    { rewrite (lag_eq _ _ (feed_clean _ _ _ _ Ot Ha)). destruct (feed_ok _ _ _ _ Om Fa) as (Oa & Pa & _). apply (emissions ma (skipn (lag m) ys) vb m1); auto.
      - apply (ph_after _ _ _ _ Om Fa). rewrite La. now apply sane_ph.
      - rewrite Pa, skipn_length. cbn [lag]. lia. }
    constructor. constructor; [exact Sb|]. apply settled_seq.
    assert (Ct : clean (MSeq ta') = clean (MSeq t)) by exact (feed_clean _ _ _ _ Ot Ha).
    apply (IH (MSeq ta') ltac:(rewrite Ct; cbn [clean]; now rewrite Ea2) (MSeq tb') (somes vb) xb (MSeq t1) zb (MSeq t3)); auto.
    + apply (feed_ok _ _ _ _ Ot Ha).
    + apply (feed_ok _ _ _ _ Ot2 Ka).
    + exact (sane_feed _ _ _ _ Ot St Ha).
    + rewrite <- rnn_free_clean, Ct, rnn_free_clean. exact Rf.
Qed.

Lemma forgets_br ms r : Forall (always forgets) ms -> always forgets (MBR ms r).
Proof.
  intros HF a Ea n ys us m' vs n' Om On Sm Rm [R C] L E1 E2.
  destruct a as [| | | | | | | | | | |l r1|]; try discriminate Ea. cbn [clean map] in Ea. injection Ea as Ea ->.
  inversion R as [| | | | | | | | | | |? l2 ? r2 HR _|]; subst. cbn [clean] in C. injection C as C <-.
  cbn [ok sane rnn_free] in Om, On, Sm, Rm. destruct Om as (Om & Hm & M2), On as (On & Hn & _). apply allP_Forall in Om, On, Sm, Rm.
  assert (G : exists ps qs, Forall2 (fun m p => feed (nstep true) m ys = Ok p) l ps /\ Forall2 (fun m p => feed (nstep true) m ys = Ok p) l2 qs /\
     Forall2 settled (map snd ps) (map snd qs)).
  { clear E1 E2 R Hm Hn M2. cbn [lag] in L. revert ms HF Ea C. 
    induction HR as [|m n t t2 Rm1 Rt IH]; intros ms HF Ea C.
    - exists [], []. repeat split; constructor.
    - inversion Om; inversion On; inversion Sm; inversion Rm; subst. cbn [fold_right] in L. destruct ms as [|m0 ms]; [discriminate|]. cbn [map] in *.
      injection Ea as Ea1 Ea2. injection C as C1 C2. inversion HF as [|? ? Hf HF']; subst.
      destruct IH with (ms := ms) as (ps & qs & I1 & I2 & I3); auto; [lia|].
      destruct (feed_good ys m ltac:(assumption)) as (u & m1 & F1 & _). destruct (feed_good ys n ltac:(assumption)) as (v & n1 & F2 & _).
      exists ((u, m1) :: ps), ((v, n1) :: qs). split; [constructor; auto|]. split; [constructor; auto|]. cbn [map snd]. constructor; [|exact I3].
      apply (Hf m Ea1 n ys u m1 v n1); auto; [split; auto|lia]. }
  destruct G as (ps & qs & Fp & Fq & Sp). 
  rewrite (feed_br ys r l ps) in E1; auto; [|intros ->; exact Hm]. injection E1 as _ <-.
  rewrite (feed_br ys r l2 qs) in E2; auto.
  - injection E2 as _ <-. now constructor.
  - intros ->. exact Hn.
  - intros H2. rewrite <- (F2_length _ _ _ HR). auto.
Qed.

Theorem forget m : forgets m.
Proof.
  assert (G : always forgets m); [|apply G; reflexivity].
  induction m using md_ind'; try (apply forgets_seq; exact H); try (apply forgets_br; exact H);
    intros a Ea; destruct a as [| | | | | | | | | | | |]; try discriminate Ea;
    try apply forgets_delay; try apply forgets_conv; try apply forgets_pool;
    intros n' ys us m' vs n1 Om On Sm Rm [Rel Cl] L E1 E2; try (cbn [ok rnn_free] in Om, Rm; tauto).
  - inversion Rel; subst. eapply settled_same; eauto.
  - inversion Rel; subst. cbn [clean] in Cl. injection Cl as <-. eapply settled_same; eauto.
Qed.

End Forget.
