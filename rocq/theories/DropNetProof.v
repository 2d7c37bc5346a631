(** Proofs for C84. *)
From Coq Require Import List ZArith Bool Arith Lia ZifyBool ZifyNat.
From Verif Require Import Base Frames CoMod Leaf Rnn Net Spec LeafSpec NetSpec NetDef LeafProof NetProps NetOk NetCore NetFwd NetPad NetAcc NetAlg NetThm Calls DropNet.
Import ListNotations.

Section Sched.
Context {A : Type}.

Fixpoint inter (os l : list (option A)) : list (option A) :=
  match os, l with
  | [], _ => []
  | None :: os, l => None :: inter os l
  | Some _ :: os, y :: l => y :: inter os l
  | Some _ :: _, [] => []
  end.
Lemma inter_app os : forall l os' l', length (somes os) = length l -> inter (os ++ os') (l ++ l') = inter os l ++ inter os' l'.
Proof.
  induction os as [|[y|] os IH]; intros l os' l' H; cbn [somes length] in H.
  - destruct l; [reflexivity|discriminate H].
  - destruct l as [|z l]; [discriminate H|]. cbn [app inter]. f_equal. apply IH. cbn [length] in H. lia.
  - cbn [app inter]. f_equal. apply IH, H.
Qed.

Lemma emits_compose d1 s1 d2 s2 M : 0 < s1 -> 0 < s2 ->
  emits (d1 + s1 * d2) (s1 * s2) M = emits d1 s1 M && emits d2 s2 (cnt d1 s1 M).
Proof.
  intros H1 H2. destruct (emits d1 s1 M) eqn:E.
  - destruct (emits_cnt d1 s1 M H1 E) as [EM _]. set (k := cnt d1 s1 M) in *. cbn [andb]. unfold emits.
    destruct (Nat.leb_spec d2 k) as [L|L].
    + replace (Nat.leb (d1 + s1 * d2) M) with true by (symmetry; apply Nat.leb_le; nia).
      replace (M - (d1 + s1 * d2)) with (s1 * (k - d2)) by nia. rewrite Nat.mul_mod_distr_l by lia. cbn [andb].
      destruct (Nat.eqb_spec ((k - d2) mod s2) 0) as [Z|Z]; [rewrite Z, Nat.mul_0_r; reflexivity|]. apply Nat.eqb_neq. nia.
    + replace (Nat.leb (d1 + s1 * d2) M) with false by (symmetry; apply Nat.leb_gt; nia). reflexivity.
  - cbn [andb]. unfold emits in *. destruct (Nat.leb_spec (d1 + s1 * d2) M) as [L|L]; [|reflexivity]. cbn [andb].
    destruct (Nat.leb_spec d1 M) as [L1|L1]; [|nia]. cbn [andb] in E. apply Nat.eqb_neq in E. apply Nat.eqb_neq. intros Z. apply E.
    apply Nat.mod_divides in Z; [|nia]. destruct Z as [c Z]. replace (M - d1) with (s1 * (d2 + s2 * c)) by nia.
    rewrite Nat.mul_comm. apply Nat.mod_mul. lia.
Qed.

Lemma somes_len (os : list (option A)) : length (somes os) = length (filter is_some os).
Proof. induction os as [|[y|] os IH]; cbn; lia. Qed.

(** A module with delay d1 and stride s1 that never runs out of outputs. *)
Definition full d s (ys : list A) L := forall n, n < L -> emits d s n = true -> nth_error ys ((n - d) / s) <> None.

Lemma sched_len d s ys L : 0 < s -> full d s ys L -> length (somes (map (scheduled d s ys) (seq 0 L))) = cnt d s L.
Proof.
  intros Hs. induction L as [|L IH]; intros Hf; [reflexivity|].
  rewrite seq_S, map_app, somes_app, app_length, IH, cnt_S by (auto; intros n Hn; apply Hf; lia). cbn [map Nat.add]. unfold scheduled.
  specialize (Hf L ltac:(lia)). destruct (emits d s L); [|cbn; lia]. specialize (Hf eq_refl). destruct (nth_error ys ((L - d) / s)); [cbn; lia|congruence].
Qed.
Lemma sched_somes d s ys L : 0 < s -> full d s ys L -> somes (map (scheduled d s ys) (seq 0 L)) = firstn (cnt d s L) ys.
Proof.
  intros Hs. induction L as [|L IH]; intros Hf; [reflexivity|].
  rewrite seq_S, map_app, somes_app, IH, cnt_S by (auto; intros n Hn; apply Hf; lia). cbn [map Nat.add]. unfold scheduled.
  specialize (Hf L ltac:(lia)). destruct (emits d s L) eqn:E; [|apply app_nil_r]. specialize (Hf eq_refl).
  destruct (emits_cnt d s L Hs E) as [_ Ek]. rewrite Ek in *. destruct (nth_error ys (cnt d s L)) as [y|] eqn:Ey; [|congruence]. cbn [somes].
  clear -Ey. revert ys Ey. induction (cnt d s L) as [|k IHk]; intros [|a ys] Ey; try discriminate Ey.
  - injection Ey as ->. reflexivity.
  - cbn [firstn app]. f_equal. apply IHk, Ey.
Qed.
End Sched.

Lemma inter_sched {A} d1 s1 d2 s2 (ys zs : list A) L : 0 < s1 -> 0 < s2 -> full d1 s1 ys L ->
  inter (map (scheduled d1 s1 ys) (seq 0 L)) (map (scheduled d2 s2 zs) (seq 0 (cnt d1 s1 L)))
  = map (scheduled (d1 + s1 * d2) (s1 * s2) zs) (seq 0 L).
Proof.
  intros H1 H2. induction L as [|L IH]; intros Hf; [reflexivity|].
  rewrite (seq_S L), !map_app, cnt_S by exact H1. cbn [Nat.add map].
  assert (Hf' : full d1 s1 ys L) by (intros n Hn; apply Hf; lia).
  assert (EL : scheduled (d1 + s1 * d2) (s1 * s2) zs L = if emits d1 s1 L then scheduled d2 s2 zs (cnt d1 s1 L) else None).
  { unfold scheduled. rewrite emits_compose by assumption. destruct (emits d1 s1 L) eqn:E; [|reflexivity]. cbn [andb].
    destruct (emits d2 s2 (cnt d1 s1 L)) eqn:E2; [|reflexivity]. destruct (emits_cnt d1 s1 L H1 E) as [EM _].
    unfold emits in E2. apply andb_prop in E2 as [E2 _]. apply Nat.leb_le in E2. f_equal.
    replace (L - (d1 + s1 * d2)) with (s1 * (cnt d1 s1 L - d2)) by nia. apply Nat.div_mul_cancel_l; lia. }
  rewrite EL. destruct (emits d1 s1 L) eqn:E.
  - rewrite seq_S, map_app. cbn [Nat.add map]. rewrite inter_app by (rewrite sched_len, map_length, seq_length by assumption; reflexivity).
    rewrite IH by exact Hf'. f_equal. unfold scheduled at 1. rewrite E. specialize (Hf L ltac:(lia) E). destruct (nth_error ys ((L - d1) / s1)); [reflexivity|congruence].
  - rewrite <- (app_nil_r (map (scheduled d2 s2 zs) (seq 0 (cnt d1 s1 L)))).
    rewrite inter_app by (rewrite sched_len, map_length, seq_length by assumption; reflexivity).
    rewrite IH by exact Hf'. f_equal. unfold scheduled at 1. rewrite E. reflexivity.
Qed.

Section Chain.
Context {F : Type} {FA : Frames F} {FL : FrameLaws F}.
Variable mk : nat -> nat -> F -> F.

Lemma feed_cons s : forall xs ss os s' os2 ss',
  feed (stage_step mk) s xs = Ok (os, s') -> feed (chain_step mk) ss (somes os) = Ok (os2, ss') ->
  feed (chain_step mk) (s :: ss) xs = Ok (inter os os2, s' :: ss').
Proof.
  intros xs. revert s. induction xs as [|x xs IH]; intros s ss os s' os2 ss' E1 E2; cbn [feed] in E1.
  - injection E1 as <- <-. cbn [somes feed] in E2. injection E2 as <- <-. reflexivity.
  - destruct (stage_step mk s x) as [[y s1]|] eqn:Es; [|discriminate E1]. cbn [bind] in E1.
    destruct (feed (stage_step mk) s1 xs) as [[os1 s2]|] eqn:Ef; [|discriminate E1]. cbn [bind] in E1. injection E1 as <- <-.
    cbn [feed chain_step]. rewrite Es. cbn [bind]. destruct y as [y|].
    + cbn [somes feed] in E2. destruct (chain_step mk ss y) as [[z ss1]|] eqn:Ec; [|discriminate E2]. cbn [bind] in E2.
      destruct (feed (chain_step mk) ss1 (somes os1)) as [[os3 ss2]|] eqn:Eg; [|discriminate E2]. cbn [bind] in E2. injection E2 as <- <-.
      cbn [bind]. rewrite (IH _ _ _ _ _ _ Ef Eg). reflexivity.
    + cbn [somes] in E2. cbn [bind]. rewrite (IH _ _ _ _ _ _ Ef E2). reflexivity.
Qed.

Lemma feed_plain xs : forall m os m', feed (nstep true) m xs = Ok (os, m') -> feed (stage_step mk) (Plain m) xs = Ok (os, Plain m').
Proof.
  induction xs as [|x xs IH]; intros m os m' E; cbn [feed] in *; [injection E as <- <-; reflexivity|].
  cbn [stage_step]. destruct (nstep true m x) as [[y m1]|]; [|discriminate E]. cbn [bind] in *.
  destruct (feed (nstep true) m1 xs) as [[os1 m2]|] eqn:Ef; [|discriminate E]. cbn [bind] in E. injection E as <- <-.
  rewrite (IH _ _ _ Ef). reflexivity.
Qed.
Lemma feed_drop l xs : forall n, feed (stage_step mk) (Drop l n) xs = Ok (map Some (dropped_from mk l n xs), Drop l (n + length xs)).
Proof.
  induction xs as [|x xs IH]; intros n; cbn [feed dropped_from map length]; [rewrite Nat.add_0_r; reflexivity|].
  cbn [stage_step bind]. rewrite IH. cbn [bind]. rewrite Nat.add_succ_r. reflexivity.
Qed.
Lemma dropped_len l xs : forall n, length (dropped_from mk l n xs) = length xs.
Proof. induction xs as [|x xs IH]; intros n; cbn; auto. Qed.
Lemma dropped_app l xs : forall n ws, dropped_from mk l n (xs ++ ws) = dropped_from mk l n xs ++ dropped_from mk l (n + length xs) ws.
Proof.
  induction xs as [|x xs IH]; intros n ws; cbn [app dropped_from length]; [rewrite Nat.add_0_r; reflexivity|].
  rewrite IH, Nat.add_succ_r. reflexivity.
Qed.

Definition stage_delay (s : stage F) : nat := match s with Plain m => Z.to_nat (del m) | Drop _ _ => 0 end.
Definition stage_stride (s : stage F) : nat := match s with Plain m => Z.to_nat (strd m) | Drop _ _ => 1 end.
Fixpoint chain_delay (ss : list (stage F)) : nat :=
  match ss with [] => 0 | s :: ss => stage_delay s + stage_stride s * chain_delay ss end.
Fixpoint chain_stride (ss : list (stage F)) : nat :=
  match ss with [] => 1 | s :: ss => stage_stride s * chain_stride ss end.

Lemma nets_inv sh ss : Forall (fresh_stage sh) ss -> Forall inv (nets ss).
Proof. induction 1 as [|[m|l n] ss Hs _ IH]; cbn [nets]; auto. constructor; [apply (net_core sh), Hs|exact IH]. Qed.
Lemma chain_reported sh ss : Forall (fresh_stage sh) ss ->
  chain_delay ss = Z.to_nat (del (MSeq (nets ss))) /\ chain_stride ss = Z.to_nat (strd (MSeq (nets ss))).
Proof.
  intros H. destruct (inv_seq _ (nets_inv sh ss H)) as [_ _ _ Es Ed _ _]. rewrite Es, Ed, !Nat2Z.id. clear Es Ed.
  induction H as [|[m|l n] ss Hs Hss [I1 I2]]; cbn [nets chain_delay chain_stride stage_delay stage_stride].
  - split; reflexivity.
  - change (ph (MSeq (m :: nets ss))) with (ph m + per m * ph (MSeq (nets ss))).
    change (per (MSeq (m :: nets ss))) with (per m * per (MSeq (nets ss))).
    destruct (net_core sh m Hs) as [_ []]. rewrite inv_strd, inv_del, !Nat2Z.id, I1, I2. split; reflexivity.
  - rewrite !Nat.mul_1_l, I1, I2. split; reflexivity.
Qed.

Lemma cnt_filter d s L : 0 < s -> length (filter (emits d s) (seq 0 L)) = cnt d s L.
Proof.
  intros Hs. induction L as [|L IH]; [reflexivity|]. rewrite seq_S, filter_app, app_length, IH, cnt_S by exact Hs.
  cbn [Nat.add filter]. destruct (emits d s L); cbn; lia.
Qed.

Lemma chain_stride_pos sh ss : Forall (fresh_stage sh) ss -> 0 < chain_stride ss.
Proof.
  induction 1 as [|s ss Hs _ IH]; cbn [chain_stride]; [lia|].
  assert (0 < stage_stride s); [|nia]. destruct s as [m|l n]; cbn [stage_stride]; [|lia].
  destruct (net_core sh m Hs) as [Hc []]. rewrite inv_strd, Nat2Z.id. apply per_pos. exact (core_ok sh m Hc).
Qed.

Lemma inter_some (ys : list F) : forall l, length l = length ys -> inter (map Some ys) l = l.
Proof. induction ys as [|y ys IH]; intros [|z l] H; try discriminate H; [reflexivity|]. cbn [map inter]. f_equal. apply IH. cbn [length] in H. lia. Qed.
Lemma somes_some (ys : list F) : somes (map Some ys) = ys.
Proof. induction ys as [|y ys IH]; cbn; [reflexivity|]. f_equal. exact IH. Qed.

Theorem chain_sched sh ss : Forall (fresh_stage sh) ss -> forall xs ws zs, chain_fwd mk ss (xs ++ ws) = Ok zs ->
  exists ss', feed (chain_step mk) ss xs = Ok (map (scheduled (chain_delay ss) (chain_stride ss) zs) (seq 0 (length xs)), ss')
    /\ drop_counts ss' = reached ss (length xs).
Proof.
  induction 1 as [|s ss Hs Hss IH]; intros xs ws zs E; cbn [chain_fwd] in E.
  - injection E as <-. cbn [chain_delay chain_stride]. exists []. split; [|reflexivity]. clear.
    assert (A : forall ys n, feed (chain_step mk) [] (skipn n ys) = Ok (map (scheduled 0 1 (ys ++ ws)) (seq n (length ys - n)), [])).
    { intros ys n. remember (length ys - n) as k eqn:Ek. revert n Ek. induction k as [|k IHk]; intros n Ek.
      - rewrite skipn_all2 by lia. reflexivity.
      - destruct (nth_error ys n) as [y|] eqn:Ey; [|apply nth_error_None in Ey; lia].
        assert (Es : skipn n ys = y :: skipn (S n) ys).
        { clear -Ey. revert ys Ey. induction n as [|n IHn]; intros [|a ys] Ey; try discriminate Ey; [injection Ey as ->; reflexivity|apply IHn, Ey]. }
        rewrite Es. cbn [feed chain_step bind]. rewrite IHk by lia. cbn [bind seq map]. do 3 f_equal.
        unfold scheduled, emits. cbn [Nat.leb andb]. rewrite Nat.sub_0_r, Nat.mod_1_r, Nat.div_1_r. cbn [Nat.eqb].
        rewrite nth_error_app1 by (apply nth_error_Some; congruence). symmetry. exact Ey. }
    specialize (A xs 0). cbn [skipn] in A. rewrite Nat.sub_0_r in A. exact A.
  - destruct (stage_fwd mk s (xs ++ ws)) as [ys|] eqn:Ey; [|discriminate E]. cbn [bind] in E.
    pose proof (chain_stride_pos sh ss Hss) as Pss. destruct s as [m|l n]; cbn [stage_fwd fresh_stage] in *.
    + destruct (net_core sh m Hs) as [Hc Hi]. pose proof (per_pos m (core_ok sh m Hc)) as Pm.
      destruct (net_sched sh m xs ws ys Hs Ey) as [m' Em]. destruct (net_pattern sh m xs Hs) as (os & m2 & Eo & Ep).
      rewrite Em in Eo. injection Eo as <- <-.
      set (d := Z.to_nat (del m)) in *. set (st := Z.to_nat (strd m)) in *.
      assert (Pst : 0 < st) by (unfold st; destruct Hi; rewrite inv_strd, Nat2Z.id; exact Pm).
      assert (Hf : full d st ys (length xs)).
      { intros k Hk Ek Hn. rewrite map_map in Ep. assert (Ek' : is_some (scheduled d st ys k) = emits d st k).
        { refine (proj1 map_ext_in_iff Ep k _). apply in_seq. lia. }
        rewrite Ek in Ek'. unfold scheduled in Ek'. rewrite Ek, Hn in Ek'. discriminate Ek'. }
      apply feed_plain in Em.
      rewrite <- (firstn_skipn (cnt d st (length xs)) ys) in E. destruct (IH _ _ _ E) as (ss' & Es & Er).
      exists (Plain m' :: ss'). cbn [chain_delay chain_stride stage_delay stage_stride]. fold d st.
      assert (Lf : length (firstn (cnt d st (length xs)) ys) = cnt d st (length xs)).
      { rewrite <- sched_somes, sched_len by assumption. reflexivity. }
      split; [|cbn [drop_counts reached]; fold d st; rewrite Er, Lf, cnt_filter by exact Pst; reflexivity].
      erewrite feed_cons; [|exact Em|rewrite sched_somes by assumption; exact Es]. do 2 f_equal.
      rewrite Lf. apply inter_sched; assumption.
    + subst n. injection Ey as <-. rewrite dropped_app in E. destruct (IH _ _ _ E) as (ss' & Es & Er). rewrite dropped_len in Es, Er.
      exists (Drop l (0 + length xs) :: ss').
      split; [|cbn [drop_counts reached]; rewrite Er; reflexivity]. erewrite feed_cons; [|apply feed_drop|rewrite somes_some; exact Es].
      rewrite inter_some by (rewrite map_length, seq_length, dropped_len; reflexivity).
      cbn [chain_delay chain_stride stage_delay stage_stride]. rewrite !Nat.mul_1_l. reflexivity.
Qed.

Theorem chain_training sh ss : Forall (fresh_stage sh) ss -> forall xs ws zs, chain_fwd mk ss (xs ++ ws) = Ok zs ->
  let D := Z.to_nat (del (MSeq (nets ss))) in let S := Z.to_nat (strd (MSeq (nets ss))) in
  exists ss', feed (chain_step mk) ss xs = Ok (map (scheduled D S zs) (seq 0 (length xs)), ss')
    /\ drop_counts ss' = reached ss (length xs).
Proof. intros H xs ws zs E. destruct (chain_reported sh ss H) as [E1 E2]. cbv zeta. rewrite <- E1, <- E2. apply (chain_sched sh) with ws; assumption. Qed.

(** Clips. *)
Definition stage_ok (s : stage F) : Prop := match s with Plain m => ok m | Drop _ _ => True end.
Lemma fresh_stages_ok sh ss : Forall (fresh_stage sh) ss -> Forall stage_ok ss.
Proof. apply Forall_impl. intros [m|l n] H; cbn; [|exact I]. apply (core_ok sh), (net_core sh m H). Qed.

Lemma stage_good s xs : stage_ok s -> exists os s', feed (stage_step mk) s xs = Ok (os, s') /\ stage_ok s'
  /\ (xs <> [] -> stage_steps mk s xs = Ok (somes os, s')).
Proof.
  destruct s as [m|l n]; intros Ho.
  - destruct (feed_ok xs m Ho) as (os & m' & E & Ho'). exists os, (Plain m'). split; [apply feed_plain, E|split; [exact Ho'|]].
    intros Hx. destruct (chunk_good m (Clip xs) Ho Hx) as (ys & m2 & E1 & E2 & _). cbn [frames do_chunk] in E1, E2.
    rewrite E in E1. injection E1 as <- <-. cbn [stage_steps]. rewrite E2. reflexivity.
  - exists (map Some (dropped_from mk l n xs)), (Drop l (n + length xs)). split; [apply feed_drop|split; [exact I|]].
    intros _. cbn [stage_steps]. rewrite somes_some. reflexivity.
Qed.
Lemma somes_inter (os : list (option F)) : forall l, length l = length (somes os) -> somes (inter os l) = somes l.
Proof.
  induction os as [|[y|] os IH]; intros [|[z|] l] H; cbn [somes length inter] in *; try discriminate H; try reflexivity.
  - f_equal. apply IH. lia.
  - apply IH. lia.
  - apply (IH []). exact H.
  - apply (IH (Some z :: l)). exact H.
  - apply (IH (None :: l)). exact H.
Qed.
Lemma chain_length xs : forall ss os ss', feed (chain_step mk) ss xs = Ok (os, ss') -> length os = length xs.
Proof.
  induction xs as [|x xs IH]; intros ss os ss' E; cbn [feed] in E; [injection E as <- <-; reflexivity|].
  destruct (chain_step mk ss x) as [[y ss1]|]; [|discriminate E]. cbn [bind] in E.
  destruct (feed (chain_step mk) ss1 xs) as [[os1 ss2]|] eqn:Ef; [|discriminate E]. cbn [bind] in E. injection E as <- <-.
  cbn [length]. f_equal. eapply IH, Ef.
Qed.
Lemma chain_good ss : Forall stage_ok ss -> forall xs, exists os ss', feed (chain_step mk) ss xs = Ok (os, ss') /\ Forall stage_ok ss'
  /\ (xs <> [] -> chain_steps mk ss xs = Ok (somes os, ss')).
Proof.
  induction 1 as [|s ss Hs Hss IH]; intros xs.
  - assert (A : feed (chain_step mk) [] xs = Ok (map Some xs, [])).
    { induction xs as [|x xs IHx]; [reflexivity|]. cbn [feed chain_step bind]. rewrite IHx. reflexivity. }
    exists (map Some xs), []. split; [exact A|split; [constructor|]]. intros _. rewrite somes_some. reflexivity.
  - destruct (stage_good s xs Hs) as (os1 & s' & E1 & H1 & S1). destruct (IH (somes os1)) as (os2 & ss' & E2 & H2 & S2).
    exists (inter os1 os2), (s' :: ss'). split; [eapply feed_cons; eassumption|split; [constructor; assumption|]].
    intros Hx. rewrite somes_inter by (eapply chain_length, E2).
    cbn [chain_steps]. destruct xs as [|x xs]; [congruence|]. rewrite (S1 Hx). cbn [bind].
    destruct (somes os1) as [|y ys] eqn:Eo.
    + cbn [feed] in E2. injection E2 as <- <-. destruct ss; reflexivity.
    + rewrite S2 by discriminate. reflexivity.
Qed.
Theorem chain_chunks_feed cs : forall ss, Forall stage_ok ss -> (forall c, In c cs -> frames c <> []) ->
  exists os ss', feed (chain_step mk) ss (concat (map frames cs)) = Ok (os, ss') /\ chain_chunks mk ss cs = Ok (somes os, ss').
Proof.
  induction cs as [|c cs IH]; intros ss Ho Hn; [exists [], ss; split; reflexivity|].
  destruct (chain_good ss Ho (frames c)) as (os & ss1 & E1 & Ho1 & S1). specialize (S1 (Hn c (or_introl eq_refl))).
  destruct (IH ss1 Ho1) as (os2 & ss2 & E2 & E3); [intros c' Hc; apply Hn; right; exact Hc|].
  exists (os ++ os2), ss2. cbn [map concat chain_chunks]. rewrite feed_app, E1. cbn [bind fst snd]. rewrite E2. cbn [bind fst snd].
  split; [reflexivity|]. assert (Ec : chain_chunk mk ss c = Ok (somes os, ss1)).
  { destruct c as [x|xs]; cbn [chain_chunk frames] in *; [|exact S1]. cbn [feed] in E1.
    destruct (chain_step mk ss x) as [[y ss3]|]; [|discriminate E1]. cbn [bind] in *. injection E1 as <- <-. destruct y; reflexivity. }
  rewrite Ec. cbn [bind]. rewrite E3. cbn [bind]. rewrite somes_app. reflexivity.
Qed.
Theorem chain_calls sh ss : Forall (fresh_stage sh) ss -> forall cs, (forall c, In c cs -> frames c <> []) ->
  forall ws zs, chain_fwd mk ss (concat (map frames cs) ++ ws) = Ok zs ->
  let xs := concat (map frames cs) in
  let D := Z.to_nat (del (MSeq (nets ss))) in let S := Z.to_nat (strd (MSeq (nets ss))) in
  exists ss', chain_chunks mk ss cs = Ok (somes (map (scheduled D S zs) (seq 0 (length xs))), ss')
    /\ drop_counts ss' = reached ss (length xs).
Proof.
  intros H cs Hn ws zs E. cbv zeta. destruct (chain_chunks_feed cs ss (fresh_stages_ok sh ss H) Hn) as (os & ss' & E1 & E2).
  destruct (chain_training sh ss H _ _ _ E) as (ss2 & E3 & E4). rewrite E1 in E3. injection E3 as -> ->. exists ss2. split; assumption.
Qed.

(** Without draws. *)
Section Eval.
Hypothesis Hid : forall l n x, mk l n x = x.
Lemma eval_step ss : forall x y ss', chain_step mk ss x = Ok (y, ss') ->
  seq_step (fun m v => step m v true) (nets ss) (VT x) = Ok (of_opt y, nets ss').
Proof.
  induction ss as [|[m|l n] ss IH]; intros x y ss' E; cbn [chain_step nets seq_step stage_step] in *.
  - injection E as <- <-. reflexivity.
  - unfold nstep in E. destruct (step m (VT x) true) as [[v m1]|]; [|discriminate E]. cbn [bind] in E.
    destruct v; cbn [bind] in E; try discriminate E.
    + injection E as <- <-. reflexivity.
    + destruct (chain_step mk ss x0) as [[z ss1]|] eqn:Ec; [|discriminate E]. cbn [bind] in E. injection E as <- <-.
      cbn [bind is_none]. rewrite (IH _ _ _ Ec). reflexivity.
  - cbn [bind] in E. rewrite Hid in E. destruct (chain_step mk ss x) as [[z ss1]|] eqn:Ec; [|discriminate E]. cbn [bind] in E. injection E as <- <-.
    cbn [nets]. apply IH, Ec.
Qed.
Theorem eval_feed xs : forall ss os ss', feed (chain_step mk) ss xs = Ok (os, ss') ->
  feed (nstep true) (MSeq (nets ss)) xs = Ok (os, MSeq (nets ss')).
Proof.
  induction xs as [|x xs IH]; intros ss os ss' E; cbn [feed] in *; [injection E as <- <-; reflexivity|].
  destruct (chain_step mk ss x) as [[y ss1]|] eqn:Ec; [|discriminate E]. cbn [bind] in E.
  destruct (feed (chain_step mk) ss1 xs) as [[os1 ss2]|] eqn:Ef; [|discriminate E]. cbn [bind] in E. injection E as <- <-.
  assert (En : nstep true (MSeq (nets ss)) x = Ok (y, MSeq (nets ss1))).
  { unfold nstep. cbn [step]. rewrite (eval_step _ _ _ _ Ec). destruct y; reflexivity. }
  rewrite En. cbn [bind]. rewrite (IH _ _ _ Ef). reflexivity.
Qed.
Theorem eval_fwd ss : forall xs zs, chain_fwd mk ss xs = Ok zs -> nfwd (MSeq (nets ss)) xs = Ok zs.
Proof.
  assert (Hd : forall l xs n, dropped_from mk l n xs = xs).
  { intros l xs. induction xs as [|x xs IH]; intros n; cbn [dropped_from]; [reflexivity|]. rewrite Hid, IH. reflexivity. }
  unfold nfwd. cbn [fwd]. induction ss as [|[m|l n] ss IH]; intros xs zs E; cbn [chain_fwd stage_fwd nets seq_fwd] in *.
  - injection E as <-. reflexivity.
  - unfold nfwd in E. destruct (fwd m (VS xs)) as [v|]; [|discriminate E]. cbn [bind] in *. destruct v; try discriminate E. cbn [bind] in E. apply IH, E.
  - rewrite Hd in E. apply IH, E.
Qed.
End Eval.
End Chain.
