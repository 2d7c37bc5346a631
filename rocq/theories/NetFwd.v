(** Networks: streaming against [forward]. *)
From Coq Require Import List ZArith Bool Arith Lia ZifyBool ZifyNat.
From Verif Require Import Base Frames CoMod Leaf Rnn Net Spec LeafSpec Ring LeafProof LeafMore NetSpec NetOk Calls NetDef NetCore.
Import ListNotations.
Ltac Zify.zify_post_hook ::= Z.div_mod_to_equations.

Section NetFwd.
Context {F : Type} {FA : Frames F} {FL : FrameLaws F}.
Implicit Types m : md F.
Implicit Types ms : list (md F).
Implicit Types xs zs : list F.

Lemma core_ok sh m : core sh m -> ok m.
Proof.
  induction 1 as [c H|c H Hp|d f s Hs|n|g|c|ms Hms IH|m t r Hms IH Ht Hsy Hsl].
  - apply (inv_conv c H).
  - apply (inv_pool c H).
  - simpl. auto.
  - simpl. unfold skip_init. lia.
  - exact I.
  - exact I.
  - cbn [ok]. apply allP_Forall, Forall_forall; auto.
  - cbn [ok]. split; [|split].
    + apply allP_Forall, Forall_forall; auto.
    + apply allP_Forall, Forall_forall; auto.
    + intros _. destruct t; [congruence|]. simpl. lia.
Qed.

(* ------------------------------------------------------------------ *)
(** ** [forward] maps clips to clips *)

Definition isclip m := forall xs v, fwd m (VS xs) = Ok v -> exists ys, v = VS ys.

Lemma fold_op_clip (r : red F) (zss : list (list F)) : forall a v, fold_op r (VS a) (map VS zss) = Ok v -> exists ys, v = VS ys.
Proof.
  induction zss as [|z t IH]; intros a v; cbn [map fold_op]; [intros [= <-]; eauto|].
  cbn [op_val]. destruct (zip_bcast _ _ a z) as [b|]; cbn [bind]; [|discriminate]. apply IH.
Qed.

Lemma any_none_vs zss : any_none (map (@VS F) zss) = Ok false.
Proof. induction zss; simpl; auto. Qed.

Lemma br_fwd_clips ms xs vs : Forall isclip ms -> br_fwd fwd ms (VS xs) = Ok vs ->
  exists zss, vs = map VS zss /\ Forall2 (fun m z => nfwd m xs = Ok z) ms zss.
Proof.
  intros H. revert vs. induction H as [|m t Hm HF IH]; intros vs; cbn [br_fwd].
  - intros [= <-]. exists []. split; auto.
  - destruct (fwd m (VS xs)) as [v|] eqn:E; [|discriminate]. cbn [bind].
    destruct (br_fwd fwd t (VS xs)) as [vt|] eqn:Et; [|discriminate]. cbn [bind]. intros [= <-].
    destruct (Hm xs v E) as [ys ->]. destruct (IH vt eq_refl) as (zss & -> & HF2).
    exists (ys :: zss). split; [reflexivity|]. constructor; auto. unfold nfwd. rewrite E. reflexivity.
Qed.

Lemma core_isclip sh m : core sh m -> isclip m.
Proof.
  induction 1 as [c H|c H Hp|d f s Hs|n|g|c|ms Hms IH|m t r Hms IH Ht Hsy Hsl]; intros xs v E; cbn [fwd] in E.
  - destruct (conv_forward c xs); cbn [bind] in E; [injection E as <-; eauto|discriminate].
  - destruct (pool_forward c xs); cbn [bind] in E; [injection E as <-; eauto|discriminate].
  - injection E as <-; eauto.
  - injection E as <-; eauto.
  - injection E as <-; eauto.
  - destruct (rnn_forward c xs); cbn [bind] in E; [injection E as <-; eauto|discriminate].
  - clear Hms. revert xs E. induction ms as [|m t IHt]; intros xs E; cbn [seq_fwd] in E; [injection E as <-; eauto|].
    destruct (fwd m (VS xs)) as [w|] eqn:Em; [|discriminate]. cbn [bind] in E.
    destruct (IH m (or_introl eq_refl) xs w Em) as [ys ->]. eapply IHt; eauto. intros; apply IH; right; auto.
  - destruct (br_fwd fwd (m :: t) (VS xs)) as [vs|] eqn:Ev; cbn [bind] in E; [|discriminate].
    apply br_fwd_clips in Ev as (zss & -> & HF); [|apply Forall_forall; auto].
    unfold reduce_vals in E. rewrite any_none_vs in E. cbn [bind] in E.
    destruct zss as [|z zt]; [destruct (r_min2 r); discriminate|]. cbn [map] in E.
    destruct (_ && _); [discriminate|]. eapply fold_op_clip; eauto.
Qed.

Lemma seq_fwd_cons m t xs zs : isclip m -> nfwd (MSeq (m :: t)) xs = Ok zs ->
  exists ys, nfwd m xs = Ok ys /\ nfwd (MSeq t) ys = Ok zs.
Proof.
  intros Hc. unfold nfwd. cbn [fwd seq_fwd]. destruct (fwd m (VS xs)) as [v|] eqn:E; [|discriminate].
  destruct (Hc xs v E) as [ys ->]. cbn [bind]. intros H. exists ys. split; auto.
Qed.

(* ------------------------------------------------------------------ *)
(** ** Reductions of clips of equal length *)

Definition zipw (r : red F) (a b : list F) : list F := map (fun p => r_op r (fst p) (snd p)) (combine a b).
Definition redz (r : red F) (zss : list (list F)) : list F :=
  match zss with [] => [] | h :: t => fold_left (zipw r) t h end.

Lemma zipw_length r a b : length a = length b -> length (zipw r a b) = length a.
Proof. intros H. unfold zipw. rewrite map_length, combine_length. lia. Qed.

Lemma redz_length r n zss : zss <> [] -> Forall (fun z => length z = n) zss -> length (redz r zss) = n.
Proof.
  destruct zss as [|h t]; [congruence|]. intros _ HF. inversion HF as [|? ? Hh Ht]; subst. cbn [redz].
  clear HF. revert h Ht. induction t as [|z t IH]; intros h HF; [reflexivity|]. inversion HF as [|? ? Hz Ht]; subst.
  cbn [fold_left]. rewrite IH; rewrite zipw_length; auto.
Qed.

Lemma redz_fold_op r zss n : forall a, length a = n -> Forall (fun z => length z = n) zss ->
  fold_op r (VS a) (map VS zss) = Ok (VS (fold_left (zipw r) zss a)).
Proof.
  induction zss as [|z t IH]; intros a Ha HF; [reflexivity|]. inversion HF as [|? ? Hz Ht]; subst.
  cbn [map fold_op op_val fold_left]. unfold zip_bcast. rewrite Hz, Nat.eqb_refl. cbn [bind].
  fold (zipw r a z). apply IH; auto. rewrite zipw_length; auto.
Qed.

Lemma reduce_vals_eq r n zss : zss <> [] -> (r_min2 r = true -> 2 <= length zss) ->
  Forall (fun z => length z = n) zss -> reduce_vals r (map VS zss) = Ok (VS (redz r zss)).
Proof.
  intros Hn H2 HF. unfold reduce_vals. rewrite any_none_vs. cbn [bind].
  destruct zss as [|h t]; [congruence|]. cbn [map].
  replace (r_min2 r && _) with false.
  2:{ destruct (r_min2 r); simpl; [|auto]. specialize (H2 eq_refl). cbn [length] in *. rewrite map_length. lia. }
  inversion HF; subst. apply (redz_fold_op r t (length h)); auto.
Qed.

Lemma reduce_clips_eq r n zss : zss <> [] -> (r_min2 r = true -> 2 <= length zss) ->
  Forall (fun z => length z = n) zss ->
  reduce_vals r (map (fun z => of_clip (stack_outs z)) zss) = Ok (of_clip (stack_outs (redz r zss))).
Proof.
  intros Hn H2 HF. pose proof (redz_length r n zss Hn HF) as Hl.
  destruct n as [|n].
  - destruct (redz r zss); [|discriminate]. destruct zss as [|h t]; [congruence|].
    inversion HF as [|? ? Hh Ht]; subst. destruct h; [|discriminate]. reflexivity.
  - assert (E : map (fun z => of_clip (stack_outs z)) zss = map VS zss).
    { apply map_ext_in. intros z Hz. rewrite Forall_forall in HF. specialize (HF z Hz).
      destruct z; [discriminate|reflexivity]. }
    rewrite E, (reduce_vals_eq r (S n)) by auto. destruct (redz r zss); [discriminate|reflexivity].
Qed.

Lemma zipw_app r a a' b b' : length a = length a' -> zipw r (a ++ b) (a' ++ b') = zipw r a a' ++ zipw r b b'.
Proof.
  revert a'. induction a as [|x a IH]; intros [|x' a'] H; try discriminate; [reflexivity|].
  unfold zipw in *. simpl in *. rewrite IH by lia. reflexivity.
Qed.

Lemma redz_app r n (ps : list (list F * list F)) : Forall (fun p => length (fst p) = n) ps ->
  redz r (map (fun p => fst p ++ snd p) ps) = redz r (map fst ps) ++ redz r (map snd ps).
Proof.
  destruct ps as [|[a b] t]; [reflexivity|]. intros HF. inversion HF as [|? ? Ha Ht]; subst. cbn [fst] in *.
  cbn [map redz fst snd]. clear HF. revert a b Ht. induction t as [|[a' b'] t IH]; intros a b HF; [reflexivity|].
  inversion HF as [|? ? Ha Ht]; subst. cbn [fst] in *. cbn [map fold_left fst snd].
  rewrite zipw_app by auto. apply IH. rewrite zipw_length by auto. auto.
Qed.

Lemma somes_redl r (yss : list (list (option F))) p : Forall (fun ys => map is_some ys = p) yss ->
  somes (redl r yss) = redz r (map somes yss).
Proof.
  destruct yss as [|h t]; [reflexivity|]. intros HF. inversion HF as [|? ? Hh Ht]; subst. cbn [redl redz map].
  clear HF. revert h Ht. induction t as [|y t IH]; intros h HF; [reflexivity|].
  inversion HF as [|? ? Hy Ht]; subst. destruct (zipo_somes r h y (eq_sym Hy)) as (Z1 & Z2 & Z3).
  cbn [fold_left map]. rewrite IH; [|eapply Forall_impl; [|exact Ht]; intros; simpl in *; congruence].
  f_equal. exact Z1.
Qed.

Lemma somes_length_pat (a b : list (option F)) : map is_some a = map is_some b -> length (somes a) = length (somes b).
Proof.
  revert b. induction a as [|[x|] a IH]; intros [|[y|] b] H; try discriminate; simpl; auto;
  injection H as H; auto.
Qed.

(** [forward] of a reduction of branches. *)
Lemma br_fwd_inv m t r xs zs : Forall isclip (m :: t) -> t <> [] -> same_len (m :: t) ->
  nfwd (MBR (m :: t) r) xs = Ok zs ->
  exists zss n, Forall2 (fun m z => nfwd m xs = Ok z) (m :: t) zss /\ zs = redz r zss /\
    Forall (fun z => length z = n) zss.
Proof.
  intros Hc Ht Hsl. unfold nfwd at 1. cbn [fwd].
  destruct (br_fwd fwd (m :: t) (VS xs)) as [vs|] eqn:Ev; cbn [bind]; [|discriminate].
  apply br_fwd_clips in Ev as (zss & -> & HF); auto.
  assert (Hl : exists n, Forall (fun z => length z = n) zss).
  { destruct zss as [|z zt]; [exists 0; constructor|]. exists (length z). apply Forall_forall. intros z' Hz'.
    assert (G : forall z', In z' (z :: zt) -> exists m', In m' (m :: t) /\ nfwd m' xs = Ok z').
    { clear -HF. intros z' Hz'. induction HF as [|a b la lb Hab HF IH]; [destruct Hz'|].
      destruct Hz' as [<-|Hz']; [exists a; split; [left|]; auto|].
      destruct (IH Hz') as (m' & ? & ?). exists m'. split; [right|]; auto. }
    destruct (G z') as (m1 & I1 & E1); auto. destruct (G z) as (m2 & I2 & E2); [left; auto|].
    exact (Hsl m1 m2 xs z' z I1 I2 E1 E2). }
  destruct Hl as [n Hl]. pose proof (F2_length _ _ _ HF) as HL.
  rewrite (reduce_vals_eq r n); auto.
  - cbn [bind]. intros [= <-]. exists zss, n. auto.
  - destruct zss; [discriminate|discriminate].
  - intros _. rewrite <- HL. destruct t; [congruence|]. simpl. lia.
Qed.

(* ------------------------------------------------------------------ *)
(** ** Prefixes *)

Definition pre m := forall xs ws zs, nfwd m (xs ++ ws) = Ok zs ->
  exists ys m' rest, feed (nstep true) m xs = Ok (ys, m') /\ zs = somes ys ++ rest.

Lemma somes_sched d s (zs : list F) n : 0 < s ->
  somes (map (scheduled d s zs) (seq 0 n)) = firstn (cnt d s n) zs.
Proof.
  intros Hs. induction n as [|n IH]; [rewrite cnt_0; reflexivity|].
  rewrite seq_S, map_app, somes_app, IH, cnt_S by auto. cbn [map Nat.add]. unfold scheduled.
  destruct (emits d s n) eqn:E; cbn [somes]; [|apply app_nil_r].
  destruct (emits_cnt d s n Hs E) as [_ ->]. generalize (cnt d s n) as k. clear.
  induction zs as [|z zs IH]; intros [|k]; simpl; auto. f_equal. apply IH.
Qed.

Lemma firstn_pre (l : list F) a b : a <= b -> exists rest, firstn b l = firstn a l ++ rest.
Proof.
  intros H. exists (skipn a (firstn b l)). rewrite <- (firstn_skipn a (firstn b l)) at 1. f_equal.
  rewrite firstn_firstn. f_equal. lia.
Qed.

Ltac bind_eta := match goal with |- bind ?r _ = bind ?r' _ => change r with r'; destruct r' as [[? ?]|]; reflexivity end.

Lemma HW_conv (c : conv_cfg F) o x : step (MConv c o) (VT x) true
  = bind (conv_forward_step c o x true) (fun p => Ok (of_opt (fst p), MConv c (snd p))).
Proof. cbn [step]. bind_eta. Qed.
Lemma HW_pool (c : pool_cfg F) o x : step (MPool c o) (VT x) true
  = bind (pool_forward_step c o x true) (fun p => Ok (of_opt (fst p), MPool c (snd p))).
Proof. cbn [step]. bind_eta. Qed.
Lemma HW_delay d f s (o : obj F) x : step (MDelay d f s o) (VT x) true
  = bind (delay_forward_step d f s o x true) (fun p => Ok (of_opt (fst p), MDelay d f s (snd p))).
Proof. cbn [step]. bind_eta. Qed.
Lemma HW_skip n o (x : F) : step (MSkip n o) (VT x) true
  = bind (skip_forward_step n o x true) (fun p => Ok (of_opt (fst p), MSkip n (snd p))).
Proof. cbn [step]. bind_eta. Qed.

Lemma pre_conv c : conv_ok c -> pre (MConv c obj_init).
Proof.
  intros Hc xs ws zs E. unfold nfwd in E. cbn [fwd] in E.
  destruct (conv_forward c (xs ++ ws)) as [y|] eqn:Ef; [|discriminate]. injection E as ->.
  destruct (conv_step_thm c xs ws zs Hc Ef) as [o Ho].
  rewrite (feed_wrap (MConv c) (fun o x => conv_forward_step c o x true) (HW_conv c)), Ho. cbn [bind fst snd].
  eexists _, _, (skipn (cnt (conv_delay c) (cs c) (length xs)) zs). split; [reflexivity|].
  rewrite somes_sched by (destruct Hc; lia). symmetry. apply firstn_skipn.
Qed.

Lemma pre_pool c : pool_ok c -> pre (MPool c obj_init).
Proof.
  intros Hc xs ws zs E. unfold nfwd in E. cbn [fwd] in E.
  destruct (pool_forward c (xs ++ ws)) as [y|] eqn:Ef; [|discriminate]. injection E as ->.
  destruct (pool_step_thm c xs ws zs Hc Ef) as [o Ho].
  rewrite (feed_wrap (MPool c) (fun o x => pool_forward_step c o x true) (HW_pool c)), Ho. cbn [bind fst snd].
  eexists _, _, (skipn (cnt (pool_delay c) (ps c) (length xs)) zs). split; [reflexivity|].
  rewrite somes_sched by (destruct Hc; lia). symmetry. apply firstn_skipn.
Qed.

Lemma delay_out_somes d (f : fill) sh xs M : 0 < d -> M <= length xs ->
  somes (map (delay_out d sh (ext_clip f xs)) (seq 0 M))
  = firstn (M - delay_lim d sh) (skipn (delay_lim d sh - d) xs).
Proof.
  intros Hd He. unfold delay_out. rewrite somes_lim.
  set (lim := delay_lim d sh).
  assert (Hl : d <= lim) by (unfold lim; destruct sh; simpl; lia).
  destruct (Nat.leb_spec lim M) as [Hle|Hgt].
  2:{ replace (M - lim) with 0 by lia. reflexivity. }
  rewrite <- map_nth_seq with (d := make_padding f (last xs f0)) by lia.
  apply map_ext_in. intros i Hi%in_seq. unfold ext_clip.
  replace (Z.ltb _ 0) with false by lia. f_equal. lia.
Qed.

Lemma feed_id xs : forall (f : fill) (s : shrink) (o : obj F), 
  feed (nstep true) (MDelay 0 f s o) xs = Ok (map Some xs, MDelay 0 f s o).
Proof.
  induction xs as [|x xs IH]; intros; [reflexivity|]. cbn [feed]. unfold nstep at 1. simpl. rewrite IH. reflexivity.
Qed.

Lemma pre_delay d f s : s <> ShCentered -> pre (MDelay d f s obj_init).
Proof.
  intros Hs xs ws zs E. unfold nfwd in E. cbn [fwd bind] in E. injection E as <-.
  destruct (Nat.eq_dec d 0) as [->|Hd].
  { rewrite feed_id. exists (map Some xs), (MDelay 0 f s obj_init), ws. split; [reflexivity|]. rewrite somes_some.
    destruct s; try reflexivity. }
  destruct xs as [|x0 xt] eqn:Ex; [do 3 eexists; split; reflexivity|]. rewrite <- Ex.
  assert (Hx : xs ++ ws <> []) by (subst; discriminate). clear Ex x0 xt.
  rewrite (feed_wrap (MDelay d f s) (fun o x => delay_forward_step d f s o x true) (HW_delay d f s)).
  rewrite (delay_feed d f s xs ws) by (auto; lia). cbn [bind fst snd].
  
  assert (G : exists rest, delay_forward d s (xs ++ ws)
     = firstn (length xs - delay_lim d s) (skipn (delay_lim d s - d) (xs ++ ws)) ++ rest).
  { unfold delay_forward, slice_ab. replace (d =? 0) with false by lia. rewrite app_length.
    destruct s; cbn [delay_lim].
    - rewrite Nat.sub_diag. cbn [skipn]. eexists. symmetry. apply firstn_skipn.
    - rewrite skipn_firstn_comm. replace (2 * d - d) with d by lia. apply firstn_pre. lia.
    - congruence.
    - rewrite Nat.sub_diag. cbn [skipn]. apply firstn_pre. lia. }
  destruct G as [rest G]. do 3 eexists. split; [reflexivity|].
  rewrite delay_out_somes; [exact G|lia|]. rewrite app_length. lia.
Qed.

(** Modules whose [forward] is exactly what stepping over the clip returns. *)
Definition causal m := forall l zs, nfwd m l = Ok zs ->
  exists ys m', feed (nstep true) m l = Ok (ys, m') /\ zs = somes ys.

Lemma causal_pre m : causal m -> pre m.
Proof.
  intros H xs ws zs E. destruct (H _ _ E) as (ys & m' & Ef & ->).
  rewrite feed_app in Ef. destruct (feed (nstep true) m xs) as [[y1 m1]|]; [|discriminate].
  cbn [bind fst snd] in Ef. destruct (feed (nstep true) m1 ws) as [[y2 m2]|]; [|discriminate].
  injection Ef as <- <-. exists y1, m1, (somes y2). rewrite somes_app. auto.
Qed.

Lemma somes_ltb (l : list F) n : 
  somes (map (fun i => if i <? n then None else nth_error l i) (seq 0 (length l))) = skipn n l.
Proof.
  assert (G : forall a (l' : list F), (forall i, i < length l' -> nth_error l (a + i) = nth_error l' i) ->
    somes (map (fun i => if i <? n then None else nth_error l i) (seq a (length l'))) = skipn (n - a) l').
  { intros a l'. revert a. induction l' as [|y l' IH]; intros a H; cbn [length seq map]; [now rewrite skipn_nil|].
    assert (Ha : nth_error l a = Some y) by (rewrite <- (Nat.add_0_r a); rewrite H by (simpl; lia); reflexivity).
    rewrite Ha. assert (IH' := IH (S a)). 
    assert (Hn : forall i, i < length l' -> nth_error l (S a + i) = nth_error l' i).
    { intros i Hi. replace (S a + i) with (a + S i) by lia. apply H. simpl. lia. }
    specialize (IH' Hn).
    destruct (Nat.ltb_spec a n); cbn [somes]; rewrite IH'.
    - replace (n - a) with (S (n - S a)) by lia. reflexivity.
    - replace (n - a) with 0 by lia. replace (n - S a) with 0 by lia. reflexivity. }
  specialize (G 0 l). rewrite Nat.sub_0_r in G. apply G. reflexivity.
Qed.

Lemma causal_skip n : causal (MSkip n (skip_init n)).
Proof.
  intros l zs E. unfold nfwd in E. cbn [fwd bind] in E. injection E as <-.
  rewrite (feed_wrap (MSkip n) (fun o x => skip_forward_step n o x true) (HW_skip n)). destruct (skip_feed n l) as [o ->]. cbn [bind fst snd].
  do 2 eexists. split; [reflexivity|]. rewrite somes_ltb. reflexivity.
Qed.

Lemma causal_map g : causal (MMap g).
Proof.
  intros l zs E. unfold nfwd in E. cbn [fwd bind] in E. injection E as <-.
  exists (map (fun x => Some (g x)) l), (MMap g). split.
  - induction l as [|x l IH]; [reflexivity|]. cbn [feed]. unfold nstep at 1. cbn [step bind]. rewrite IH. reflexivity.
  - induction l; simpl; congruence.
Qed.

Lemma causal_rnn c : causal (MRnn c None).
Proof.
  intros l zs E. unfold nfwd in E. cbn [fwd] in E. unfold rnn_forward in E.
  destruct l as [|x l]; [discriminate|].
  destruct (steps_good (MRnn c None) I (x :: l)) as (ys & m' & E1 & E2 & _); [discriminate|].
  exists ys, m'. split; [auto|].
  cbn [steps] in E2. unfold rnn_forward_steps in E2.
  destruct (torch_rnn c (x :: l) None) as [[w h]|]; [|discriminate]. cbn [bind of_clip] in *.
  injection E as <-. destruct (somes ys); simpl in E2; congruence.
Qed.

Lemma pre_seq ms : Forall isclip ms -> Forall pre ms -> pre (MSeq ms).
Proof.
  intros Hc Hp. induction Hp as [|m t Hm HF IH]; intros xs ws zs E.
  - unfold nfwd in E. cbn [fwd seq_fwd bind] in E. injection E as <-.
    exists (map Some xs), (MSeq []), ws. rewrite somes_some. split; [|auto].
    clear. induction xs as [|x xs IH]; [reflexivity|]. cbn [feed]. unfold nstep at 1. cbn [step seq_step bind].
    rewrite IH. reflexivity.
  - inversion Hc as [|? ? Hcm Hct]; subst. specialize (IH Hct).
    apply seq_fwd_cons in E as (y & E1 & E2); auto.
    destruct (Hm _ _ _ E1) as (ys & m' & rest & F1 & ->).
    destruct (IH _ _ _ E2) as (zs1 & mt & rest2 & F2 & ->).
    destruct (feed_seq_shape _ _ _ _ F2) as [t' ->].
    destruct (feed_seq_cons xs m t ys m' zs1 t' F1 F2) as [G1 G2].
    do 3 eexists. split; [exact G1|]. rewrite G2. reflexivity.
Qed.

Lemma F2_in_l {A B} (R : A -> B -> Prop) l k a : Forall2 R l k -> In a l -> exists b, In b k /\ R a b.
Proof. induction 1; intros []; subst; [eexists; split; [left|]; eauto|]. destruct IHForall2 as (b & ? & ?); auto. exists b; split; [right|]; auto. Qed.
Lemma F2_in_r {A B} (R : A -> B -> Prop) l k b : Forall2 R l k -> In b k -> exists a, In a l /\ R a b.
Proof. induction 1; intros []; subst; [eexists; split; [left|]; eauto|]. destruct IHForall2 as (a & ? & ?); auto. exists a; split; [right|]; auto. Qed.

Lemma pre_br sh m t r : core sh (MBR (m :: t) r) -> Forall isclip (m :: t) -> Forall pre (m :: t) ->
  t <> [] -> same_len (m :: t) ->
  (forall x, In x t -> ph x = ph m /\ per x = per m) -> pre (MBR (m :: t) r).
Proof.
  intros Hco Hc Hp Ht Hsl Hsy xs ws zs E.
  assert (Hok : Forall ok (m :: t)).
  { apply core_ok in Hco. cbn [ok] in Hco. apply allP_Forall. tauto. }
  apply br_fwd_inv in E as (zss & n & HF & -> & Hn); auto.
  (* all branches *)
  assert (G : exists ps : list ((list (option F) * md F) * list F), 
     Forall2 (fun m p => feed (nstep true) m xs = Ok (fst p)) (m :: t) ps /\
     zss = map (fun p => somes (fst (fst p)) ++ snd p) ps).
  { clear -HF Hp. revert Hp. induction HF as [|a z l zl E HF IH]; intros Hp; [exists []; split; [constructor|auto]|].
    inversion Hp as [|? ? Ha Hl]; subst. destruct (IH Hl) as (ps & I1 & I2). destruct (Ha _ _ _ E) as (ys & a' & rest & E1 & ->).
    exists (((ys, a'), rest) :: ps). split; [constructor; auto|]. simpl. congruence. }
  destruct G as (ps & Hps & ->).
  assert (Hfeed : Forall2 (fun m p => feed (nstep true) m xs = Ok p) (m :: t) (map fst ps)).
  { clear -Hps. induction Hps; simpl; auto. }
  assert (Hpat : Forall (fun ys => map is_some ys = pat (ph m) (per m) (length xs)) (map fst (map fst ps))).
  { apply Forall_forall. intros ys Hys. apply in_map_iff in Hys as (q & <- & Hq).
    destruct (F2_in_r _ _ _ q Hfeed Hq) as (a & Ha & Ea).
    rewrite Forall_forall in Hok. destruct (feed_good xs a (Hok a Ha)) as (ys2 & a2 & E2 & _ & _ & P).
    rewrite Ea in E2. injection E2 as ->. cbn [fst]. rewrite P.
    destruct Ha as [<-|Ha]; [reflexivity|]. destruct (Hsy a Ha) as [-> ->]. reflexivity. }
  exists (redl r (map fst (map fst ps))), (MBR (map snd (map fst ps)) r), (redz r (map snd ps)). split.
  - apply feed_br; auto; [discriminate|]. intros _. destruct t; [congruence|]. simpl. lia.
  - rewrite (somes_redl r _ _ Hpat).
    rewrite <- (map_map (fun p : (list (option F) * md F) * list F => (somes (fst (fst p)), snd p)) (fun p => fst p ++ snd p)).
    destruct ps as [|p0 pt].
    { inversion Hps. }
    rewrite (redz_app r (length (somes (fst (fst p0))))).
    + f_equal; f_equal; rewrite !map_map; reflexivity.
    + apply Forall_forall. intros q Hq. apply in_map_iff in Hq as (p & <- & Hq). cbn [fst].
      apply somes_length_pat. rewrite Forall_forall in Hpat.
      transitivity (pat (ph m) (per m) (length xs)); [|symmetry]; apply Hpat;
      rewrite map_map; apply (in_map (fun x => fst (fst x))); [auto|left; auto].
Qed.

Theorem core_pre sh m : core sh m -> pre m.
Proof.
  intros H. pose proof H as H'. revert H'.
  induction H as [c H|c H Hp|d f s Hs|n|g|c|ms Hms IH|m t r Hms IH Ht Hsy Hsl]; intros H'.
  - now apply pre_conv.
  - now apply pre_pool.
  - apply pre_delay. destruct Hs as [->|[_ [->| ->]]]; discriminate.
  - apply causal_pre, causal_skip.
  - apply causal_pre, causal_map.
  - apply causal_pre, causal_rnn.
  - apply pre_seq; apply Forall_forall; [intros; eapply core_isclip; eauto|auto].
  - eapply pre_br; eauto; apply Forall_forall; [intros; eapply core_isclip; eauto|auto].
Qed.

(** In terms of the emission schedule. *)
Lemma mod_S a s : 1 <= s -> S a mod s = if a mod s =? s - 1 then 0 else S (a mod s).
Proof.
  intros Hs. pose proof (Nat.mod_upper_bound a s ltac:(lia)) as B. pose proof (Nat.div_mod a s ltac:(lia)) as D.
  generalize dependent (a mod s). generalize (a / s). intros q r B D. subst a.
  destruct (Nat.eqb_spec r (s - 1)) as [->|E].
  - replace (S (s * q + (s - 1))) with (S q * s) by nia. apply Nat.mod_mul. lia.
  - symmetry. apply Nat.mod_unique with q; lia.
Qed.

Lemma pat_emits : forall n d s k, 1 <= s -> 
  pat (if k <=? d then d - k else (s - 1 - (k - d - 1) mod s)) s n = map (emits d s) (seq k n).
Proof.
  induction n as [|n IH]; intros d s k Hs; [reflexivity|].
  cbn [seq map pat]. f_equal.
  - unfold emits. destruct (Nat.leb_spec k d), (Nat.leb_spec d k); try lia.
    + replace (k - d) with 0 by lia. replace (d - k) with 0 by lia. rewrite Nat.mod_0_l by lia. reflexivity.
    + replace (k - d) with (S (k - d - 1)) by lia. rewrite Nat.sub_succ, Nat.sub_0_r, mod_S by auto.
      pose proof (Nat.mod_upper_bound (k - d - 1) s ltac:(lia)) as B. generalize dependent ((k - d - 1) mod s).
      intros r B. destruct (Nat.eqb_spec r (s - 1)); simpl.
      * subst. rewrite Nat.sub_diag. reflexivity.
      * replace (s - 1 - r) with (S (s - 1 - r - 1)) by lia. reflexivity.
  - rewrite <- IH by auto. f_equal. destruct (Nat.leb_spec k d).
    + destruct (Nat.leb_spec (S k) d).
      * replace (d - k) with (S (d - S k)) by lia. reflexivity.
      * replace (d - k) with 0 by lia. cbn [nxt]. replace (S k - d - 1) with 0 by lia.
        rewrite Nat.mod_0_l by lia. lia.
    + replace (S k <=? d) with false by lia.
      replace (S k - d - 1) with (S (k - d - 1)) by lia. rewrite mod_S by auto.
      pose proof (Nat.mod_upper_bound (k - d - 1) s ltac:(lia)) as B. generalize dependent ((k - d - 1) mod s).
      intros r B. destruct (Nat.eqb_spec r (s - 1)).
      * subst. rewrite Nat.sub_diag. cbn [nxt]. lia.
      * replace (s - 1 - r) with (S (s - 1 - S r)) by lia. reflexivity.
Qed.

Lemma pat_emits0 n d s : 1 <= s -> pat d s n = map (emits d s) (seq 0 n).
Proof. intros. rewrite <- pat_emits by auto. simpl. now rewrite Nat.sub_0_r. Qed.

Lemma len_pat d s (ys : list (option F)) : 1 <= s ->
  map is_some ys = map (emits d s) (seq 0 (length ys)) -> length (somes ys) = cnt d s (length ys).
Proof.
  intros Hs. induction ys as [|y ys IH] using rev_ind; intros Hp; [rewrite cnt_0; reflexivity|].
  rewrite app_length in *. cbn [length] in *. rewrite Nat.add_1_r in *. rewrite seq_S in Hp.
  rewrite !map_app in Hp. cbn [map Nat.add] in Hp. apply app_inj_tail in Hp as [Hp Hy].
  specialize (IH Hp). rewrite cnt_S, somes_app, app_length by auto. rewrite <- Hy.
  destruct y; simpl; lia.
Qed.

(** Outputs with the right pattern that form a prefix are the scheduled ones. *)
Lemma sched_of_prefix d s (ys : list (option F)) zs rest : 1 <= s ->
  map is_some ys = map (emits d s) (seq 0 (length ys)) -> zs = somes ys ++ rest ->
  ys = map (scheduled d s zs) (seq 0 (length ys)).
Proof.
  intros Hs. revert zs rest. induction ys as [|y ys IH] using rev_ind; intros zs rest Hp ->; [reflexivity|].
  rewrite app_length in *. cbn [length] in *. rewrite Nat.add_1_r in *. rewrite seq_S in *.
  rewrite !map_app in *. cbn [map Nat.add] in *. apply app_inj_tail in Hp as [Hp Hy].
  rewrite somes_app, <- app_assoc. rewrite <- (IH _ (somes [y] ++ rest)) by auto. f_equal. f_equal.
  unfold scheduled. rewrite <- Hy. destruct y as [y|]; cbn [is_some]; [|reflexivity].
  symmetry in Hy. cbn [is_some] in Hy. destruct (emits_cnt d s (length ys) Hs Hy) as [_ ->].
  pose proof (len_pat d s ys Hs Hp) as L.
  rewrite nth_error_app2 by lia. rewrite <- L, Nat.sub_diag. reflexivity.
Qed.

Theorem core_sched sh m xs ws zs : core sh m -> nfwd m (xs ++ ws) = Ok zs ->
  exists m', feed (nstep true) m xs = Ok (map (scheduled (ph m) (per m) zs) (seq 0 (length xs)), m').
Proof.
  intros Hc E. destruct (core_pre sh m Hc xs ws zs E) as (ys & m' & rest & Ef & Ez).
  exists m'. rewrite Ef. do 2 f_equal.
  pose proof (core_ok sh m Hc) as Ho. pose proof (per_pos m Ho) as Hs.
  destruct (feed_good xs m Ho) as (ys2 & m2 & E2 & _ & _ & Hp). rewrite Ef in E2. injection E2 as <- <-.
  assert (L : length ys = length xs).
  { rewrite <- (map_length is_some), Hp, pat_emits0, map_length, seq_length by auto. reflexivity. }
  rewrite pat_emits0 in Hp by auto. rewrite <- L in *.
  eapply sched_of_prefix; eauto.
Qed.

Theorem net_sched sh m xs ws zs : net sh m -> nfwd m (xs ++ ws) = Ok zs ->
  exists m', feed (nstep true) m xs
    = Ok (map (scheduled (Z.to_nat (del m)) (Z.to_nat (strd m)) zs) (seq 0 (length xs)), m').
Proof.
  intros Hn E. destruct (net_core sh m Hn) as [Hc []].
  rewrite inv_del, inv_strd, !Nat2Z.id. eapply core_sched; eauto.
Qed.

End NetFwd.
