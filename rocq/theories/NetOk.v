(** Networks: every call succeeds on consistent buffers, keeps them consistent,
    and forward_steps is the iteration of forward_step. *)
From Coq Require Import List ZArith Bool Arith Lia Permutation ZifyBool ZifyNat.
From Verif Require Import Base Frames CoMod Leaf Rnn Net Spec LeafSpec Ring LeafProof NetSpec.
Import ListNotations.
Ltac Zify.zify_post_hook ::= Z.div_mod_to_equations.

(* ------------------------------------------------------------------ *)
(** ** Induction on networks *)

Section Ind.
Context {F : Type}.
Variable P : md F -> Prop.
Hypothesis HDelay : forall d f sh o, P (MDelay d f sh o).
Hypothesis HSkip : forall n o, P (MSkip n o).
Hypothesis HConv : forall c o, P (MConv c o).
Hypothesis HPool : forall c o, P (MPool c o).
Hypothesis HMap : forall g, P (MMap g).
Hypothesis HRnn : forall c o, P (MRnn c o).
Hypothesis HSeq : forall ms, Forall P ms -> P (MSeq ms).
Hypothesis HBroadcast : forall n, P (MBroadcast n).
Hypothesis HPar : forall ms, Forall P ms -> P (MPar ms).
Hypothesis HDispatch : forall d, P (MDispatch d).
Hypothesis HReduce : forall r, P (MReduce r).
Hypothesis HBR : forall ms r, Forall P ms -> P (MBR ms r).
Hypothesis HCond : forall p D R a b, P a -> (forall b0, b = Some b0 -> P b0) -> P (MCond p D R a b).

Fixpoint md_ind' (m : md F) : P m :=
  let go := fix go ms : Forall P ms :=
    match ms with [] => Forall_nil P | m :: t => Forall_cons m (md_ind' m) (go t) end in
  match m with
  | MDelay d f sh o => HDelay d f sh o
  | MSkip n o => HSkip n o
  | MConv c o => HConv c o
  | MPool c o => HPool c o
  | MMap g => HMap g
  | MRnn c o => HRnn c o
  | MSeq ms => HSeq ms (go ms)
  | MBroadcast n => HBroadcast n
  | MPar ms => HPar ms (go ms)
  | MDispatch d => HDispatch d
  | MReduce r => HReduce r
  | MBR ms r => HBR ms r (go ms)
  | MCond p D R a b =>
      HCond p D R a b (md_ind' a)
        (match b as b return forall b0, b = Some b0 -> P b0 with
         | None => fun b0 E => match E in _ = o return match o with Some _ => P b0 | None => True end with
                               | eq_refl => I end
         | Some b1 => fun b0 E => match E in _ = o return match o with Some x => P x | None => True end with
                                  | eq_refl => md_ind' b1 end
         end)
  end.
End Ind.

Lemma allP_Forall {F} (P : md F -> Prop) ms : allP P ms <-> Forall P ms.
Proof.
  unfold allP. induction ms; simpl; split; intros H; auto.
  - destruct H; constructor; tauto.
  - inversion H; subst. tauto.
Qed.


(** Countdown to the next emission. *)
Definition nxt (per ph : nat) : nat := match ph with 0 => per - 1 | S p => p end.
Fixpoint pat (ph per n : nat) : list bool :=
  match n with 0 => [] | S k => (ph =? 0) :: pat (nxt per ph) per k end.

Lemma feed_app {F O} (st : O -> F -> res (option F * O)) o xs ys :
  feed st o (xs ++ ys) =
  bind (feed st o xs) (fun p => bind (feed st (snd p) ys) (fun q => Ok (fst p ++ fst q, snd q))).
Proof.
  revert o; induction xs as [|x xs IH]; intros o; simpl.
  - destruct (feed st o ys) as [[? ?]|]; reflexivity.
  - destruct (st o x) as [[y o1]|]; simpl; [|reflexivity]. rewrite IH.
    destruct (feed st o1 xs) as [[ys1 o2]|]; simpl; [|reflexivity].
    destruct (feed st o2 ys) as [[ys2 o3]|]; reflexivity.
Qed.

(* ------------------------------------------------------------------ *)
(** ** Generic CoModule *)

Section Gen.
Context {F Ob St : Type}.
Variable get_state : Ob -> option St.
Variable set_state : Ob -> St -> Ob.
Variable fst_ : F -> option St -> res (option F * option St).
Variable OKS : option St -> Prop.
Hypothesis Hst : forall x s, OKS s -> exists y s', fst_ x s = Ok (y, s') /\ OKS s' /\ (s' = None -> s = None).
Hypothesis Hgs : forall o s, get_state o = Some s -> set_state o s = o.
Hypothesis Hsg : forall o s, OKS (Some s) -> get_state (set_state o s) = Some s.
Hypothesis Hss : forall o s s', set_state (set_state o s) s' = set_state o s'.

Definition put (o : Ob) (s : option St) : Ob := match s with Some s => set_state o s | None => o end.

Lemma gen_loop xs : forall o, OKS (get_state o) ->
  exists ys s', co_loop fst_ xs (get_state o) = Ok (somes ys, s') /\
    feed (fun o x => co_forward_step get_state set_state fst_ o x true) o xs = Ok (ys, put o s') /\
    OKS s' /\ get_state (put o s') = s'.
Proof.
  induction xs as [|x xs IH]; intros o Ho; simpl.
  - exists [], (get_state o). repeat split; auto.
    + unfold put. destruct (get_state o) eqn:E; [rewrite Hgs|]; auto.
    + unfold put. destruct (get_state o) eqn:E; [rewrite Hgs|]; auto.
  - destruct (Hst x _ Ho) as (y & s1 & E & Ho1 & Hn). rewrite E. simpl.
    unfold co_forward_step at 1. rewrite E. simpl.
    change (match s1 with Some s => set_state o s | None => o end) with (put o s1).
    assert (G : get_state (put o s1) = s1).
    { unfold put. destruct s1; [apply Hsg; auto|]. apply Hn; auto. }
    destruct (IH (put o s1)) as (ys & s2 & E1 & E2 & Ho2 & G2); [now rewrite G|].
    rewrite G in E1. rewrite E1, E2. simpl.
    assert (Ep : put (put o s1) s2 = put o s2).
    { unfold put in *. destruct s1, s2; rewrite ?Hss; auto. exfalso. congruence. }
    rewrite Ep in *. exists (y :: ys), s2. repeat split; auto.
Qed.

Variable mkpad : F -> F.
Lemma gen_steps pad xs upd o : OKS (get_state o) ->
  exists ys o', feed (fun o x => co_forward_step get_state set_state fst_ o x true) o xs = Ok (ys, o') /\
    co_forward_steps get_state set_state fst_ mkpad pad o xs false upd
    = Ok (stack_outs (somes ys), if upd then o' else o) /\ OKS (get_state o').
Proof.
  intros Ho. destruct (gen_loop xs o Ho) as (ys & s' & E1 & E2 & H1 & H2).
  exists ys, (put o s'). repeat split; auto; [|congruence].
  unfold co_forward_steps. rewrite E1. simpl. rewrite app_nil_r. do 2 f_equal.
  unfold put. destruct s', upd; reflexivity.
Qed.

Lemma gen_step o x upd : OKS (get_state o) ->
  exists y s', fst_ x (get_state o) = Ok (y, s') /\
    co_forward_step get_state set_state fst_ o x upd = Ok (y, if upd then put o s' else o) /\
    OKS s' /\ get_state (put o s') = s'.
Proof.
  intros Ho. destruct (Hst x _ Ho) as (y & s1 & E & Ho1 & Hn). exists y, s1.
  repeat split; auto.
  - unfold co_forward_step. rewrite E. simpl. do 2 f_equal. unfold put. destruct s1, upd; auto.
  - unfold put. destruct s1; [apply Hsg; auto|]. apply Hn; auto.
Qed.
End Gen.

Section Net.
Context {F : Type} {FA : Frames F} {FL : FrameLaws F}.
Implicit Types m : md F.

Definition good_step (m : md F) : Prop :=
  forall x, exists y m', step m (VT x) true = Ok (of_opt y, m') /\
    step m (VT x) false = Ok (of_opt y, m) /\
    ok m' /\ per m' = per m /\ is_some y = (ph m =? 0) /\ ph m' = nxt (per m) (ph m).

Definition good_steps (m : md F) : Prop :=
  forall xs, xs <> [] -> exists ys m', feed (nstep true) m xs = Ok (ys, m') /\
    steps m (VS xs) false true = Ok (of_clip (stack_outs (somes ys)), m') /\
    steps m (VS xs) false false = Ok (of_clip (stack_outs (somes ys)), m).

(** *** Leaves *)

Definition dOKS (d : nat) (s : option (obj F)) : Prop :=
  match s with None => True | Some o => length (o_buf o) = d /\ (o_idx o < Z.of_nat d)%Z end.

Lemma delay_st d f sh x s : 0 < d -> dOKS d s ->
  exists y s', delay_fstep d f sh x s = Ok (y, Some s') /\ dOKS d (Some s') /\
   is_some y = (ph (MDelay d f sh (match s with Some o => o | None => obj_init end)) =? 0) /\
   ph (MDelay d f sh s') = nxt 1 (ph (MDelay d f sh (match s with Some o => o | None => obj_init end))).
Proof.
  intros Hd Hs. unfold delay_fstep. replace (d =? 0) with false by lia.
  set (st := match s with None => delay_init d f sh x | Some s0 => s0 end).
  assert (Hst : length (o_buf st) = d /\ (o_idx st < Z.of_nat d)%Z).
  { destruct s as [o|]; [exact Hs|]. subst st. unfold delay_init; cbn [o_buf o_idx]. rewrite repeat_length.
    split; auto. destruct sh; lia. }
  assert (Hph : ph (MDelay d f sh (match s with Some o => o | None => obj_init end)) = Z.to_nat (- o_idx st)).
  { cbn [ph]. replace (d =? 0) with false by lia. destruct s as [o|].
    - subst st. destruct Hs as [Hs _]. destruct (o_buf o) eqn:E; [simpl in *; lia|reflexivity].
    - subst st. unfold delay_init; cbn [o_buf o_idx nonempty_list obj_init]. destruct sh; lia. }
  rewrite Hph. destruct Hst as [Hl Hi].
  rewrite setz_ok; [|split; [apply Z.mod_pos_bound; lia|rewrite Hl; apply Z.mod_pos_bound; lia]].
  destruct (Z.leb_spec 0 (o_idx st)) as [H0|H0].
  - destruct (nth_error (o_buf st) (Z.to_nat (o_idx st))) as [y|] eqn:En;
      [|apply nth_error_None in En; lia].
    unfold getz. replace (Z.ltb (o_idx st) 0) with false by lia. rewrite En. cbn [bind].
    do 2 eexists. repeat split; cbn [dOKS o_buf o_idx].
    + rewrite length_set_nth. auto.
    + destruct (Z.ltb_spec 0 (o_idx st + 1)); lia.
    + simpl. lia.
    + cbn [ph o_buf o_idx]. replace (d =? 0) with false by lia.
      destruct (nonempty_list _) eqn:En2.
      2:{ exfalso. destruct (set_nth (o_buf st) _ _) eqn:Es; [|discriminate].
          apply (f_equal (@length _)) in Es. rewrite length_set_nth in Es. simpl in Es. lia. }
      replace (Z.to_nat (- o_idx st)) with 0 by lia. simpl.
      replace (Z.ltb 0 (o_idx st + 1)) with true by lia.
      assert (0 <= (o_idx st + 1) mod Z.of_nat d)%Z by (apply Z.mod_pos_bound; lia). lia.
  - cbn [bind]. do 2 eexists. repeat split; cbn [dOKS o_buf o_idx].
    + rewrite length_set_nth. auto.
    + destruct (Z.ltb_spec 0 (o_idx st + 1)); lia.
    + simpl. lia.
    + cbn [ph o_buf o_idx]. replace (d =? 0) with false by lia.
      destruct (nonempty_list _) eqn:En2.
      2:{ exfalso. destruct (set_nth (o_buf st) _ _) eqn:Es; [|discriminate].
          apply (f_equal (@length _)) in Es. rewrite length_set_nth in Es. simpl in Es. lia. }
      replace (Z.ltb 0 (o_idx st + 1)) with false by lia.
      destruct (Z.to_nat (- o_idx st)) eqn:Ez; simpl; lia.
Qed.

Lemma get_obj {B} (o : obj B) : obj_get o = if nonempty_list (o_buf o) then Some o else None.
Proof. unfold obj_get. destruct (o_buf o); reflexivity. Qed.

Definition cOKS (c : conv_cfg F) (s : option (obj (list F))) : Prop :=
  match s with
  | None => True
  | Some o => 2 <= ck c /\ length (o_buf o) = ck c - 1 /\
        Forall (fun row => length row = ck c - 1) (o_buf o) /\
        (0 <= o_idx o < Z.of_nat (ck c - 1))%Z /\ (o_str o < Z.of_nat (cs c))%Z
  end.

Lemma xcorr_len (c : conv_cfg F) x : 1 <= ck c -> exists y ys,
  (xp <- pad_time Zeros (ck c - 1) [x] ;; xcorr (cW c) None (ck c) 1 xp) = Ok (y :: ys)
  /\ length ys = ck c - 1.
Proof.
  intros Hk. simpl. unfold xcorr. rewrite !app_length, !repeat_length. simpl length.
  rewrite repeat_length.
  replace (_ <? _) with false by lia.
  replace (ck c - 1 + S (ck c - 1) - ck c) with (ck c - 1) by lia.
  rewrite Nat.div_1_r. rewrite Nat.add_1_r. cbn [seq map].
  do 2 eexists. split; [reflexivity|]. now rewrite map_length, seq_length.
Qed.

Lemma gather_total (c : conv_cfg F) (buf : list (list F)) idx : 2 <= ck c -> length buf = ck c - 1 ->
  Forall (fun row => length row = ck c - 1) buf ->
  exists g, conv_gather buf idx (ck c - 1) = Ok g.
Proof.
  intros Hk Hl Hr. unfold conv_gather.
  eexists. apply (mapM_ok _ (fun a : nat => nth (ck c - 1 - 1 - a)
     (nth (Z.to_nat ((Z.of_nat a + idx) mod Z.of_nat (ck c - 1))) buf []) f0)).
  intros a Ha%in_seq.
  assert (B : (0 <= (Z.of_nat a + idx) mod Z.of_nat (ck c - 1) < Z.of_nat (ck c - 1))%Z)
    by (apply Z.mod_pos_bound; lia).
  rewrite (getz_nth _ _ []) by lia. cbn [bind].
  assert (Hn : length (nth (Z.to_nat ((Z.of_nat a + idx) mod Z.of_nat (ck c - 1))) buf []) = ck c - 1).
  { rewrite Forall_forall in Hr. apply Hr. apply nth_In. lia. }
  rewrite (getz_nth _ _ f0) by lia. f_equal. f_equal. lia.
Qed.

Lemma Forall_set_nth {A} (P : A -> Prop) l i a : Forall P l -> P a -> Forall P (set_nth l i a).
Proof.
  revert i; induction l; intros i Hl Ha; simpl; auto. inversion Hl; subst.
  destruct i; constructor; auto.
Qed.

Lemma stride_next (s : nat) (v : Z) : 1 <= s -> (v < Z.of_nat s)%Z ->
  let ns := (v + 1)%Z in
  let ns := if Z.ltb 0 ns then (ns mod Z.of_nat s)%Z else ns in
  (ns < Z.of_nat s)%Z /\
  Z.eqb v (Z.of_nat s - 1) = (Z.to_nat (Z.of_nat s - 1 - v) =? 0) /\
  Z.to_nat (Z.of_nat s - 1 - ns) = nxt s (Z.to_nat (Z.of_nat s - 1 - v)).
Proof.
  intros Hs Hv. cbv zeta. split; [|split]; [|lia|].
  - destruct (Z.ltb_spec 0 (v + 1)); [|lia]. apply Z.mod_pos_bound; lia.
  - destruct (Z.to_nat (Z.of_nat s - 1 - v)) eqn:E; simpl.
    + assert (v = Z.of_nat s - 1)%Z by lia. subst.
      replace (Z.ltb 0 _) with true by lia.
      replace (Z.of_nat s - 1 + 1)%Z with (Z.of_nat s) by lia.
      rewrite Z.mod_same by lia. lia.
    + destruct (Z.ltb_spec 0 (v + 1)); [rewrite Z.mod_small by lia|]; lia.
Qed.

Definition cobj (s : option (obj (list F))) := match s with Some o => o | None => obj_init end.

Lemma set_nth_nonempty {A} (l : list A) i a : l <> [] -> nonempty_list (set_nth l i a) = true.
Proof. destruct l, i; simpl; congruence. Qed.

Lemma conv_st c x s : conv_reg c -> cOKS c s ->
  exists y s', conv_fstep c x s = Ok (y, s') /\ cOKS c s' /\ (s' = None -> s = None) /\
   is_some y = (ph (MConv c (cobj s)) =? 0) /\
   ph (MConv c (cobj s')) = nxt (cs c) (ph (MConv c (cobj s))).
Proof.
  intros [Hk Hs Hp H1] Ho. unfold conv_fstep.
  destruct (conv_stateless c) eqn:Es.
  - unfold conv_stateless in Es.
    assert (ck c = 1 /\ cp c = 0 /\ cs c = 1) as (K & P & S) by lia.
    assert (s = None) as -> by (destruct s; simpl in Ho; auto; lia).
    unfold conv_forward. rewrite K, P, S.
    assert (Ep : pad_time (cmode c) 0 [x] = Ok [x]) by (unfold pad_time; destruct (cmode c); reflexivity).
    rewrite Ep. cbn.
    do 2 eexists. split; [reflexivity|]. rewrite K, P. repeat split; auto.
  - assert (Hk2 : 2 <= ck c).
    { destruct (Nat.eq_dec (ck c) 1) as [E|]; [|lia]. unfold conv_stateless in Es.
      pose proof (H1 E). lia. }
    destruct (xcorr_len c x Hk) as (y0 & rest & Ex & Hlr).
    destruct (pad_time Zeros (ck c - 1) [x]) as [xp|] eqn:Ep; [|discriminate]. cbn [bind] in Ex |- *.
    rewrite Ex. cbn [bind skipn]. change (getz (y0 :: rest) 0) with (Ok y0). cbn [bind].
    set (st := match s with None => conv_init c rest | Some s0 => s0 end).
    assert (Hst : cOKS c (Some st) /\ ph (MConv c (cobj s)) = Z.to_nat (Z.of_nat (cs c) - 1 - o_str st)).
    { destruct s as [o|]; simpl cobj.
      - subst st. split; [exact Ho|]. simpl. destruct Ho as (_ & Hl & _).
        destruct (o_buf o); [simpl in Hl; lia|reflexivity].
      - subst st. unfold conv_init. cbn [cOKS o_buf o_idx o_str ph nonempty_list obj_init].
        rewrite !repeat_length. repeat split; try lia.
        apply Forall_forall. intros r Hr%repeat_spec. subst r. now rewrite map_length. }
    destruct Hst as [(_ & Hl & Hr & Hi & Hstr) Hph]. rewrite Hph.
    replace (Nat.ltb 1 (ck c)) with true by lia.
    rewrite setz_ok by lia. cbn [bind].
    destruct (stride_next (cs c) (o_str st) Hs Hstr) as (Hn1 & Hn2 & Hn3). cbv zeta in Hn1, Hn3.
    set (s2 := Obj _ _ _).
    assert (Hs2 : cOKS c (Some s2) /\ ph (MConv c s2) = nxt (cs c) (Z.to_nat (Z.of_nat (cs c) - 1 - o_str st))).
    { subst s2. split; cbn [cOKS ph o_buf o_idx o_str].
      - rewrite length_set_nth. repeat split; auto; try lia; try (apply Z.mod_pos_bound; lia).
        now apply Forall_set_nth.
      - rewrite set_nth_nonempty; [exact Hn3|]. intros E; rewrite E in Hl; simpl in Hl; lia. }
    destruct Hs2 as [Hs2 Hp2].
    destruct (Z.eqb (o_str st) (Z.of_nat (cs c) - 1)) eqn:Ev.
    + destruct (gather_total c (o_buf st) (o_idx st)) as [g Eg]; auto. rewrite Eg. cbn [bind].
      do 2 eexists. split; [reflexivity|]. split; [exact Hs2|]. split; [discriminate|].
      split; [rewrite <- Hn2; reflexivity|exact Hp2].
    + cbn [bind]. do 2 eexists. split; [reflexivity|]. split; [exact Hs2|]. split; [discriminate|].
      split; [rewrite <- Hn2; reflexivity|exact Hp2].
Qed.

Definition pOKS (c : pool_cfg F) (s : option (obj F)) : Prop :=
  match s with
  | None => True
  | Some o => length (o_buf o) = pool_buflen c /\
        (0 <= o_idx o < Z.of_nat (pk c))%Z /\ (o_str o < Z.of_nat (ps c))%Z
  end.
Definition pobj (s : option (obj F)) := match s with Some o => o | None => obj_init end.

Lemma pool_st c x s : pool_reg c -> pOKS c s ->
  exists y s', pool_fstep c x s = Ok (y, Some s') /\ pOKS c (Some s') /\
   is_some y = (ph (MPool c (pobj s)) =? 0) /\
   ph (MPool c s') = nxt (ps c) (ph (MPool c (pobj s))).
Proof.
  intros [Hk Hs Hd Hp] Ho. unfold pool_fstep.
  assert (Hkb : pk c <= pool_buflen c /\ 1 <= pool_buflen c) by (unfold pool_buflen; nia).
  set (st := match s with Some s0 => s0 | None => pool_init c (psp c x) end).
  assert (Hst : pOKS c (Some st) /\ ph (MPool c (pobj s)) = Z.to_nat (Z.of_nat (ps c) - 1 - o_str st)).
  { destruct s as [o|]; simpl pobj; subst st.
    - split; [exact Ho|]. simpl. destruct Ho as (Hl & _). destruct (o_buf o); [simpl in Hl; lia|reflexivity].
    - unfold pool_init. cbn [pOKS o_buf o_idx o_str ph nonempty_list obj_init].
      rewrite repeat_length. unfold pool_buflen in *. repeat split; lia. }
  destruct Hst as [(Hl & Hi & Hstr) Hph]. rewrite Hph.
  rewrite setz_ok by lia. cbn [bind].
  destruct (stride_next (ps c) (o_str st) Hs Hstr) as (Hn1 & Hn2 & Hn3). cbv zeta in Hn1, Hn3.
  set (buf' := set_nth _ _ _).
  assert (Hl' : length buf' = pool_buflen c) by (unfold buf'; now rewrite length_set_nth).
  assert (Hi' : (0 <= (o_idx st + 1) mod Z.of_nat (pk c) < Z.of_nat (pk c))%Z) by (apply Z.mod_pos_bound; lia).
  set (s2 := Obj _ _ _).
  assert (Hs2 : pOKS c (Some s2) /\ ph (MPool c s2) = nxt (ps c) (Z.to_nat (Z.of_nat (ps c) - 1 - o_str st))).
  { subst s2. split; cbn [pOKS ph o_buf o_idx o_str]; [repeat split; auto; lia|].
    unfold buf'. rewrite set_nth_nonempty; [exact Hn3|]. intros E; rewrite E in Hl; simpl in Hl; lia. }
  destruct Hs2 as [Hs2 Hp2].
  destruct (Z.eqb (o_str st) (Z.of_nat (ps c) - 1)) eqn:Ev.
  - destruct (Nat.eqb (pd c) 1).
    + cbn [bind]. do 2 eexists. split; [reflexivity|]. split; [exact Hs2|].
      split; [rewrite <- Hn2; reflexivity|exact Hp2].
    + erewrite (mapM_ok _ (fun i => nth (Z.to_nat ((Z.of_nat (i * pd c) + (o_idx st + 1) mod Z.of_nat (pk c)) mod Z.of_nat (length buf'))) buf' f0)).
      2:{ intros i _. apply getz_nth. apply Z.mod_pos_bound. lia. }
      cbn [bind]. do 2 eexists. split; [reflexivity|]. split; [exact Hs2|].
      split; [rewrite <- Hn2; reflexivity|exact Hp2].
  - cbn [bind]. do 2 eexists. split; [reflexivity|]. split; [exact Hs2|].
    split; [rewrite <- Hn2; reflexivity|exact Hp2].
Qed.


Lemma feed_wrap {Ob} (W : Ob -> md F) (stp : Ob -> F -> res (option F * Ob)) :
  (forall o x, step (W o) (VT x) true = bind (stp o x) (fun p => Ok (of_opt (fst p), W (snd p)))) ->
  forall xs o, feed (nstep true) (W o) xs = bind (feed stp o xs) (fun p => Ok (fst p, W (snd p))).
Proof.
  intros HW. induction xs as [|x xs IH]; intros o; [reflexivity|].
  cbn [feed]. unfold nstep at 1. rewrite HW. destruct (stp o x) as [[y o1]|]; [|reflexivity].
  cbn [bind fst snd].
  assert (E : match of_opt y with
     | VT y0 => Ok (Some y0, W o1) | VNone => Ok (None, W o1) | _ => Err TypeError end = Ok (y, W o1))
   by (destruct y; reflexivity).
  rewrite E. cbn [bind]. rewrite IH. destruct (feed stp o1 xs) as [[ys o2]|]; reflexivity.
Qed.

Ltac bind_eta := match goal with |- bind ?r _ = bind ?r' _ => change r with r'; destruct r' as [[? ?]|]; reflexivity end.

Lemma obj_get_some {B} (o s : obj B) : obj_get o = Some s -> obj_set o s = o.
Proof. unfold obj_get, obj_set. destruct (o_buf o); congruence. Qed.

(** *** Delay *)

Lemma delay_good d f sh o : ok (MDelay d f sh o) ->
  good_step (MDelay d f sh o) /\ good_steps (MDelay d f sh o).
Proof.
  intros Ho. destruct (Nat.eq_dec d 0) as [->|Hd].
  - split.
    + intros x. exists (Some x), (MDelay 0 f sh o). repeat split; auto.
    + intros xs Hx. exists (map Some xs), (MDelay 0 f sh o).
      assert (E : somes (map Some xs) = xs) by (clear; induction xs; simpl; congruence).
      rewrite E. repeat split.
      * clear. induction xs as [|x xs IH]; [reflexivity|]. cbn [feed]. unfold nstep at 1. simpl.
        rewrite IH. reflexivity.
      * simpl. destruct xs; [congruence|reflexivity].
      * simpl. destruct xs; [congruence|reflexivity].
  - assert (Hk : dOKS d (obj_get o)).
    { rewrite get_obj. destruct Ho as [|[E|E]]; [lia|rewrite E; exact I|].
      destruct (nonempty_list (o_buf o)); simpl; auto. }
    assert (Hph : ph (MDelay d f sh (match obj_get o with Some o => o | None => obj_init end)) = ph (MDelay d f sh o)).
    { rewrite get_obj. simpl. destruct (nonempty_list (o_buf o)) eqn:E; [now rewrite E|reflexivity]. }
    assert (Hst : forall x s, dOKS d s -> exists y s', delay_fstep d f sh x s = Ok (y, s') /\ dOKS d s' /\ (s' = None -> s = None)).
    { intros x s Hs. destruct (delay_st d f sh x s) as (y & s' & E & H & _); [lia|auto|].
      exists y, (Some s'). repeat split; try apply H; auto. discriminate. }
    assert (Hsg : forall o s : obj F, dOKS d (Some s) -> obj_get (obj_set o s) = Some s).
    { intros o1 s [Hs _]. unfold obj_set. rewrite get_obj. destruct (o_buf s); [simpl in Hs; lia|reflexivity]. }
    assert (HW : forall o x, step (MDelay d f sh o) (VT x) true
        = bind (co_forward_step obj_get obj_set (delay_fstep d f sh) o x true) (fun p => Ok (of_opt (fst p), MDelay d f sh (snd p)))).
    { intros o1 x. cbn [step]. unfold delay_forward_step. replace (d =? 0) with false by lia.
      bind_eta. }
    split.
    + intros x. destruct (delay_st d f sh x (obj_get o)) as (y & s' & E & H & E1 & E2); [lia|auto|].
      rewrite Hph in E1, E2. exists y, (MDelay d f sh s').
      cbn [step]. unfold delay_forward_step. replace (d =? 0) with false by lia.
      unfold co_forward_step. rewrite E. cbn [bind]. repeat split; auto.
      simpl. right; right. exact H.
    + intros xs Hx.
      destruct (gen_steps obj_get obj_set (delay_fstep d f sh) (dOKS d) Hst obj_get_some Hsg (fun _ _ _ => eq_refl)
         (make_padding f) d xs true o Hk) as (ys & o' & E1 & E2 & _).
      destruct (gen_steps obj_get obj_set (delay_fstep d f sh) (dOKS d) Hst obj_get_some Hsg (fun _ _ _ => eq_refl)
         (make_padding f) d xs false o Hk) as (ys' & o'' & E1' & E2' & _).
      rewrite E1 in E1'. injection E1' as <- <-.
      exists ys, (MDelay d f sh o'). split.
      * rewrite (feed_wrap (MDelay d f sh) _ HW). rewrite E1. reflexivity.
      * cbn [steps]. unfold delay_forward_steps. replace (d =? 0) with false by lia.
        rewrite E2, E2'. split; reflexivity.
Qed.

Lemma skip_good n o : ok (MSkip n o : md F) ->
  good_step (MSkip n o) /\ good_steps (MSkip n o).
Proof.
  intros Ho. set (OKS := fun s : option Z => match s with Some z => (z <= 0)%Z | None => False end).
  assert (Hst : forall x s, OKS s -> exists y s', skip_fstep (F:=F) n x s = Ok (y, s') /\ OKS s' /\ (s' = None -> s = None)).
  { intros x [z|]; simpl; [|tauto]. intros Hz. unfold skip_fstep.
    destruct (Z.leb_spec 0 z); do 2 eexists; (split; [reflexivity|]); simpl; (split; [lia|discriminate]). }
  assert (HW : forall o x, step (MSkip n o) (VT x) true
        = bind (co_forward_step skip_get skip_set (skip_fstep n) o x true) (fun p => Ok (of_opt (fst p), MSkip n (snd p)))).
  { intros o1 x. cbn [step]. bind_eta. }
  assert (Hgs : forall o s : Z, skip_get o = Some s -> skip_set o s = o).
  { unfold skip_get, skip_set. congruence. }
  split.
  - intros x. cbn [step]. unfold skip_forward_step, co_forward_step, skip_get, skip_fstep. simpl in Ho.
    destruct (Z.leb_spec 0 o); cbn [bind].
    + exists (Some x), (MSkip n o). assert (o = 0)%Z by lia. subst o. repeat split; auto.
    + exists None, (MSkip n (o + 1)%Z). unfold skip_set. repeat split; cbn [ok ph is_some]; try lia.
      destruct (Z.to_nat (- o)) eqn:E; cbn [nxt]; lia.
  - intros xs Hx.
    destruct (gen_steps skip_get skip_set (skip_fstep n) OKS Hst Hgs (fun _ _ _ => eq_refl) (fun _ _ _ => eq_refl)
         (fun _ : F => f0) 0 xs true o Ho) as (ys & o' & E1 & E2 & _).
    destruct (gen_steps skip_get skip_set (skip_fstep n) OKS Hst Hgs (fun _ _ _ => eq_refl) (fun _ _ _ => eq_refl)
         (fun _ : F => f0) 0 xs false o Ho) as (ys' & o'' & E1' & E2' & _).
    rewrite E1 in E1'. injection E1' as <- <-.
    exists ys, (MSkip n o'). split.
    + rewrite (feed_wrap (MSkip n) _ HW). rewrite E1. reflexivity.
    + cbn [steps]. unfold skip_forward_steps. rewrite E2, E2'. split; reflexivity.
Qed.

Lemma conv_good c o : ok (MConv c o) ->
  good_step (MConv c o) /\ good_steps (MConv c o).
Proof.
  intros [Hc Ho].
  assert (Hk : cOKS c (obj_get o)).
  { rewrite get_obj. destruct Ho as [E|E]; [rewrite E; exact I|].
    destruct (nonempty_list (o_buf o)); simpl; auto. }
  assert (Hph : ph (MConv c (cobj (obj_get o))) = ph (MConv c o)).
  { rewrite get_obj. simpl. destruct (nonempty_list (o_buf o)) eqn:E; simpl; [now rewrite E|reflexivity]. }
  assert (Hst : forall x s, cOKS c s -> exists y s', conv_fstep c x s = Ok (y, s') /\ cOKS c s' /\ (s' = None -> s = None)).
  { intros x s Hs. destruct (conv_st c x s) as (y & s' & E & H & E0 & _); auto.
    exists y, s'. auto. }
  assert (Hsg : forall o s : obj (list F), cOKS c (Some s) -> obj_get (obj_set o s) = Some s).
  { intros o1 s (H2 & Hs & _). unfold obj_set. rewrite get_obj. destruct (o_buf s); [simpl in Hs; lia|reflexivity]. }
  assert (HW : forall o x, step (MConv c o) (VT x) true
        = bind (conv_forward_step c o x true) (fun p => Ok (of_opt (fst p), MConv c (snd p)))).
  { intros o1 x. cbn [step]. bind_eta. }
  split.
  - intros x. destruct (conv_st c x (obj_get o)) as (y & s' & E & H & E0 & E1 & E2); auto.
    rewrite Hph in E1, E2. exists y, (MConv c (match s' with Some s => s | None => o end)).
    cbn [step]. unfold conv_forward_step, co_forward_step. rewrite E. cbn [bind].
    unfold obj_set. repeat split; auto.
    + destruct s'; reflexivity.
    + apply Hc.
    + apply Hc.
    + apply Hc.
    + apply Hc.
    + destruct s' as [s|]; [right; exact H|exact Ho].
    + change (per (MConv c o)) with (cs c). rewrite <- E2. destruct s' as [s|]; [reflexivity|].
      rewrite <- Hph. rewrite E0 by reflexivity. reflexivity.
  - intros xs Hx.
    destruct (gen_steps obj_get obj_set (conv_fstep c) (cOKS c) Hst obj_get_some Hsg (fun _ _ _ => eq_refl)
         (make_padding (cfill c)) (cp c) xs true o Hk) as (ys & o' & E1 & E2 & _).
    destruct (gen_steps obj_get obj_set (conv_fstep c) (cOKS c) Hst obj_get_some Hsg (fun _ _ _ => eq_refl)
         (make_padding (cfill c)) (cp c) xs false o Hk) as (ys' & o'' & E1' & E2' & _).
    rewrite E1 in E1'. injection E1' as <- <-.
    exists ys, (MConv c o'). split.
    + rewrite (feed_wrap (MConv c) _ HW). unfold conv_forward_step. rewrite E1. reflexivity.
    + cbn [steps]. unfold conv_forward_steps. rewrite E2, E2'. split; reflexivity.
Qed.

Lemma pool_good c o : ok (MPool c o) ->
  good_step (MPool c o) /\ good_steps (MPool c o).
Proof.
  intros [Hc Ho].
  assert (Hk : pOKS c (obj_get o)).
  { rewrite get_obj. destruct Ho as [E|E]; [rewrite E; exact I|].
    destruct (nonempty_list (o_buf o)); simpl; auto. }
  assert (Hph : ph (MPool c (pobj (obj_get o))) = ph (MPool c o)).
  { rewrite get_obj. simpl. destruct (nonempty_list (o_buf o)) eqn:E; simpl; [now rewrite E|reflexivity]. }
  assert (Hst : forall x s, pOKS c s -> exists y s', pool_fstep c x s = Ok (y, s') /\ pOKS c s' /\ (s' = None -> s = None)).
  { intros x s Hs. destruct (pool_st c x s) as (y & s' & E & H & E0 & _); auto.
    exists y, (Some s'). split; [exact E|]. split; [exact H|]. discriminate. }
  assert (Hsg : forall o s : obj F, pOKS c (Some s) -> obj_get (obj_set o s) = Some s).
  { intros o1 s (Hs & _). unfold obj_set. rewrite get_obj. destruct (o_buf s); [|reflexivity].
    unfold pool_buflen in Hs. rewrite Nat.add_1_r in Hs. discriminate. }
  assert (HW : forall o x, step (MPool c o) (VT x) true
        = bind (pool_forward_step c o x true) (fun p => Ok (of_opt (fst p), MPool c (snd p)))).
  { intros o1 x. cbn [step]. bind_eta. }
  split.
  - intros x. destruct (pool_st c x (obj_get o)) as (y & s' & E & H & E1 & E2); auto.
    rewrite Hph in E1, E2. exists y, (MPool c s').
    cbn [step]. unfold pool_forward_step, co_forward_step. rewrite E. cbn [bind].
    unfold obj_set. repeat split; auto.
    all: try apply Hc.
  - intros xs Hx.
    destruct (gen_steps obj_get obj_set (pool_fstep c) (pOKS c) Hst obj_get_some Hsg (fun _ _ _ => eq_refl)
         (make_padding (pfill c)) (pp c) xs true o Hk) as (ys & o' & E1 & E2 & _).
    destruct (gen_steps obj_get obj_set (pool_fstep c) (pOKS c) Hst obj_get_some Hsg (fun _ _ _ => eq_refl)
         (make_padding (pfill c)) (pp c) xs false o Hk) as (ys' & o'' & E1' & E2' & _).
    rewrite E1 in E1'. injection E1' as <- <-.
    exists ys, (MPool c o'). split.
    + rewrite (feed_wrap (MPool c) _ HW). unfold pool_forward_step. rewrite E1. reflexivity.
    + cbn [steps]. unfold pool_forward_steps. rewrite E2, E2'. split; reflexivity.
Qed.

Lemma somes_some (xs : list F) : somes (map Some xs) = xs.
Proof. induction xs; simpl; congruence. Qed.

Lemma map_good g : good_step (MMap g) /\ good_steps (MMap g).
Proof.
  split.
  - intros x. exists (Some (g x)), (MMap g). repeat split; auto.
  - intros xs Hx. exists (map Some (map g xs)), (MMap g). rewrite somes_some. repeat split.
    + clear. induction xs as [|x xs IH]; [reflexivity|]. cbn [feed map]. unfold nstep at 1. simpl.
      rewrite IH. reflexivity.
    + simpl. destruct xs; [congruence|reflexivity].
    + simpl. destruct xs; [congruence|reflexivity].
Qed.

(** *** Recurrent modules: time-major equals layer-major *)

Lemma rnn_layer_app cell (h : hid F) xs ys :
  rnn_layer cell h (xs ++ ys)
  = (fst (rnn_layer cell h xs) ++ fst (rnn_layer cell (snd (rnn_layer cell h xs)) ys),
     snd (rnn_layer cell (snd (rnn_layer cell h xs)) ys)).
Proof.
  revert h; induction xs as [|x xs IH]; intros h; simpl.
  - destruct (rnn_layer cell h ys); reflexivity.
  - destruct (cell h x) as [h1 y]. rewrite IH.
    destruct (rnn_layer cell h1 xs) as [ys1 h2]. simpl.
    destruct (rnn_layer cell h2 ys) as [ys2 h3]; reflexivity.
Qed.

Lemma rnn_layer_len cell (h : hid F) xs : length (fst (rnn_layer cell h xs)) = length xs.
Proof.
  revert h; induction xs as [|x xs IH]; intros h; simpl; auto.
  destruct (cell h x) as [h1 y]. specialize (IH h1). destruct (rnn_layer cell h1 xs); simpl in *. congruence.
Qed.

Lemma rnn_layers_cons c ct (h : hid F) ht xs :
  rnn_layers (c :: ct) (h :: ht) xs
  = (fst (rnn_layers ct ht (fst (rnn_layer c h xs))),
     snd (rnn_layer c h xs) :: snd (rnn_layers ct ht (fst (rnn_layer c h xs)))).
Proof.
  simpl. destruct (rnn_layer c h xs) as [ys h1]. simpl.
  destruct (rnn_layers ct ht ys); reflexivity.
Qed.

Lemma rnn_layers_len cells : forall (hs : list (hid F)) xs, length hs = length cells ->
  length (fst (rnn_layers cells hs xs)) = length xs /\
  length (snd (rnn_layers cells hs xs)) = length cells.
Proof.
  induction cells as [|c ct IH]; intros [|h ht] xs Hl; try discriminate; [split; reflexivity|].
  rewrite rnn_layers_cons. cbn [fst snd length].
  destruct (IH ht (fst (rnn_layer c h xs))) as [E1 E2]; [simpl in Hl; lia|].
  rewrite E1, E2, rnn_layer_len. auto.
Qed.

Lemma rnn_layers_app cells : forall (hs : list (hid F)) xs ys,
  length hs = length cells ->
  rnn_layers cells hs (xs ++ ys)
  = (fst (rnn_layers cells hs xs) ++ fst (rnn_layers cells (snd (rnn_layers cells hs xs)) ys),
     snd (rnn_layers cells (snd (rnn_layers cells hs xs)) ys)).
Proof.
  induction cells as [|c ct IH]; intros [|h ht] xs ys Hl; try discriminate; [reflexivity|].
  rewrite (rnn_layers_cons c ct h ht xs). cbn [fst snd].
  rewrite !rnn_layers_cons, rnn_layer_app. cbn [fst snd].
  rewrite IH by (simpl in Hl; lia). reflexivity.
Qed.

Definition rnn_hs (c : rnn_cfg F) (o : option (list (hid F))) : list (hid F) :=
  match o with Some h => h | None => repeat (r_h0 c) (length (r_cells c)) end.

Lemma rnn_hs_len c o : ok (MRnn c o) -> length (rnn_hs c o) = length (r_cells c).
Proof. destruct o; simpl; auto. intros _. apply repeat_length. Qed.

Lemma torch_rnn_ok c xs o : ok (MRnn c o) -> xs <> [] ->
  torch_rnn c xs o = Ok (rnn_layers (r_cells c) (rnn_hs c o) xs).
Proof.
  intros Ho Hx. unfold torch_rnn. fold (rnn_hs c o). destruct xs; [congruence|].
  rewrite rnn_hs_len by auto. now rewrite Nat.eqb_refl.
Qed.

Lemma rnn_step_eq c o x upd : ok (MRnn c o) ->
  exists y, fst (rnn_layers (r_cells c) (rnn_hs c o) [x]) = [y] /\
  step (MRnn c o) (VT x) upd
  = Ok (VT y, MRnn c (if upd then Some (snd (rnn_layers (r_cells c) (rnn_hs c o) [x])) else o)).
Proof.
  intros Ho. destruct (rnn_layers_len (r_cells c) (rnn_hs c o) [x] (rnn_hs_len c o Ho)) as [E _].
  destruct (fst (rnn_layers (r_cells c) (rnn_hs c o) [x])) as [|y [|? ?]] eqn:Ey; try discriminate.
  exists y. split; [reflexivity|]. cbn [step].
  unfold rnn_forward_step, rnn_fstep. rewrite torch_rnn_ok by (auto; discriminate).
  destruct (rnn_layers (r_cells c) (rnn_hs c o) [x]) as [ys hs]. cbn [fst] in Ey. subst ys.
  destruct upd; reflexivity.
Qed.

Lemma rnn_ok_next c o xs : ok (MRnn c o) -> ok (MRnn c (Some (snd (rnn_layers (r_cells c) (rnn_hs c o) xs)))).
Proof. intros Ho. simpl. now apply rnn_layers_len, rnn_hs_len. Qed.

Lemma rnn_good c o : ok (MRnn c o) -> good_step (MRnn c o) /\ good_steps (MRnn c o).
Proof.
  intros Ho. split.
  - intros x. destruct (rnn_step_eq c o x true Ho) as (y & Ey & E).
    destruct (rnn_step_eq c o x false Ho) as (y' & Ey' & E').
    rewrite Ey in Ey'. injection Ey' as <-.
    exists (Some y). eexists. split; [exact E|]. split; [exact E'|]. split; [|repeat split].
    now apply rnn_ok_next.
  - intros xs Hx.
    exists (map Some (fst (rnn_layers (r_cells c) (rnn_hs c o) xs))),
      (MRnn c (Some (snd (rnn_layers (r_cells c) (rnn_hs c o) xs)))).
    rewrite somes_some. split; [|cbn [steps]; unfold rnn_forward_steps; rewrite torch_rnn_ok by auto].
    + revert o Ho Hx. induction xs as [|x xs IH]; intros o Ho Hx; [congruence|].
      destruct (rnn_step_eq c o x true Ho) as (y & Ey & E).
      cbn [feed]. unfold nstep at 1. rewrite E. cbn [bind].
      change (x :: xs) with ([x] ++ xs). rewrite rnn_layers_app by (apply rnn_hs_len; auto).
      rewrite Ey. cbn [fst snd app map].
      destruct xs as [|x2 xs].
      * cbn [feed bind]. do 2 f_equal.
        -- cbn [map]. destruct (rnn_layers_len (r_cells c) (snd (rnn_layers (r_cells c) (rnn_hs c o) [x])) []) as [L _].
           ++ apply rnn_layers_len, rnn_hs_len; auto.
           ++ apply length_zero_iff_nil in L. rewrite L. reflexivity.
        -- f_equal. f_equal. pose proof (rnn_layers_app (r_cells c) (rnn_hs c o) [x] [] (rnn_hs_len c o Ho)) as A.
           rewrite app_nil_r in A. apply (f_equal snd) in A. exact A.
      * rewrite IH; [|now apply rnn_ok_next|discriminate]. reflexivity.
    + destruct (rnn_layers_len (r_cells c) (rnn_hs c o) xs (rnn_hs_len c o Ho)) as [L _].
      destruct (rnn_layers (r_cells c) (rnn_hs c o) xs) as [ys hs]. cbn [fst snd] in *.
      destruct ys; [destruct xs; [congruence|discriminate]|]. split; reflexivity.
Qed.


Lemma F2_length {A B} (R : A -> B -> Prop) l k : Forall2 R l k -> length l = length k.
Proof. induction 1; simpl; congruence. Qed.
Lemma F2_impl {A B} (R Q : A -> B -> Prop) l k : (forall a b, R a b -> Q a b) -> Forall2 R l k -> Forall2 Q l k.
Proof. induction 2; auto. Qed.

(** *** Containers: one step *)

Lemma of_opt_none (y : option F) : is_none (of_opt y) = negb (is_some y).
Proof. destruct y; reflexivity. Qed.

Lemma per_pos m : ok m -> 1 <= per m.
Proof.
  induction m using md_ind'; simpl; try (intros; lia); try tauto.
  - intros [[] _]; auto.
  - intros [[] _]; auto.
  - induction ms as [|m t IH]; simpl; [lia|]. inversion H; subst. intros [Hm Ht].
    specialize (IH H3 Ht). specialize (H2 Hm). nia.
  - intros (Ha & Hs & _). destruct ms as [|m t]; [tauto|]. inversion H; subst. destruct Ha. auto.
Qed.

Lemma seq_step_good ms : Forall (fun m => ok m -> good_step m) ms -> ok (MSeq ms) -> good_step (MSeq ms).
Proof.
  induction ms as [|m t IH]; intros HF Ho x.
  - exists (Some x), (MSeq []). repeat split; auto.
  - inversion HF as [|? ? Hm Ht]; subst. destruct Ho as [Hom Hot].
    destruct (Hm Hom x) as (y & m' & E1 & E2 & Ho' & Hp & Hy & Hph).
    pose proof (per_pos m Hom) as Hpm.
    destruct y as [y|]; simpl in Hy.
    + destruct (IH Ht Hot y) as (z & mt & F1 & F2 & Go & Gp & Gy & Gph).
      cbn [step] in F1, F2 |- *.
      destruct (seq_step (fun m v => step m v true) t (VT y)) as [[w t']|] eqn:Es; [|discriminate].
      injection F1 as -> <-.
      destruct (seq_step (fun m v => step m v false) t (VT y)) as [[w2 t2]|] eqn:Es2; [|discriminate].
      injection F2 as -> ->.
      exists z, (MSeq (m' :: t')). cbn [seq_step]. rewrite E1, E2. cbn [bind of_opt is_none].
      rewrite Es, Es2. cbn [bind]. repeat split; auto.
      * cbn [per fold_right] in Gp |- *. rewrite Hp. cbn [per] in Gp. now rewrite Gp.
      * change (ph (MSeq (m :: t))) with (ph m + per m * ph (MSeq t)).
        rewrite Gy. assert (ph m = 0) by lia. nia.
      * change (ph (MSeq (m :: t))) with (ph m + per m * ph (MSeq t)).
        change (ph (MSeq (m' :: t'))) with (ph m' + per m' * ph (MSeq t')).
        change (per (MSeq (m :: t))) with (per m * per (MSeq t)).
        pose proof (per_pos (MSeq t) Hot).
        rewrite Gph, Hp, Hph. assert (ph m = 0) as -> by lia. cbn [nxt Nat.add].
        destruct (ph (MSeq t)); cbn [nxt]; [rewrite Nat.mul_0_r; cbn [nxt]; nia|].
        destruct (per m * S n) eqn:Em; cbn [nxt]; nia.
    + exists None, (MSeq (m' :: t)). cbn [step seq_step]. rewrite E1, E2. cbn [bind of_opt is_none].
      repeat split; auto.
      * cbn [per fold_right]. now rewrite Hp.
      * change (ph (MSeq (m :: t))) with (ph m + per m * ph (MSeq t)). cbn [is_some]. lia.
      * change (ph (MSeq (m :: t))) with (ph m + per m * ph (MSeq t)).
        change (ph (MSeq (m' :: t))) with (ph m' + per m' * ph (MSeq t)).
        rewrite Hp, Hph. destruct (ph m); [discriminate|]. reflexivity.
Qed.

(** The reduction on optional frames: None as soon as one input is None. *)
Definition oop (r : red F) (a b : option F) : option F :=
  match a, b with Some x, Some y => Some (r_op r x y) | _, _ => None end.
Definition redo (r : red F) (ys : list (option F)) : option F :=
  match ys with [] => None | h :: t => fold_left (oop r) t h end.

Lemma fold_oop_none r t : fold_left (oop r) t None = None.
Proof. induction t; simpl; auto. Qed.

Lemma fold_op_vt r t : forall x,
  (forallb is_tensor (map of_opt t) = true -> fold_op r (VT x) (map of_opt t) = Ok (of_opt (fold_left (oop r) t (Some x)))) /\
  (forallb is_tensor (map of_opt t) = false -> fold_left (oop r) t (Some x) = None).
Proof.
  induction t as [|[y|] t IH]; intros x; split; simpl; intros H; auto; try discriminate.
  - apply IH; auto.
  - apply IH; auto.
  - apply fold_oop_none.
Qed.

Lemma any_none_tensors l : forallb is_tensor l = true -> any_none (F:=F) l = Ok false.
Proof. induction l as [|[| | |] l IH]; simpl; auto; discriminate. Qed.

Lemma br_reduce r (ys : list (option F)) : ys <> [] -> (r_min2 r = true -> 2 <= length ys) ->
  (if forallb is_tensor (map of_opt ys) then reduce_vals r (map of_opt ys) else Ok VNone)
  = Ok (of_opt (redo r ys)).
Proof.
  intros Hn H2. destruct ys as [|h t]; [congruence|].
  destruct (forallb is_tensor (map of_opt (h :: t))) eqn:E.
  - unfold reduce_vals. rewrite any_none_tensors by auto. cbn [bind map].
    replace (r_min2 r && Nat.ltb (length (of_opt h :: map of_opt t)) 2) with false.
    2:{ destruct (r_min2 r); simpl; [|auto]. specialize (H2 eq_refl). cbn [length] in H2 |- *.
        rewrite map_length. lia. }
    simpl in E. apply andb_prop in E as [Eh Et]. destruct h as [x|]; [|discriminate].
    cbn [of_opt redo]. apply fold_op_vt; auto.
  - cbn [redo]. simpl in E. destruct h as [x|].
    + simpl in E. destruct (fold_op_vt r t x) as [_ H]. rewrite H; auto.
    + now rewrite fold_oop_none.
Qed.

(** One step of a branch. *)
Definition stepR (x : F) (m : md F) (p : option F * md F) : Prop :=
  step m (VT x) true = Ok (of_opt (fst p), snd p) /\
  step m (VT x) false = Ok (of_opt (fst p), m) /\
  ok (snd p) /\ per (snd p) = per m /\ is_some (fst p) = (ph m =? 0) /\ ph (snd p) = nxt (per m) (ph m).

Lemma br_run_stepR x ms ps : Forall2 (stepR x) ms ps ->
  br_run (fun m v => step m v true) ms (VT x) = Ok (map of_opt (map fst ps), map snd ps) /\
  br_run (fun m v => step m v false) ms (VT x) = Ok (map of_opt (map fst ps), ms).
Proof.
  induction 1 as [|m p ms ps H HF IH]; [split; reflexivity|].
  destruct H as (E1 & E2 & _). destruct IH as [I1 I2].
  cbn [br_run]. rewrite E1, E2, I1, I2. split; reflexivity.
Qed.

Lemma Forall_exists2 {A B} (R : A -> B -> Prop) l : Forall (fun a => exists b, R a b) l ->
  exists bs, Forall2 R l bs.
Proof.
  induction 1 as [|a l [b Hb] _ [bs IH]]; [exists []; auto|]. exists (b :: bs). auto.
Qed.

Lemma br_step_good ms r : Forall (fun m => ok m -> good_step m) ms -> ok (MBR ms r) -> good_step (MBR ms r).
Proof.
  intros HF (Hok & Hsy & H2) x. apply allP_Forall in Hok.
  assert (exists ps, Forall2 (stepR x) ms ps) as [ps Hps].
  { apply Forall_exists2. rewrite Forall_forall in HF, Hok |- *. intros m Hm.
    destruct (HF m Hm (Hok m Hm) x) as (y & m' & H). exists (y, m'). exact H. }
  destruct (br_run_stepR x ms ps Hps) as [R1 R2].
  pose proof (F2_length _ _ _ Hps) as Hlen.
  assert (Hn : map fst ps <> []).
  { destruct ms; [tauto|]. inversion Hps; subst. discriminate. }
  exists (redo r (map fst ps)), (MBR (map snd ps) r).
  cbn [step]. rewrite R1, R2. cbn [bind].
  rewrite br_reduce; auto.
  2:{ intros E. rewrite map_length. specialize (H2 E). lia. }
  cbn [bind]. split; [reflexivity|]. split; [reflexivity|].
  destruct ms as [|m t]; [tauto|]. inversion Hps as [|? p ? pt Hp Hpt]; subst.
  destruct Hp as (_ & _ & Ho & Hper & Hy & Hph).
  assert (Hsync : Forall2 (fun m' p => is_some (fst p) = (ph m =? 0) /\ ok (snd p) /\
       ph (snd p) = nxt (per m) (ph m) /\ per (snd p) = per m) t pt).
  { apply allP_Forall in Hsy. clear - Hpt Hsy. induction Hpt as [|a b t pt H HF IH]; auto.
    inversion Hsy as [|? ? [Ha1 Ha2] ?]; subst. constructor; auto.
    destruct H as (_ & _ & H1 & H3 & H4 & H5). rewrite Ha1, Ha2 in *. auto. }
  split; [|split; [|split]].
  - cbn [ok map]. split; [|split].
    + apply allP_Forall. constructor; auto. clear - Hsync. induction Hsync; simpl; auto.
      constructor; tauto.
    + apply allP_Forall. rewrite Hph, Hper. clear - Hsync. induction Hsync; simpl; auto. constructor; tauto.
    + intros E. specialize (H2 E). cbn [length] in *. rewrite map_length. inversion Hlen; lia.
  - exact Hper.
  - cbn [map redo]. change (ph (MBR (m :: t) r)) with (ph m).
    destruct (fst p) as [y|]; cbn [is_some] in Hy |- *.
    + rewrite <- Hy. symmetry in Hy. rewrite Hy in Hsync. clear -Hsync.
      revert y. induction Hsync as [|a b t pt [H _] HF IH]; intros y; [reflexivity|].
      cbn [map fold_left]. destruct (fst b); [|discriminate]. apply IH.
    + rewrite fold_oop_none. exact Hy.
  - exact Hph.
Qed.

Theorem step_good m : ok m -> good_step m.
Proof.
  induction m using md_ind'; intros Ho; try (simpl in Ho; tauto).
  - now apply delay_good.
  - now apply skip_good.
  - now apply conv_good.
  - now apply pool_good.
  - now apply map_good.
  - now apply rnn_good.
  - now apply seq_step_good.
  - now apply br_step_good.
Qed.

Lemma nstep_good m x : ok m -> exists y m', nstep true m x = Ok (y, m') /\ nstep false m x = Ok (y, m) /\
  ok m' /\ per m' = per m /\ is_some y = (ph m =? 0) /\ ph m' = nxt (per m) (ph m).
Proof.
  intros Ho. destruct (step_good m Ho x) as (y & m' & E1 & E2 & H). exists y, m'.
  unfold nstep. rewrite E1, E2. destruct y; (split; [reflexivity|]); (split; [reflexivity|]); exact H.
Qed.

(** Feeding succeeds and emits on schedule. *)
Theorem feed_good xs : forall m, ok m -> exists ys m', feed (nstep true) m xs = Ok (ys, m') /\
  ok m' /\ per m' = per m /\ map is_some ys = pat (ph m) (per m) (length xs).
Proof.
  induction xs as [|x xs IH]; intros m Ho.
  - exists [], m. auto.
  - destruct (nstep_good m x Ho) as (y & m1 & E & _ & Ho1 & Hp1 & Hy & Hph).
    destruct (IH m1 Ho1) as (ys & m2 & E2 & Ho2 & Hp2 & Hpat).
    exists (y :: ys), m2. cbn [feed]. rewrite E. cbn [bind]. rewrite E2. cbn [bind].
    split; [reflexivity|]. split; [auto|]. split; [congruence|].
    cbn [map pat length]. now rewrite Hy, Hpat, Hph, Hp1.
Qed.

(** *** Containers: clips *)

Fixpoint spread (ys zs : list (option F)) : list (option F) :=
  match ys with
  | [] => []
  | None :: t => None :: spread t zs
  | Some _ :: t => match zs with z :: zt => z :: spread t zt | [] => [] end
  end.

Lemma feed_seq_cons xs : forall m t ys m' zs t',
  feed (nstep true) m xs = Ok (ys, m') ->
  feed (nstep true) (MSeq t) (somes ys) = Ok (zs, MSeq t') ->
  feed (nstep true) (MSeq (m :: t)) xs = Ok (spread ys zs, MSeq (m' :: t')) /\
  somes (spread ys zs) = somes zs.
Proof.
  induction xs as [|x xs IH]; intros m t ys m' zs t' E1 E2.
  - cbn [feed] in *. injection E1 as <- <-. cbn [somes feed] in E2. injection E2 as <- <-.
    split; reflexivity.
  - cbn [feed] in *. unfold nstep at 1 in E1.
    destruct (step m (VT x) true) as [[v m1]|] eqn:Es; [|discriminate]. cbn [bind] in E1.
    unfold nstep at 1. cbn [step seq_step]. rewrite Es. cbn [bind].
    destruct v as [|y| |]; try discriminate; cbn [bind is_none] in *.
    + destruct (feed (nstep true) m1 xs) as [[ys1 m2]|] eqn:Ef; [|discriminate].
      cbn [bind] in E1. injection E1 as <- <-. cbn [somes] in E2.
      destruct (IH m1 t ys1 m2 zs t' Ef E2) as [I1 I2]. rewrite I1. cbn [bind spread somes].
      auto.
    + destruct (feed (nstep true) m1 xs) as [[ys1 m2]|] eqn:Ef; [|discriminate].
      cbn [bind] in E1. injection E1 as <- <-. cbn [somes feed] in E2.
      unfold nstep at 1 in E2. cbn [step] in E2.
      destruct (seq_step (fun m v => step m v true) t (VT y)) as [[w t1]|] eqn:Et; [|discriminate].
      cbn [bind] in E2 |- *.
      assert (exists z, match w with VT y0 => Ok (Some y0, MSeq t1) | VNone => Ok (None, MSeq t1) | _ => Err TypeError end
             = Ok (z, MSeq t1) /\ match w with VT y0 => Ok (Some y0, MSeq (m1 :: t1)) | VNone => Ok (None, MSeq (m1 :: t1)) | _ => Err TypeError end
             = Ok (z, MSeq (m1 :: t1))) as (z & Ew & Ew').
      { destruct w; try discriminate; eexists; split; reflexivity. }
      rewrite Ew in E2. rewrite Ew'. cbn [bind] in *.
      destruct (feed (nstep true) (MSeq t1) (somes ys1)) as [[zs1 mt]|] eqn:Ez; [|discriminate].
      cbn [bind] in E2. injection E2 as <- ->.
      destruct (IH m1 t1 ys1 m2 zs1 t' Ef Ez) as [I1 I2]. rewrite I1. cbn [bind spread somes].
      split; [reflexivity|]. destruct z; [f_equal|]; exact I2.
Qed.

Lemma feed_seq_shape xs : forall ms zs m', feed (nstep true) (MSeq ms) xs = Ok (zs, m') -> exists ms', m' = MSeq ms'.
Proof.
  induction xs as [|x xs IH]; intros ms zs m'; cbn [feed].
  - intros [= <- <-]. eauto.
  - unfold nstep at 1. cbn [step]. destruct (seq_step _ ms _) as [[w ms1]|]; [|discriminate]. cbn [bind].
    destruct w; try discriminate; cbn [bind];
    (destruct (feed _ (MSeq ms1) xs) as [[? ?]|] eqn:E; [|discriminate]); cbn [bind]; intros [= <- <-]; eauto.
Qed.

Lemma seq_steps_none call ms : seq_steps (F:=F) call ms VNone = Ok (VNone, ms).
Proof. destruct ms; reflexivity. Qed.

Lemma seq_steps_good ms : Forall (fun m => ok m -> good_steps m) ms -> ok (MSeq ms) -> good_steps (MSeq ms).
Proof.
  induction ms as [|m t IH]; intros HF Ho xs Hx.
  - exists (map Some xs), (MSeq []). rewrite somes_some. repeat split.
    + clear. induction xs as [|x xs IH]; [reflexivity|]. cbn [feed]. unfold nstep at 1. cbn [step seq_step bind].
      rewrite IH. reflexivity.
    + simpl. destruct xs; [congruence|reflexivity].
    + simpl. destruct xs; [congruence|reflexivity].
  - inversion HF as [|? ? Hm Ht]; subst. destruct Ho as [Hom Hot].
    destruct (Hm Hom xs Hx) as (ys & m' & E1 & E2 & E3).
    cbn [steps seq_steps stops]. rewrite E2, E3. cbn [bind].
    destruct (somes ys) as [|y0 yt] eqn:Ey.
    + cbn [stack_outs of_clip]. rewrite !seq_steps_none. cbn [bind].
      destruct (feed_seq_cons xs m t ys m' [] t E1) as [F1 F2].
      { rewrite Ey. reflexivity. }
      eexists _, _. split; [exact F1|]. rewrite F2. cbn [somes stack_outs of_clip]. split; reflexivity.
    + rewrite <- Ey. assert (Hy : somes ys <> []) by (rewrite Ey; discriminate).
      destruct (IH Ht Hot (somes ys) Hy) as (zs & mt & G1 & G2 & G3).
      destruct (feed_seq_shape _ _ _ _ G1) as [t' ->].
      destruct (feed_seq_cons xs m t ys m' zs t' E1 G1) as [F1 F2].
      assert (Ec : of_clip (stack_outs (somes ys)) = VS (somes ys)) by (rewrite Ey; reflexivity).
      rewrite Ec. cbn [steps] in G2, G3.
      destruct (seq_steps (fun m v => steps m v false true) t (VS (somes ys))) as [[w1 t1]|]; [|discriminate].
      destruct (seq_steps (fun m v => steps m v false false) t (VS (somes ys))) as [[w2 t2]|]; [|discriminate].
      cbn [bind] in *. injection G2 as -> ->. injection G3 as -> ->.
      eexists _, _. split; [exact F1|]. rewrite F2. split; reflexivity.
Qed.

(** Point-wise reduction of the output streams of the branches. *)
Definition zipo (r : red F) (a b : list (option F)) : list (option F) :=
  map (fun p => oop r (fst p) (snd p)) (combine a b).
Definition redl (r : red F) (yss : list (list (option F))) : list (option F) :=
  match yss with [] => [] | h :: t => fold_left (zipo r) t h end.

Lemma redl_cons r (ys : list (option F)) yss : length ys = length yss ->
  ys <> [] -> redl r (map (fun p => fst p :: snd p) (combine ys yss)) = redo r ys :: redl r yss.
Proof.
  destruct ys as [|y ys], yss as [|l yss]; try discriminate; try congruence.
  intros Hl _. injection Hl as Hl. cbn [combine map redl redo fst snd].
  revert y l yss Hl. induction ys as [|y2 ys IH]; intros y l [|l2 yss] Hl; try discriminate; [reflexivity|].
  cbn [combine map fold_left fst snd]. change (zipo r (y :: l) (y2 :: l2)) with (oop r y y2 :: zipo r l l2).
  apply IH. simpl in Hl; lia.
Qed.

Lemma feed_br xs r : forall ms ps, ms <> [] -> (r_min2 r = true -> 2 <= length ms) ->
  Forall ok ms ->
  Forall2 (fun m p => feed (nstep true) m xs = Ok p) ms ps ->
  feed (nstep true) (MBR ms r) xs = Ok (redl r (map fst ps), MBR (map snd ps) r).
Proof.
  induction xs as [|x xs IH]; intros ms ps Hn H2 Hok HF.
  - cbn [feed]. assert (E : redl r (map fst ps) = [] /\ map snd ps = ms).
    { clear -HF. split.
      - assert (Hnil : Forall (fun l => l = []) (map fst ps)).
        { induction HF as [|m p ms ps H HF IH]; simpl; auto. constructor; auto. cbn [feed] in H. now injection H as <-. }
        destruct (map fst ps) as [|l t]; [reflexivity|]. inversion Hnil as [|? ? ? Ht]; subst. cbn [redl]. clear -Ht.
        induction Ht; simpl; auto. 
      - induction HF as [|m p ms ps H HF IH]; simpl; auto. cbn [feed] in H. injection H as <-. cbn [snd]. congruence. }
    destruct E as [-> ->]. reflexivity.
  - assert (HF' : exists qs rs, Forall2 (stepR x) ms qs /\
       Forall2 (fun m p => feed (nstep true) m xs = Ok p) (map snd qs) rs /\
       map fst ps = map (fun p => fst p :: snd p) (combine (map fst qs) (map fst rs)) /\ map snd ps = map snd rs /\
       length qs = length rs).
    { clear -HF Hok. induction HF as [|m p ms ps H HF IH]; [exists [], []; repeat split; constructor|].
      inversion Hok as [|? ? Hm Ht]; subst.
      destruct (IH Ht) as (qs & rs & I1 & I2 & I3 & I4 & I5).
      destruct (step_good m Hm x) as (y & m1 & E1 & E2 & Hrest).
      cbn [feed] in H. unfold nstep at 1 in H. rewrite E1 in H. cbn [bind] in H.
      destruct (feed (nstep true) m1 xs) as [[ys m2]|] eqn:Ef.
      2:{ destruct y; simpl in H; rewrite Ef in H; discriminate. }
      assert (p = (y :: ys, m2)) as ->.
      { destruct y; simpl in H; rewrite Ef in H; simpl in H; congruence. }
      exists ((y, m1) :: qs), ((ys, m2) :: rs).
      repeat split; simpl; auto; try congruence.
      constructor; auto. split; [exact E1|]. split; [exact E2|exact Hrest]. }
    destruct HF' as (qs & rs & I1 & I2 & I3 & I4 & I5).
    pose proof (F2_length _ _ _ I1) as Hl.
    destruct (br_run_stepR x ms qs I1) as [R1 _].
    cbn [feed]. unfold nstep at 1. cbn [step]. rewrite R1. cbn [bind].
    assert (Hq : map fst qs <> []) by (destruct qs; [destruct ms; [congruence|discriminate]|discriminate]).
    rewrite br_reduce; auto.
    2:{ intros E. rewrite map_length, <- Hl. auto. }
    cbn [bind].
    assert (E : match of_opt (redo r (map fst qs)) with
       | VNone => Ok (None, MBR (map snd qs) r) | VT y => Ok (Some y, MBR (map snd qs) r) | _ => Err TypeError end
       = Ok (redo r (map fst qs), MBR (map snd qs) r)) by (destruct (redo r (map fst qs)); reflexivity).
    rewrite E. cbn [bind]. rewrite (IH (map snd qs) rs); auto.
    + cbn [bind]. rewrite I3, I4, redl_cons; auto. rewrite !map_length. auto.
    + intros E0. apply Hq. destruct qs; [reflexivity|discriminate].
    + rewrite map_length, <- Hl. auto.
    + clear -I1. induction I1 as [|m q ms qs H HF IH]; simpl; auto. constructor; auto. apply H.
Qed.

Lemma zipo_somes r : forall a b, map is_some a = map is_some b ->
  somes (zipo r a b) = map (fun p => r_op r (fst p) (snd p)) (combine (somes a) (somes b)) /\
  map is_some (zipo r a b) = map is_some a /\ length (somes a) = length (somes b).
Proof.
  induction a as [|[x|] a IH]; intros [|[y|] b] H; try discriminate; [repeat split| |].
  - simpl in H. injection H as H. destruct (IH b H) as (I1 & I2 & I3).
    unfold zipo in *. simpl. rewrite I1, I2, I3. auto.
  - simpl in H. injection H as H. destruct (IH b H) as (I1 & I2 & I3).
    unfold zipo in *. simpl. rewrite I1, I2, I3. auto.
Qed.

Lemma fold_op_vs r yss : forall a, somes a <> [] -> Forall (fun b => map is_some b = map is_some a) yss ->
  fold_op r (VS (somes a)) (map (fun b => of_clip (stack_outs (somes b))) yss)
  = Ok (VS (somes (fold_left (zipo r) yss a))) /\
  map is_some (fold_left (zipo r) yss a) = map is_some a.
Proof.
  induction yss as [|b yss IH]; intros a Ha HF; [split; reflexivity|].
  inversion HF as [|? ? Hb Ht]; subst.
  destruct (zipo_somes r a b (eq_sym Hb)) as (Z1 & Z2 & Z3).
  cbn [map fold_op].
  assert (Ec : of_clip (stack_outs (somes b)) = VS (somes b)).
  { destruct (somes b); [|reflexivity]. destruct (somes a); [congruence|discriminate]. }
  rewrite Ec. cbn [op_val]. unfold zip_bcast. rewrite Z3, Nat.eqb_refl. cbn [bind].
  rewrite <- Z1. cbn [fold_left]. rewrite <- Z2. apply IH.
  - rewrite Z1. destruct (somes a), (somes b); try congruence; discriminate.
  - eapply Forall_impl; [|exact Ht]. intros c Hc. simpl in Hc. congruence.
Qed.

Lemma reduce_clips r yss a : yss <> [] -> (r_min2 r = true -> 2 <= length yss) ->
  Forall (fun b => map is_some b = map (is_some (A:=F)) a) yss ->
  reduce_vals r (map (fun b => of_clip (stack_outs (somes b))) yss)
  = Ok (of_clip (stack_outs (somes (redl r yss)))) /\ map is_some (redl r yss) = map is_some a.
Proof.
  intros Hn H2 HF. destruct yss as [|b yss]; [congruence|].
  inversion HF as [|? ? Hb Ht]; subst.
  assert (HF2 : Forall (fun c => map is_some c = map is_some b) yss).
  { eapply Forall_impl; [|exact Ht]. intros; simpl in *; congruence. }
  assert (Hpat : map is_some (redl r (b :: yss)) = map is_some b).
  { cbn [redl]. clear -HF2. revert b HF2. induction yss as [|c yss IH]; intros b HF; [reflexivity|].
    inversion HF as [|? ? Hb Ht]; subst.
    destruct (zipo_somes r b c (eq_sym Hb)) as (Z1 & Z2 & Z3). cbn [fold_left].
    rewrite IH; [exact Z2|]. eapply Forall_impl; [|exact Ht]. intros; simpl in *; congruence. }
  split; [|congruence].
  unfold reduce_vals. cbn [map].
  destruct (somes b) as [|y0 yt] eqn:Eb.
  - cbn [stack_outs of_clip any_none bind].
    assert (E : somes (redl r (b :: yss)) = []).
    { clear -Eb Hpat. revert Hpat. generalize (redl r (b :: yss)). induction b as [|[x|] b IH]; intros l; simpl in *.
      - destruct l; [reflexivity|discriminate].
      - discriminate.
      - destruct l as [|[z|] l]; simpl; try discriminate. intros [= H]. auto. }
    rewrite E. reflexivity.
  - rewrite <- Eb. assert (Hs : somes b <> []) by (rewrite Eb; discriminate).
    destruct (fold_op_vs r yss b Hs HF2) as [Ff _].
    assert (Ec : of_clip (stack_outs (somes b)) = VS (somes b)) by (rewrite Eb; reflexivity).
    rewrite Ec. cbn [any_none].
    assert (Ea : any_none (map (fun b => of_clip (stack_outs (somes b))) yss) = Ok false).
    { apply any_none_tensors. clear -r HF2 Hs. induction HF2 as [|c l H HF IH]; [reflexivity|]. cbn [map forallb].
      rewrite IH, andb_true_r. destruct (zipo_somes r b c (eq_sym H)) as (_ & _ & Z).
      destruct (somes c); [|reflexivity]. destruct (somes b); [congruence|discriminate]. }
    rewrite Ea. cbn [bind].
    replace (r_min2 r && _) with false.
    2:{ destruct (r_min2 r); simpl; [|auto]. specialize (H2 eq_refl). cbn [length] in *.
        rewrite map_length. lia. }
    rewrite Ff. cbn [redl].
    destruct (somes (fold_left (zipo r) yss b)) as [|z zt] eqn:Ez; [|reflexivity].
    exfalso. cbn [redl] in Hpat. clear -Hpat Ez Hs. revert Hpat Ez. generalize (fold_left (zipo r) yss b).
    induction b as [|[x|] b IH]; intros l Hp Ez; simpl in *.
    + now apply Hs.
    + destruct l as [|[z|] l]; simpl in *; try discriminate.
    + destruct l as [|[z|] l]; simpl in *; try discriminate. injection Hp as Hp. eapply IH; eauto.
Qed.

Lemma br_steps_good ms r : Forall (fun m => ok m -> good_steps m) ms -> ok (MBR ms r) -> good_steps (MBR ms r).
Proof.
  intros HF (Hok & Hsy & H2) xs Hx. apply allP_Forall in Hok.
  assert (exists ps, Forall2 (fun m p => feed (nstep true) m xs = Ok p /\
     steps m (VS xs) false true = Ok (of_clip (stack_outs (somes (fst p))), snd p) /\
     steps m (VS xs) false false = Ok (of_clip (stack_outs (somes (fst p))), m) /\
     map is_some (fst p) = pat (ph m) (per m) (length xs)) ms ps) as [ps Hps].
  { apply Forall_exists2. rewrite Forall_forall in HF, Hok |- *. intros m Hm.
    destruct (HF m Hm (Hok m Hm) xs Hx) as (ys & m' & E1 & E2 & E3). exists (ys, m').
    destruct (feed_good xs m (Hok m Hm)) as (ys2 & m2 & F1 & _ & _ & F4).
    rewrite E1 in F1. injection F1 as <- <-. auto. }
  assert (Hn : ms <> []) by (destruct ms; [tauto|discriminate]).
  pose proof (F2_length _ _ _ Hps) as Hl.
  assert (Hb : br_run (fun m v => steps m v false true) ms (VS xs)
        = Ok (map (fun b => of_clip (stack_outs (somes b))) (map fst ps), map snd ps) /\
      br_run (fun m v => steps m v false false) ms (VS xs)
        = Ok (map (fun b => of_clip (stack_outs (somes b))) (map fst ps), ms)).
  { clear -Hps. induction Hps as [|m p ms ps (_ & E1 & E2 & _) HF [IH1 IH2]]; [split; reflexivity|].
    cbn [br_run]. rewrite E1, E2. cbn [bind]. rewrite IH1, IH2. split; reflexivity. }
  destruct Hb as [B1 B2].
  exists (redl r (map fst ps)), (MBR (map snd ps) r).
  split; [apply feed_br; auto; eapply F2_impl; [|exact Hps]; intros ? ? HH; exact (proj1 HH)|].
  cbn [steps]. rewrite B1, B2. cbn [bind].
  destruct ms as [|m t]; [congruence|]. inversion Hps as [|? p ? pt Hp Hpt]; subst.
  destruct (reduce_clips r (map fst (p :: pt)) (fst p)) as [Hr _].
  - discriminate.
  - rewrite map_length, <- Hl. auto.
  - apply allP_Forall in Hsy. cbn [map]. constructor; [reflexivity|].
    destruct Hp as (_ & _ & _ & Hpp). rewrite Hpp. clear -Hpt Hsy.
    induction Hpt as [|a q t pt (_ & _ & _ & Hq) HF IH]; simpl; [constructor|].
    inversion Hsy as [|? ? [Ha1 Ha2] ?]; subst. constructor; auto. now rewrite Hq, Ha1, Ha2.
  - rewrite Hr. split; reflexivity.
Qed.

Theorem steps_good m : ok m -> good_steps m.
Proof.
  induction m using md_ind'; intros Ho; try (simpl in Ho; tauto).
  - now apply delay_good.
  - now apply skip_good.
  - now apply conv_good.
  - now apply pool_good.
  - now apply map_good.
  - now apply rnn_good.
  - now apply seq_steps_good.
  - now apply br_steps_good.
Qed.

End Net.
