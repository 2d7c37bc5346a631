(** Stepping an adaptive pooling module pools the last k frames (C60). *)
From Coq Require Import List ZArith Bool Arith Lia Permutation.
From Verif Require Import Base Frames CoMod Leaf Spec LeafSpec LeafProof NetRel RelProof Tensor TensorProof TConvProof
  TPool TPoolSpec TPoolProof AdPool AdPoolSpec.
Import ListNotations.

Section Ad.
Context {K : Type} {P : Pool K} {PL : PoolLaws K}.
Variables (B C : nat) (sp : list nat) (c : adp).
Notation k := (a_k c). Notation s := (a_s c). Notation osp := (a_out c).
Notation ish := (B :: C :: sp). Notation osh := (B :: C :: osp).
Notation Ni := (size ish). Notation No := (size osh).
Hypothesis OK : adp_ok sp c.

Definition aspool (x : list K) : list K := match ad_space B C sp c x with Ok y => y | Err _ => x end.
Lemma ad_space_ok x : ad_space B C sp c x = Ok (aspool x).
Proof. unfold aspool, ad_space, adpool. rewrite (ao_sp _ _ OK). reflexivity. Qed.
Lemma aspool_len x : length (aspool x) = No.
Proof. unfold aspool, ad_space, adpool. rewrite (ao_sp _ _ OK). apply tab_len. Qed.
Lemma aspool_at x b ch q : b < B -> ch < C -> inr q osp ->
  at_ osh (aspool x) (Z.of_nat b :: Z.of_nat ch :: map Z.of_nat q) =
  pscale (size (ad_lens sp osp q)) (ad_elem B C sp osp x b ch q).
Proof.
  intros Hb Hc Hq. unfold aspool, ad_space, adpool. rewrite (ao_sp _ _ OK).
  change (Z.of_nat b :: Z.of_nat ch :: map Z.of_nat q) with (map Z.of_nat (b :: ch :: q)).
  rewrite at_tab_in by (repeat constructor; auto). reflexivity.
Qed.

(** One output in time pools the whole clip. *)
Lemma time_window T : ad_start T 1 0 = 0 /\ ad_stop T 1 0 = T.
Proof. unfold ad_start, ad_stop. rewrite !Nat.div_1_r. lia. Qed.

Lemma clip_elems T X b ch q :
  ad_elem B C (T :: sp) (1 :: osp) X b ch (0 :: q) =
  ksum (map (fun t => ad_elem B C sp osp (slice2 B C T sp X t) b ch q) (seq 0 T)).
Proof.
  unfold ad_elem. cbn [ad_lens]. destruct (time_window T) as [E1 E2]. rewrite E1, E2, Nat.sub_0_r.
  rewrite ksum_tab. f_equal. apply map_ext_seq. intros t Ht. apply ksum_tab_ext. intros kp _.
  cbn [ad_pos map]. rewrite E1. symmetry. apply at_slice. lia.
Qed.

Lemma stack_one y : length y = No ->
  stack2 B C osp [y] = tab (B :: C :: 1 :: osp) (fun ix => match ix with b :: c' :: t :: r => at_ osh y (map Z.of_nat (b :: c' :: r)) | _ => pe end).
Proof.
  intros _. unfold stack2. cbn [length]. apply tab_ext. intros ix Hix.
  destruct (inr2 _ _ _ _ Hix) as (b & o & q & -> & Hb & Ho & Hq). inversion Hq as [|t x q' y' Ht Hq']; subst.
  destruct t; [reflexivity|lia].
Qed.

(** [forward] is the temporal pooling of the spatially pooled frames. *)
Lemma ad_forward_is T X : 1 <= T ->
  ad_forward B C sp c T X = Ok (stack2 B C osp [nd_time B C osp (map (fun t => aspool (slice2 B C T sp X t)) (seq 0 T))]).
Proof.
  intros HT. unfold ad_forward, adpool. cbn [forallb]. rewrite (ao_sp _ _ OK).
  assert (Nat.leb 1 T = true) as -> by (apply Nat.leb_le; lia). cbn [andb]. f_equal.
  rewrite stack_one by (unfold nd_time; apply tab_len). apply tab_ext. intros ix Hix.
  destruct (inr2 _ _ _ _ Hix) as (b & o & q & -> & Hb & Ho & Hq). inversion Hq as [|t x q' y' Ht Hq']; subst.
  assert (t = 0) by lia. subst t. unfold nd_time.
  change (map Z.of_nat (b :: o :: q')) with (map Z.of_nat (b :: o :: q')).
  rewrite at_tab_in by (repeat constructor; auto). rewrite clip_elems. cbn [ad_lens].
  destruct (time_window T) as [E1 E2]. rewrite E1, E2, Nat.sub_0_r. rewrite map_length, seq_length. cbn [size fold_right].
  change (fold_right Nat.mul 1 (ad_lens sp osp q')) with (size (ad_lens sp osp q')).
  rewrite <- pscale_mul. f_equal. rewrite <- ksum_scale. rewrite map_map. f_equal. apply map_ext. intros t.
  cbn [map]. symmetry. apply aspool_at; assumption.
Qed.

Lemma slice_stack (l : list (list K)) t : Forall (fun x => length x = Ni) l -> t < length l ->
  slice2 B C (length l) sp (stack2 B C sp l) t = nth t l [].
Proof.
  intros HF Ht. apply (at_ext ish); [apply slice_len| |].
  - rewrite Forall_forall in HF. apply HF. apply nth_In. exact Ht.
  - intros ix Hix. destruct (inr2 _ _ _ _ Hix) as (b & o & q & -> & Hb & Ho & Hq). cbn [map].
    rewrite at_slice by lia. unfold stack2.
    change (Z.of_nat b :: Z.of_nat o :: Z.of_nat t :: map Z.of_nat q) with (map Z.of_nat (b :: o :: t :: q)).
    rewrite at_tab_in by (repeat constructor; auto). reflexivity.
Qed.

Lemma forward_of_frames (l : list (list K)) : Forall (fun x => length x = Ni) l -> 1 <= length l ->
  ad_forward B C sp c (length l) (stack2 B C sp l) = Ok (stack2 B C osp [nd_time B C osp (map aspool l)]).
Proof.
  intros HF Hl. rewrite ad_forward_is by exact Hl. do 4 f_equal.
  transitivity (map (fun t => aspool (nth t l [])) (seq 0 (length l))).
  - apply map_ext_seq. intros t Ht. rewrite slice_stack by (auto; lia). reflexivity.
  - rewrite <- (map_map (fun t => nth t l []) aspool). f_equal. clear. induction l as [|a l IH]; [reflexivity|].
    cbn [length seq map nth]. rewrite <- seq_shift, map_map. cbn [nth]. rewrite IH. reflexivity.
Qed.

(* ------------------------------------------------------------------ *)
(** ** The abstract pooling module *)

Definition aasp (a : pf K) : pf K := match a with FT x => FT (aspool x) | a => a end.
Definition ad_cfg : pool_cfg (pf K) :=
  {| pk := k; Leaf.ps := s; pp := 0; pd := 1; psp := aasp;
     pagg := fun l => FT (nd_time B C osp (map (interp No) l)); pfill := a_fill c; pmode := Zeros; pfdil := 1 |}.
Lemma ad_cfg_ok : pool_ok ad_cfg.
Proof.
  pose proof OK as []. constructor; cbn [pk pp pd pfdil Leaf.ps psp pagg pfill pmode ad_cfg]; auto; try lia.
  intros l l' H. f_equal. unfold nd_time. apply tab_ext. intros ix _. rewrite !map_length, (Permutation_length H).
  f_equal. apply ksum_perm. apply Permutation_map, Permutation_map, H.
Qed.

Definition frame_at (xs : list (list K)) (j : nat) : list K := nd_time B C osp (map aspool (firstn k (skipn j xs))).

Lemma window_nth {A} (l : list A) d j n : j + n <= length l -> map (fun i => nth (j + i) l d) (seq 0 n) = firstn n (skipn j l).
Proof.
  revert l. induction j as [|j IH]; intros l H; cbn [skipn].
  - cbn [Nat.add] in *. revert l H. induction n as [|n IHn]; intros l H; [reflexivity|]. destruct l as [|a l]; [cbn in H; lia|].
    cbn [seq map nth firstn]. f_equal. rewrite <- seq_shift, map_map. cbn [nth]. apply IHn. cbn in H. lia.
  - destruct l as [|a l]; [cbn in H; lia|]. cbn [skipn]. rewrite <- IH by (cbn in H; lia). apply map_ext. intros i. reflexivity.
Qed.

Lemma ad_cfg_forward xs : k <= length xs ->
  pool_forward ad_cfg (map FT xs) = Ok (map FT (map (fun j => frame_at xs (j * s)) (seq 0 ((length xs - k) / s + 1)))).
Proof.
  intros Hl. pose proof OK as []. unfold pool_forward. cbn [ad_cfg pfdil pk pp]. destruct (Nat.ltb_spec (1 * (k - 1) + 1) (2 * 0)); [lia|].
  destruct xs as [|x0 xr] eqn:Ex; [cbn in Hl; lia|]. rewrite <- Ex in *. replace (map FT xs) with (FT x0 :: map FT xr) by (rewrite Ex; reflexivity).
  cbn [ad_cfg pmode pad_time repeat bind app]. rewrite app_nil_r. replace (FT x0 :: map FT xr) with (map (@FT K) xs) by (rewrite Ex; reflexivity). clear Ex.
  unfold xpool. rewrite !map_length. cbn [psp pagg ad_cfg Leaf.ps pk].
  destruct (Nat.ltb_spec (length xs) (1 * (k - 1) + 1)); [lia|]. f_equal. rewrite !map_map.
  replace (length xs - (1 * (k - 1) + 1)) with (length xs - k) by lia. apply map_ext_seq. intros j Hj. f_equal.
  assert (Hw : j * s + k <= length xs) by (apply window_fits; lia).
  unfold frame_at. f_equal.
  transitivity (map (interp No) (firstn k (skipn (j * s) (map (fun x => aasp (FT x)) xs)))).
  - f_equal. rewrite <- (window_nth _ f0) by (rewrite !map_length; lia). apply map_ext. intros i. rewrite Nat.mul_1_r. reflexivity.
  - rewrite skipn_map, firstn_map, map_map. reflexivity.
Qed.

Definition AI (a : pf K) (y : list K) : Prop := a = FT y /\ length y = Ni.
Definition AU (a : pf K) (y : list K) : Prop := y = interp No a.

Lemma map_interp_a (l : list (pf K)) l' : Forall2 AU l l' -> map (interp No) l = l'.
Proof. induction 1 as [|a b l l' H _ IH]; [reflexivity|]. cbn [map]. rewrite H, IH. reflexivity. Qed.

Lemma ad_fstep_rel x x' st st' : AI x x' -> rel_opt (rel_obj AU) st st' ->
  rel_res (rel_pair (rel_opt AU) (rel_opt (rel_obj AU))) (pool_fstep ad_cfg x st) (ad_fstep B C sp c x' st').
Proof.
  intros (-> & L) Hst. unfold pool_fstep, ad_fstep, nd_fstep. rewrite ad_space_ok. cbn [bind psp ad_cfg aasp]. cbv zeta.
  pose proof (ao_p _ _ OK) as E0.
  set (o := match st with Some s => s | None => pool_init ad_cfg (FT (aspool x')) end).
  set (o' := match st' with Some s => s | None => nd_init k s (a_p c) (a_fill c) (aspool x') end).
  assert (Ho : rel_obj AU o o').
  { unfold o, o'. destruct Hst; [assumption|]. unfold pool_init, nd_init, pool_buflen. cbn [pd pk Leaf.ps pp ad_cfg pfill]. rewrite E0. repeat split; cbn [o_buf o_idx o_str].
    apply r_repeat. unfold AU, make_padding, nd_pad. destruct (a_fill c); cbn [f0 finf pf_frames interp]; [|reflexivity|]; rewrite map_const, aspool_len; reflexivity. }
  destruct Ho as (Hb & Hi & Hs). rewrite Hi, Hs.
  apply (r_bind (Forall2 AU)); [apply r_setz; [assumption|reflexivity]|]. intros l l' Hl.
  cbn [pk pd Leaf.ps ad_cfg Nat.eqb bind].
  destruct (Z.eqb (o_str o') (Z.of_nat s - 1)); cbn [bind].
  - constructor. split; cbn [fst snd].
    + constructor. cbn [pagg ad_cfg]. rewrite (map_interp_a _ _ Hl). reflexivity.
    + constructor. repeat split. exact Hl.
  - constructor. split; cbn [fst snd]; constructor. repeat split. exact Hl.
Qed.
End Ad.

Section Thm.
Context {K : Type} {P : Pool K} {PL : PoolLaws K}.
Variables (B C : nat) (sp : list nat) (c : adp).
Hypothesis OK : adp_ok sp c.
Notation Ni := (size (B :: C :: sp)). Notation k := (a_k c). Notation s := (a_s c).
Notation AU := (AU B C c). Notation AI := (AI B C sp). Notation RO := (rel_obj AU).

Lemma ai_refls (l : list (list K)) : Forall (fun x => length x = Ni) l -> Forall2 AI (map FT l) l.
Proof. induction 1; constructor; auto. split; auto. Qed.
Lemma au_eqso (l : list (option (list K))) l' : Forall2 (rel_opt AU) (map (option_map FT) l) l' -> l = l'.
Proof.
  revert l'. induction l as [|a l IH]; intros l' H; inversion H as [|x y m m' Hxy Hm]; subst; [reflexivity|].
  f_equal; [|apply IH; exact Hm]. destruct a; inversion Hxy as [a' b' Hab|]; subst; [|reflexivity]. rewrite Hab. reflexivity.
Qed.
Lemma au_eqs (l : list (list K)) l' : Forall2 AU (map FT l) l' -> l = l'.
Proof.
  revert l'. induction l as [|a l IH]; intros l' H; inversion H as [|x y m m' Hxy Hm]; subst; [reflexivity|].
  f_equal; [|apply IH; exact Hm]. rewrite Hxy. reflexivity.
Qed.

Lemma frame_pools xs j : Forall (fun x => length x = Ni) xs -> j + k <= length xs ->
  pools_from B C sp c xs j (frame_at B C sp c xs j).
Proof.
  intros HF Hj. pose proof OK as []. unfold pools_from. eexists. split; [|split; [reflexivity|apply tab_len]].
  assert (L : length (firstn k (skipn j xs)) = k) by (rewrite firstn_length, skipn_length; lia).
  rewrite <- L at 1. rewrite (forward_of_frames _ _ _ _ OK); [reflexivity| |rewrite L; lia].
  rewrite Forall_forall in *. intros x Hx. apply HF. rewrite <- (firstn_skipn j xs). apply in_or_app. right.
  rewrite <- (firstn_skipn k (skipn j xs)). apply in_or_app. left. exact Hx.
Qed.

Lemma firstn_skipn_app {A} (l m : list A) j n : j + n <= length l -> firstn n (skipn j (l ++ m)) = firstn n (skipn j l).
Proof.
  intros H. rewrite skipn_app, firstn_app. rewrite skipn_length. replace (n - (length l - j)) with 0 by lia. cbn. apply app_nil_r.
Qed.

Theorem ad_window xs : Forall (fun x => length x = Ni) xs ->
  exists os o,
    feed (fun o x => ad_forward_step B C sp c o x true) obj_init xs = Ok (os, o) /\ length os = length xs /\
    forall m, m < length xs -> pools_last B C sp c xs m (nth m os None).
Proof.
  intros HF. pose proof OK as OK'. destruct OK'. set (ws := repeat (@nil K) k).
  assert (Hk : k <= length (xs ++ ws)) by (unfold ws; rewrite app_length, repeat_length; lia).
  pose proof (ad_cfg_forward B C sp c OK (xs ++ ws) Hk) as E. rewrite map_app in E.
  destruct (pool_step_thm _ _ _ _ (ad_cfg_ok B C sp c OK) E) as (o & Ho).
  assert (HR : rel_res (rel_pair (Forall2 (rel_opt AU)) RO)
     (feed (fun o x => pool_forward_step (ad_cfg B C sp c) o x true) obj_init (map FT xs))
     (feed (fun o x => ad_forward_step B C sp c o x true) obj_init xs)).
  { apply (s_feed AI AU RO RO); auto using ai_refls, r_obj_init.
    - apply r_obj_get.
    - intros. apply ad_fstep_rel; assumption. }
  rewrite Ho in HR. inversion HR as [a b Hab Ea Eb|]; subst. destruct b as [os' o']. destruct Hab as [Hos Ho']. cbn [fst snd] in *.
  exists os', o'. split; [reflexivity|]. rewrite map_length in Hos.
  assert (Hos' : Forall2 (rel_opt AU) (map (option_map FT) (map (scheduled (pool_delay (ad_cfg B C sp c)) s
      (map (fun j => frame_at B C sp c (xs ++ ws) (j * s)) (seq 0 ((length (xs ++ ws) - k) / s + 1)))) (seq 0 (length xs)))) os').
  { rewrite map_map. erewrite map_ext; [exact Hos|]. intros i. cbn beta. symmetry. apply (sched_map FT). }
  apply au_eqso in Hos'. subst os'. split; [rewrite map_length, seq_length; reflexivity|]. intros m Hm.
  rewrite nth_indep with (d' := scheduled (pool_delay (ad_cfg B C sp c)) s (map (fun j => frame_at B C sp c (xs ++ ws) (j * s)) (seq 0 ((length (xs ++ ws) - k) / s + 1))) 0)
    by (rewrite map_length, seq_length; exact Hm).
  rewrite map_nth, seq_nth by exact Hm. cbn [Nat.add]. unfold pools_last, scheduled.
  assert (Ed : pool_delay (ad_cfg B C sp c) = k - 1) by (unfold pool_delay, pool_rf; cbn [pd pk pp ad_cfg]; lia). rewrite Ed.
  destruct (emits (k - 1) s m) eqn:Em; [|reflexivity].
  unfold emits in Em. apply andb_true_iff in Em as [Em1 Em2]. apply Nat.leb_le in Em1. apply Nat.eqb_eq in Em2.
  pose proof (Nat.div_mod (m - (k - 1)) s ltac:(lia)) as Hd. rewrite Em2 in Hd.
  set (j := (m - (k - 1)) / s) in *.
  assert (Hj : j < (length (xs ++ ws) - k) / s + 1).
  { apply Nat.lt_le_trans with (S j); [lia|]. rewrite Nat.add_1_r. apply le_n_S. apply Nat.div_le_mono; [lia|].
    unfold ws. rewrite app_length, repeat_length. lia. }
  rewrite nth_error_map. rewrite (nth_error_nth' _ 0) by (rewrite seq_length; exact Hj). rewrite seq_nth by exact Hj. cbn [Nat.add option_map].
  eexists. split; [reflexivity|]. replace (m + 1 - k) with (j * s) by lia.
  unfold frame_at. rewrite firstn_skipn_app by lia. apply frame_pools; [exact HF|lia].
Qed.

Theorem ad_steps xs pend : Forall (fun x => length x = Ni) xs -> k <= length xs ->
  exists ys o,
    ad_forward_steps B C sp c obj_init xs pend true = Ok (Some ys, o) /\ length ys = (length xs - k) / s + 1 /\
    forall j, j < length ys -> pools_from B C sp c xs (j * s) (nth j ys []).
Proof.
  intros HF Hk. pose proof OK as OK'. destruct OK'.
  pose proof (ad_cfg_forward B C sp c OK xs Hk) as E. rewrite <- (app_nil_l (map FT xs)) in E.
  assert (Hne : map FT xs <> []) by (destruct xs; [cbn in Hk; lia|discriminate]).
  destruct (pool_pad_end_thm _ _ _ _ (ad_cfg_ok B C sp c OK) Hne E) as (os & o1 & o2 & rest & H1 & H2 & H3).
  cbn in H1. injection H1 as <- <-. cbn [somes app] in H3. subst rest.
  assert (HR : rel_res (rel_pair (rel_opt (Forall2 AU)) RO)
     (co_forward_steps obj_get obj_set (pool_fstep (ad_cfg B C sp c)) (fun x => x) 0 obj_init (map FT xs) true true)
     (co_forward_steps obj_get obj_set (ad_fstep B C sp c) (fun x => x) 0 obj_init xs true true)).
  { apply (s_co_steps AI AU RO RO); auto using ai_refls, r_obj_init.
    - apply r_obj_get.
    - intros. apply ad_fstep_rel; assumption. }
  change (co_forward_steps obj_get obj_set (pool_fstep (ad_cfg B C sp c)) (fun x => x) 0 obj_init (map FT xs) true true)
    with (pool_forward_steps (ad_cfg B C sp c) obj_init (map FT xs) true true) in HR.
  assert (Ep : ad_forward_steps B C sp c obj_init xs pend true =
     co_forward_steps obj_get obj_set (ad_fstep B C sp c) (fun x => x) 0 obj_init xs true true).
  { unfold ad_forward_steps. rewrite ao_p. unfold co_forward_steps. destruct xs as [|x0 xr]; [cbn in Hk; lia|].
    destruct (co_loop _ _ _) as [[l s1]|]; [|reflexivity]. cbn [bind]. cbv beta iota. destruct pend; [reflexivity|].
    cbn. rewrite app_nil_r. reflexivity. }
  rewrite <- Ep in HR. rewrite H2 in HR. inversion HR as [a b Hab Ea Ec|]; subst. destruct b as [r' o2']. destruct Hab as [Hr Ho2]. cbn [fst snd] in *.
  set (ys := map (fun j => frame_at B C sp c xs (j * s)) (seq 0 ((length xs - k) / s + 1))) in *.
  assert (Hs : stack_outs (map FT ys) = Some (map FT ys)) by (unfold ys; rewrite Nat.add_1_r; reflexivity).
  rewrite Hs in Hr. inversion Hr as [a b Hab|]; subst. apply au_eqs in Hab. subst b.
  exists ys, o2'. split; [reflexivity|]. assert (Ly : length ys = (length xs - k) / s + 1) by (unfold ys; rewrite map_length, seq_length; reflexivity).
  split; [exact Ly|]. intros j Hj. unfold ys. rewrite nth_indep with (d' := frame_at B C sp c xs (0 * s)) by exact Hj.
  rewrite (map_nth (fun j => frame_at B C sp c xs (j * s))), seq_nth by lia. cbn [Nat.add].
  apply frame_pools; [exact HF|]. apply window_fits; lia.
Qed.

Theorem ad_clip X pend : length X = size (B :: C :: k :: sp) ->
  exists Y y o,
    ad_forward B C sp c k X = Ok Y /\
    ad_forward_steps B C sp c obj_init (pin_frames B C sp k X (seq 0 k)) pend true = Ok (Some [y], o) /\
    stack2 B C (a_out c) [y] = Y.
Proof.
  intros HX. pose proof OK as OK'. destruct OK'.
  assert (L : length (pin_frames B C sp k X (seq 0 k)) = k) by (unfold pin_frames; rewrite map_length, seq_length; reflexivity).
  destruct (ad_steps (pin_frames B C sp k X (seq 0 k)) pend (slices_len _ _ _ _ _ _) ltac:(lia)) as (ys & o & Hys & Ly & H).
  rewrite L, Nat.sub_diag, Nat.div_small in Ly by lia. destruct ys as [|y [|y' ys]]; try discriminate.
  destruct (H 0 ltac:(cbn; lia)) as (Y & HY & E & _). cbn [Nat.mul skipn nth] in *.
  rewrite firstn_all2 in HY by lia. unfold pin_frames in HY at 1. rewrite stack_slices in HY by exact HX.
  exists Y, y, o. split; [exact HY|]. split; [exact Hys|]. symmetry. exact E.
Qed.

Theorem ad_clip_longer T X pend : k + s <= T -> 1 <= size (B :: C :: a_out c) ->
  exists Y ys o,
    ad_forward B C sp c T X = Ok Y /\
    ad_forward_steps B C sp c obj_init (pin_frames B C sp T X (seq 0 T)) pend true = Ok (Some ys, o) /\
    length Y = size (B :: C :: 1 :: a_out c) /\ 2 <= length ys /\ stack2 B C (a_out c) ys <> Y.
Proof.
  intros HT Hpos. pose proof OK as OK'. destruct OK'.
  assert (L : length (pin_frames B C sp T X (seq 0 T)) = T) by (unfold pin_frames; rewrite map_length, seq_length; reflexivity).
  destruct (ad_steps (pin_frames B C sp T X (seq 0 T)) pend (slices_len _ _ _ _ _ _) ltac:(lia)) as (ys & o & Hys & Ly & _).
  rewrite L in Ly. rewrite (ad_forward_is _ _ _ _ OK) by lia. do 3 eexists. split; [reflexivity|]. split; [exact Hys|].
  assert (1 <= (T - k) / s).
  { transitivity (s / s); [rewrite Nat.div_same by lia; lia|]. apply Nat.div_le_mono; lia. }
  split; [apply tab_len|]. split; [lia|]. intros E. apply (f_equal (@length _)) in E. unfold stack2 in E. rewrite !tab_len in E.
  cbn [size fold_right length] in *. change (fold_right Nat.mul 1 (a_out c)) with (size (a_out c)) in *.
  assert (1 <= B * C * size (a_out c)) by lia. nia.
Qed.
End Thm.

Theorem ad_new_spec out k s p fl :
  (exists osp, out = 1 :: osp /\ 1 <= k /\
     ad_new out k s p fl = Ok {| a_out := osp; a_k := k; a_s := s; a_p := p; a_fill := fl |}) \/
  ((hd_error out <> Some 1 \/ k = 0) /\ ad_new out k s p fl = Err AssertionError).
Proof.
  destruct out as [|o osp]; [right; split; [left; discriminate|reflexivity]|].
  destruct o as [|[|o]]; [right; split; [left; discriminate|reflexivity]| |right; split; [left; discriminate|reflexivity]].
  unfold ad_new. destruct (Nat.ltb_spec 0 k).
  - left. exists osp. auto.
  - right. split; [right; lia|reflexivity].
Qed.
