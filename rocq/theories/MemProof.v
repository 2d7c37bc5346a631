(** Proofs about the size of the state. *)
From Coq Require Import List ZArith Bool Arith Lia ZifyBool ZifyNat.
From Verif Require Import Base Frames CoMod Leaf Rnn Net NetSpec Calls NetOk NetExn NetExnProof MemSpec.
Import ListNotations.

Lemma setz_len {A} (l : list A) i a l' : setz l i a = Ok l' -> length l' = length l /\ (forall P : A -> Prop, P a -> Forall P l -> Forall P l').
Proof.
  unfold setz. destruct (Z.ltb i 0); [discriminate|]. destruct (Nat.ltb _ _); [|discriminate]. intros E. injection E as <-.
  generalize (Z.to_nat i) as n. clear i. induction l as [|x l IH]; intros [|n]; cbn [set_nth length]; (split; [reflexivity || (f_equal; apply IH)|]); intros P Pa H; auto;
    inversion H; subst; constructor; auto. apply (IH n); auto.
Qed.

Section Mem.
Context {F : Type} {FA : Frames F} {FL : FrameLaws F}.

(** ** Leaves with a buffer *)
Section Obj.
Context {B : Type}.
Variable full : list B -> Prop.
Variables Li Ls : nat.
Definition small (o : obj B) : Prop := (Z.abs (o_idx o) <= Z.of_nat Li /\ Z.abs (o_str o) <= Z.of_nat Ls)%Z.
Definition jst (s : obj B) : Prop := full (o_buf s) /\ small s.
Definition jobj (o : obj B) : Prop := (o_buf o = [] \/ full (o_buf o)) /\ small o.

Variable fst_ : F -> option (obj B) -> res (option F * option (obj B)).
Hypothesis STEP : forall x prev out s', match prev with Some s => jst s | None => True end -> fst_ x prev = Ok (out, Some s') -> jst s'.

Lemma get_jst o : jobj o -> match obj_get o with Some s => jst s | None => True end.
Proof. intros [[E|E] S]; unfold obj_get; destruct (o_buf o) eqn:Eb; try exact I; [discriminate|]. split; [rewrite Eb; exact E|exact S]. Qed.
Lemma jst_jobj s : jst s -> jobj s.
Proof. intros [A B0]. split; auto. Qed.

Lemma obj_step o x upd : jobj o -> let o' := fst (xco_forward_step obj_get obj_set fst_ o x upd) in o' = o \/ jst o'.
Proof.
  intros H. unfold xco_forward_step. destruct (fst_ x (obj_get o)) as [[out s']|e] eqn:E; [|left; reflexivity]. cbn [fst].
  destruct s' as [s'|]; [|left; reflexivity]. destruct upd; [|left; reflexivity]. right. eapply STEP; [|exact E]. apply get_jst, H.
Qed.
Lemma loop_jst xs : forall s outs s', match s with Some s => jst s | None => True end -> co_loop fst_ xs s = Ok (outs, Some s') ->
  jst s'.
Proof.
  induction xs as [|x xs IH]; intros s outs s' H; cbn [co_loop]; [intros E; injection E as <- ->; exact H|].
  destruct (fst_ x s) as [[o s1]|] eqn:E1; [|discriminate]. cbn [bind]. destruct (co_loop fst_ xs s1) as [[os s2]|] eqn:E2; [|discriminate]. cbn [bind].
  intros E. injection E as <- ->. eapply IH; [|exact E2]. destruct s1 as [s1|]; [|exact I]. eapply STEP; eassumption.
Qed.
Lemma obj_steps mk p o xs pe upd : jobj o ->
  let o' := fst (xco_forward_steps obj_get obj_set fst_ mk p o xs pe upd) in o' = o \/ jst o'.
Proof.
  intros H. unfold xco_forward_steps. destruct (co_loop fst_ xs (obj_get o)) as [[outs s1]|e] eqn:E; [|left; reflexivity].
  assert (G : let o1 := match s1 with Some s => if upd then obj_set o s else o | None => o end in o1 = o \/ jst o1).
  { destruct s1 as [s1|]; [|left; reflexivity]. destruct upd; [|left; reflexivity]. right.
    exact (loop_jst xs (obj_get o) outs s1 (get_jst o H) E). }
  destruct pe; [|exact G]. destruct (end_frames mk p xs); [|exact G]. match goal with |- context [co_loop fst_ ?a ?b] => destruct (co_loop fst_ a b) as [[? ?]|]; exact G end.
Qed.
End Obj.

Lemma delay_jst d m sh x prev out s' : d <> 0 -> match prev with Some s => jst (fun b : list F => length b = d) (2 * d) 0 s | None => True end ->
  delay_fstep d m sh x prev = Ok (out, Some s') -> jst (fun b : list F => length b = d) (2 * d) 0 s'.
Proof.
  intros D H. unfold delay_fstep. replace (Nat.eqb d 0) with false by lia.
  set (st := match prev with None => delay_init d m sh x | Some s => s end).
  assert (J : jst (fun b : list F => length b = d) (2 * d) 0 st).
  { unfold st. destruct prev as [s|]; [exact H|]. unfold jst, small, delay_init. cbn [o_buf o_idx o_str]. rewrite repeat_length.
    split; [reflexivity|]. destruct sh; lia. }
  clearbody st. destruct J as [J1 [J2 J3]]. destruct (if Z.leb 0 (o_idx st) then _ else _); [|discriminate]. cbn [bind].
  destruct (setz _ _ x) eqn:E; [|discriminate]. cbn [bind]. intros X. injection X as _ <-. apply setz_len in E as [E _].
  unfold jst, small. cbn [o_buf o_idx o_str]. split; [congruence|]. split; [|exact J3].
  destruct (Z.ltb_spec 0 (o_idx st + 1)); [|lia]. pose proof (Z.mod_pos_bound (o_idx st + 1) (Z.of_nat d)). lia.
Qed.

Definition conv_full (k : nat) (b : list (list F)) : Prop := length b = k - 1 /\ Forall (fun r => length r = k - 1) b.
Lemma conv_jst c x prev out s' : 1 <= ck c -> 1 <= cs c -> match prev with Some s => jst (conv_full (ck c)) (ck c) (cs c + ck c + cp c) s | None => True end ->
  conv_fstep c x prev = Ok (out, Some s') -> jst (conv_full (ck c)) (ck c) (cs c + ck c + cp c) s'.
Proof.
  intros K S H. unfold conv_fstep. destruct (conv_stateless c).
  - destruct (conv_forward c [x]); [|discriminate]. cbn [bind]. destruct (getz _ _); [|discriminate]. cbn [bind]. intros E. injection E as _ ->. exact H.
  - destruct (pad_time Zeros (ck c - 1) [x]) as [xp|] eqn:Ep; [|discriminate]. cbn [bind].
    assert (Lp : length xp = (ck c - 1) + 1 + (ck c - 1)).
    { cbn in Ep. destruct (ck c - 1) eqn:Ek; cbn in Ep; injection Ep as <-; cbn; [reflexivity|]. rewrite app_length. cbn. rewrite ?repeat_length. lia. }
    destruct (xcorr (cW c) None (ck c) 1 xp) as [xs|] eqn:Ex; [|discriminate]. cbn [bind].
    assert (Lx : length xs = ck c).
    { unfold xcorr in Ex. destruct (Nat.ltb _ _); [discriminate|].
      apply (f_equal (fun r => match r with Ok v => length v | Err _ => 0 end)) in Ex. cbv beta iota in Ex.
      rewrite map_length, seq_length, Nat.div_1_r in Ex. lia. }
    destruct (getz xs 0); [|discriminate]. cbn [bind].
    set (st := match prev with None => conv_init c (skipn 1 xs) | Some s => s end).
    assert (Lr : length (skipn 1 xs) = ck c - 1) by (rewrite skipn_length; lia).
    assert (J : jst (conv_full (ck c)) (ck c) (cs c + ck c + cp c) st).
    { unfold st. destruct prev as [s|]; [exact H|]. unfold jst, small, conv_full, conv_init. cbn [o_buf o_idx o_str]. rewrite repeat_length.
      split; [split; [reflexivity|]|lia]. apply Forall_forall. intros r R. apply repeat_spec in R. subst r. rewrite map_length. exact Lr. }
    clearbody st. destruct J as [[J1 J1'] [J2 J3]].
    destruct (if Z.eqb (o_str st) (Z.of_nat (cs c) - 1) then _ else _); [|discriminate]. cbn [bind].
    assert (NS : (Z.abs (if Z.ltb 0 (o_str st + 1) then (o_str st + 1) mod Z.of_nat (cs c) else o_str st + 1) <= Z.of_nat (cs c + ck c + cp c))%Z).
    { destruct (Z.ltb_spec 0 (o_str st + 1)); [|lia]. pose proof (Z.mod_pos_bound (o_str st + 1) (Z.of_nat (cs c))). lia. }
    destruct (Nat.ltb_spec 1 (ck c)) as [K1|K1].
    + destruct (setz _ _ _) eqn:E; [|discriminate]. cbn [bind]. intros X. injection X as _ <-. apply setz_len in E as [E1 E2].
      unfold jst, small, conv_full. cbn [o_buf o_idx o_str]. split; [split; [congruence|apply E2; assumption]|]. split; [|exact NS].
      pose proof (Z.mod_pos_bound (o_idx st + 1) (Z.of_nat (ck c - 1))). lia.
    + cbn [bind]. intros X. injection X as _ <-. unfold jst, small, conv_full. cbn [o_buf o_idx o_str]. auto.
Qed.

Lemma pool_jst c x prev out s' : 1 <= pk c -> 1 <= ps c ->
  match prev with Some s => jst (fun b : list F => length b = pool_buflen c) (pk c) (ps c + pool_buflen c + pp c) s | None => True end ->
  pool_fstep c x prev = Ok (out, Some s') -> jst (fun b : list F => length b = pool_buflen c) (pk c) (ps c + pool_buflen c + pp c) s'.
Proof.
  intros K S H. unfold pool_fstep.
  set (st := match prev with Some s => s | None => pool_init c (psp c x) end).
  assert (J : jst (fun b : list F => length b = pool_buflen c) (pk c) (ps c + pool_buflen c + pp c) st).
  { unfold st. destruct prev as [s|]; [exact H|]. unfold jst, small, pool_init. cbn [o_buf o_idx o_str]. rewrite repeat_length. split; [reflexivity|]. lia. }
  clearbody st. destruct J as [J1 [J2 J3]]. destruct (setz _ _ _) as [b|] eqn:E; [|discriminate]. cbn [bind]. apply setz_len in E as [E _].
  destruct (if Z.eqb (o_str st) (Z.of_nat (ps c) - 1) then _ else _); [|discriminate]. cbn [bind]. intros X. injection X as _ <-.
  unfold jst, small. cbn [o_buf o_idx o_str]. split; [congruence|]. split.
  - pose proof (Z.mod_pos_bound (o_idx st + 1) (Z.of_nat (pk c))). lia.
  - destruct (Z.ltb_spec 0 (o_str st + 1)); [|lia]. pose proof (Z.mod_pos_bound (o_str st + 1) (Z.of_nat (ps c))). lia.
Qed.

(** ** Recurrent modules *)
Definition rnn_steady (c : rnn_cfg F) : Prop :=
  Forall (fun cell => forall h x, length h = length (r_h0 c) -> length (fst (cell h x)) = length (r_h0 c)) (r_cells c).
Definition hid_ok (c : rnn_cfg F) (hs : list (hid F)) : Prop := length hs = length (r_cells c) /\ Forall (fun h => length h = length (r_h0 c)) hs.
Lemma rnn_layer_len n (cell : hid F -> F -> hid F * F) (H : forall h x, length h = n -> length (fst (cell h x)) = n) xs :
  forall h, length h = n -> length (snd (rnn_layer cell h xs)) = n.
Proof.
  induction xs as [|x xs IH]; intros h L; cbn [rnn_layer]; [exact L|]. specialize (H h x L). destruct (cell h x) as [h1 y]. cbn [fst] in H.
  specialize (IH h1 H). destruct (rnn_layer cell h1 xs). exact IH.
Qed.
Lemma rnn_layers_len n (cells : list (hid F -> F -> hid F * F)) : Forall (fun cell => forall h x, length h = n -> length (fst (cell h x)) = n) cells ->
  forall hs xs, length hs = length cells -> Forall (fun h : hid F => length h = n) hs ->
  length (snd (rnn_layers cells hs xs)) = length cells /\ Forall (fun h => length h = n) (snd (rnn_layers cells hs xs)).
Proof.
  induction 1 as [|cell cells Hc _ IH]; intros [|h hs] xs L H; try discriminate; cbn [rnn_layers]; [split; constructor|].
  inversion H; subst. pose proof (rnn_layer_len _ cell Hc xs h eq_refl) as L1. destruct (rnn_layer cell h xs) as [ys h1]. cbn [snd] in L1.
  injection L as L. destruct (IH hs ys L ltac:(assumption)) as [A B]. destruct (rnn_layers cells hs ys). cbn in *. split; [lia|]. constructor; auto.
Qed.
Lemma torch_rnn_ok c xs hx ys h : rnn_steady c -> match hx with Some hs => hid_ok c hs | None => True end ->
  torch_rnn c xs hx = Ok (ys, h) -> hid_ok c h.
Proof.
  intros S H. unfold torch_rnn. destruct xs as [|x xs]; [discriminate|].
  set (hs := match hx with Some h => h | None => _ end).
  assert (J : hid_ok c hs).
  { unfold hs. destruct hx; [exact H|]. split; [apply repeat_length|]. apply Forall_forall. intros r R. apply repeat_spec in R. subst r. reflexivity. }
  clearbody hs. destruct J as [J1 J2]. destruct (Nat.eqb _ _); [|discriminate]. intros E. injection E as E.
  pose proof (rnn_layers_len _ _ S hs (x :: xs) J1 J2) as R. rewrite E in R. exact R.
Qed.

(** ** Networks *)
Fixpoint inv (m : md F) : Prop :=
  match m with
  | MDelay d _ _ o => jobj (fun b => length b = d) (2 * d) 0 o
  | MSkip n i => (- Z.of_nat n <= i <= 0)%Z
  | MConv c o => jobj (conv_full (ck c)) (ck c) (cs c + ck c + cp c) o
  | MPool c o => jobj (fun b => length b = pool_buflen c) (pk c) (ps c + pool_buflen c + pp c) o
  | MRnn c o => match o with Some hs => hid_ok c hs | None => True end
  | MSeq ms | MPar ms | MBR ms _ => allP inv ms
  | MCond _ _ _ a b => inv a /\ match b with Some b0 => inv b0 | None => True end
  | _ => True
  end.

Definition grown (a b : nat) : Prop := b = a \/ a = 0.
Definition okp (m m' : md F) : Prop :=
  room m' = room m /\ limits m' = limits m /\
  (proper m -> inv m -> proper m' /\ inv m' /\ Forall2 grown (held m) (held m')).

Lemma grown_refl l : Forall2 grown l l.
Proof. induction l; constructor; [left; reflexivity|assumption]. Qed.
Lemma okp_refl m : okp m m.
Proof. repeat split; auto. apply grown_refl. Qed.

Lemma okp_list ms ms' : Forall2 okp ms ms' ->
  flat_map room ms' = flat_map room ms /\ flat_map limits ms' = flat_map limits ms /\
  (allP proper ms -> allP inv ms -> allP proper ms' /\ allP inv ms' /\ Forall2 grown (flat_map held ms) (flat_map held ms')).
Proof.
  induction 1 as [|m m' ms ms' (R & L & H) _ (IR & IL & IH)]; [repeat split; constructor|]. cbn [flat_map allP fold_right].
  split; [congruence|]. split; [congruence|]. intros [P1 P2] [I1 I2]. destruct (H P1 I1) as (A & B & C), (IH P2 I2) as (A' & B' & C').
  repeat split; auto. apply Forall2_app; assumption.
Qed.

Lemma conv_full_size k b : conv_full k b -> length (concat b) = (k - 1) * (k - 1).
Proof.
  intros [<- H]. assert (G : forall n l, Forall (fun r : list F => length r = n) l -> length (concat l) = length l * n).
  { intros n l. induction 1 as [|r l E _ IH]; [reflexivity|]. cbn [concat length]. rewrite app_length, E, IH. reflexivity. }
  apply G. exact H.
Qed.
Lemma hid_ok_size c hs : hid_ok c hs -> length (concat hs) = length (r_cells c) * length (r_h0 c).
Proof.
  intros [<- H]. assert (G : forall n (l : list (hid F)), Forall (fun r : hid F => length r = n) l -> length (concat l) = length l * n).
  { intros n l. induction 1 as [|r l E _ IH]; [reflexivity|]. cbn [concat length]. rewrite app_length, E, IH. reflexivity. }
  apply G. exact H.
Qed.

(** A leaf whose buffer stays or becomes full. *)
Lemma okp_obj {B} (mk : obj B -> md F) (full : list B -> Prop) Li Ls (size : list B -> nat) n o o' :
  (forall o, held (mk o) = [size (o_buf o)]) -> (forall o, inv (mk o) = jobj full Li Ls o) ->
  (forall o o', room (mk o') = room (mk o) /\ limits (mk o') = limits (mk o) /\ proper (mk o') = proper (mk o)) ->
  size [] = 0 -> (forall b, full b -> size b = n) ->
  (proper (mk o) -> jobj full Li Ls o -> o' = o \/ jst full Li Ls o') -> okp (mk o) (mk o').
Proof.
  intros H1 H2 H3 H4 H5 H. destruct (H3 o o') as (R & L & P). split; [exact R|]. split; [exact L|]. rewrite P, !H2, !H1. intros Pr J. split; [exact Pr|].
  destruct (H Pr J) as [->|J'].
  - split; [exact J|]. apply grown_refl.
  - split; [apply jst_jobj, J'|]. constructor; [|constructor]. destruct J as [[E|E] _].
    + right. rewrite E. exact H4.
    + left. rewrite (H5 _ E). apply H5, J'.
Qed.

Lemma okp_delay d f sh o o' : (d <> 0 -> jobj (fun b : list F => length b = d) (2 * d) 0 o -> o' = o \/ jst (fun b => length b = d) (2 * d) 0 o') ->
  (d = 0 -> o' = o) -> okp (MDelay d f sh o) (MDelay d f sh o').
Proof.
  intros H H0. apply (okp_obj (MDelay d f sh) (fun b => length b = d) (2 * d) 0 (@length F) d); auto.
  intros _ J. destruct (Nat.eq_dec d 0) as [E|E]; [left; apply H0, E|apply H; assumption].
Qed.
Lemma okp_skip n i i' : ((- Z.of_nat n <= i <= 0)%Z -> (- Z.of_nat n <= i' <= 0)%Z) -> okp (MSkip n i) (MSkip n i').
Proof. intros H. repeat split; cbn; auto; apply H; cbn in *; lia. Qed.
Lemma okp_rnn c o o' : (rnn_steady c -> match o with Some hs => hid_ok c hs | None => True end ->
    o' = o \/ exists hs, o' = Some hs /\ hid_ok c hs) -> okp (MRnn c o) (MRnn c o').
Proof.
  intros H. split; [reflexivity|]. split; [reflexivity|]. cbn [proper inv held]. intros P J. split; [exact P|].
  destruct (H P J) as [->|(hs & -> & K)]; [split; [exact J|apply grown_refl]|]. split; [exact K|]. constructor; [|constructor].
  destruct o as [hs0|]; [left|right; reflexivity]. rewrite !(hid_ok_size c) by assumption. reflexivity.
Qed.

Lemma skip_bounds n x prev out s' : match prev with Some i => (- Z.of_nat n <= i <= 0)%Z | None => True end ->
  skip_fstep n (x : F) prev = Ok (out, s') -> exists i, s' = Some i /\ (- Z.of_nat n <= i <= 0)%Z.
Proof.
  intros H. unfold skip_fstep. set (i := match prev with None => _ | Some i => i end). assert (J : (- Z.of_nat n <= i <= 0)%Z) by (unfold i; destruct prev; lia).
  destruct (Z.leb_spec 0 i); intros E; injection E as _ <-; eexists; (split; [reflexivity|lia]).
Qed.
Lemma skip_loop n xs : forall prev outs s', (- Z.of_nat n <= prev <= 0)%Z ->
  co_loop (skip_fstep n) (xs : list F) (Some prev) = Ok (outs, s') -> exists i, s' = Some i /\ (- Z.of_nat n <= i <= 0)%Z.
Proof.
  induction xs as [|x xs IH]; intros prev outs s' H; cbn [co_loop]; [intros E; injection E as _ <-; eauto|].
  destruct (skip_fstep n x (Some prev)) as [[o s1]|] eqn:E1; [|discriminate]. cbn [bind].
  destruct (skip_bounds n x (Some prev) o s1 H E1) as (i & -> & I). destruct (co_loop _ xs (Some i)) as [[os s2]|] eqn:E2; [|discriminate]. cbn [bind].
  intros E. injection E as _ <-. eapply IH; eassumption.
Qed.

Theorem xstep_mem m : forall v upd, okp m (fst (xstep m v upd)).
Proof.
  induction m using md_ind'; intros v upd; cbn [xstep].
  - destruct v; try apply okp_refl. unfold xmap, xdelay_forward_step. cbn [fst]. apply okp_delay.
    + intros D J. replace (Nat.eqb d 0) with false by lia. apply (obj_step _ _ _ _ (fun x p out s' => delay_jst d _ sh x p out s' D)), J.
    + intros ->. reflexivity.
  - destruct v; try apply okp_refl. unfold xmap. cbn [fst]. apply okp_skip. intros J. unfold xco_forward_step.
    destruct (skip_fstep n x (skip_get o)) as [[out s']|] eqn:E; [|exact J]. cbn [fst].
    destruct (skip_bounds n x (Some o) out s' J E) as (i & -> & I). destruct upd; assumption.
  - destruct v; try apply okp_refl. unfold xmap. cbn [fst].
    apply (okp_obj (MConv c) (conv_full (ck c)) (ck c) (cs c + ck c + cp c) (fun b => length (concat b)) ((ck c - 1) * (ck c - 1))); auto using conv_full_size.
    cbn [proper]. intros [K S] J. apply (obj_step _ _ _ _ (fun x p out s' => conv_jst c x p out s' K S)), J.
  - destruct v; try apply okp_refl. unfold xmap. cbn [fst].
    apply (okp_obj (MPool c) (fun b => length b = pool_buflen c) (pk c) (ps c + pool_buflen c + pp c) (@length F) (pool_buflen c)); auto.
    cbn [proper]. intros [K S] J. apply (obj_step _ _ _ _ (fun x p out s' => pool_jst c x p out s' K S)), J.
  - destruct v; apply okp_refl.
  - destruct v; try apply okp_refl. unfold xmap, xrnn_forward_step. cbn [fst]. apply okp_rnn. intros P J.
    unfold rnn_fstep. destruct (torch_rnn c [x] o) as [[ys h]|] eqn:E; [|left; reflexivity]. cbn [bind]. destruct (getz ys 0); [|left; reflexivity]. cbn [bind fst].
    destruct upd; [right|left; reflexivity]. exists h. split; [reflexivity|]. eapply torch_rnn_ok; eassumption.
  - pose proof (xseq_step_keeps okp okp_refl (fun m v => xstep m v upd) ms ltac:(eapply Forall_impl; [|exact H]; cbn beta; auto) v) as E.
    destruct (xseq_step _ ms v). cbn [fst] in *. apply okp_list, E.
  - apply okp_refl.
  - destruct v; try apply okp_refl. unfold xmap. cbn [fst]. apply okp_list.
    apply (xpar_keeps okp okp_refl). eapply Forall_impl; [|exact H]; cbn beta; auto.
  - apply okp_refl.
  - apply okp_refl.
  - pose proof (xbr_keeps okp okp_refl (fun m v => xstep m v upd) ms ltac:(eapply Forall_impl; [|exact H]; cbn beta; auto) v) as E.
    destruct (xbr_run _ ms v) as [? [?|?]]; cbn [fst] in *; apply okp_list, E.
  - destruct (p v).
    + specialize (IHm v upd). destruct (xstep m v upd) as [a' w]. cbn [fst] in *. destruct IHm as (A & B & C).
      split; [cbn; congruence|]. split; [cbn; congruence|]. cbn [proper inv held]. intros [P1 P2] [I1 I2]. destruct (C P1 I1) as (X & Y & Z).
      repeat split; auto. apply Forall2_app; [exact Z|apply grown_refl].
    + destruct b as [b0|]; [|apply okp_refl]. specialize (H b0 eq_refl v upd). destruct (xstep b0 v upd) as [b' w]. cbn [fst] in *. destruct H as (A & B & C).
      split; [cbn; congruence|]. split; [cbn; congruence|]. cbn [proper inv held]. intros [P1 P2] [I1 I2]. destruct (C P2 I2) as (X & Y & Z).
      repeat split; auto. apply Forall2_app; [apply grown_refl|exact Z].
Qed.

Theorem xsteps_mem m : forall v pe upd, okp m (fst (xsteps m v pe upd)).
Proof.
  induction m using md_ind'; intros v pe upd; cbn [xsteps].
  - destruct v; try apply okp_refl. unfold xmap, xdelay_forward_steps. cbn [fst]. apply okp_delay.
    + intros D J. replace (Nat.eqb d 0) with false by lia. apply (obj_steps _ _ _ _ (fun x p out s' => delay_jst d _ sh x p out s' D)), J.
    + intros ->. reflexivity.
  - destruct v; try apply okp_refl. unfold xmap. cbn [fst]. apply okp_skip. intros J. unfold xco_forward_steps.
    change (skip_get o) with (Some o). destruct (co_loop (skip_fstep n) xs (Some o)) as [[out s']|] eqn:E; [|exact J].
    destruct (skip_loop n xs o out s' J E) as (i & -> & I).
    destruct pe; [|destruct upd; assumption]. destruct (end_frames _ _ xs); [|destruct upd; assumption].
    match goal with |- context [co_loop ?f ?a ?b] => destruct (co_loop f a b) as [[? ?]|]; (destruct upd; assumption) end.
  - destruct v; try apply okp_refl. unfold xmap. cbn [fst].
    apply (okp_obj (MConv c) (conv_full (ck c)) (ck c) (cs c + ck c + cp c) (fun b => length (concat b)) ((ck c - 1) * (ck c - 1))); auto using conv_full_size.
    cbn [proper]. intros [K S] J. apply (obj_steps _ _ _ _ (fun x p out s' => conv_jst c x p out s' K S)), J.
  - destruct v; try apply okp_refl. unfold xmap. cbn [fst].
    apply (okp_obj (MPool c) (fun b => length b = pool_buflen c) (pk c) (ps c + pool_buflen c + pp c) (@length F) (pool_buflen c)); auto.
    cbn [proper]. intros [K S] J. apply (obj_steps _ _ _ _ (fun x p out s' => pool_jst c x p out s' K S)), J.
  - destruct v; apply okp_refl.
  - destruct v; try apply okp_refl. unfold xmap, xrnn_forward_steps. cbn [fst]. apply okp_rnn. intros P J.
    destruct (torch_rnn c xs o) as [[ys h]|] eqn:E; [|left; reflexivity]. cbn [fst].
    destruct upd; [right|left; reflexivity]. exists h. split; [reflexivity|]. eapply torch_rnn_ok; eassumption.
  - pose proof (xseq_steps_keeps okp okp_refl (fun m v => xsteps m v pe upd) ms ltac:(eapply Forall_impl; [|exact H]; cbn beta; auto) v) as E.
    destruct (xseq_steps _ ms v). cbn [fst] in *. apply okp_list, E.
  - apply okp_refl.
  - destruct v; try apply okp_refl. unfold xmap. cbn [fst]. apply okp_list.
    apply (xpar_keeps okp okp_refl). eapply Forall_impl; [|exact H]; cbn beta; auto.
  - apply okp_refl.
  - apply okp_refl.
  - pose proof (xbr_keeps okp okp_refl (fun m v => xsteps m v pe upd) ms ltac:(eapply Forall_impl; [|exact H]; cbn beta; auto) v) as E.
    destruct (xbr_run _ ms v) as [? [?|?]]; cbn [fst] in *; apply okp_list, E.
  - destruct (p v).
    + specialize (IHm v false true). destruct (xsteps m v false true) as [a' w]. cbn [fst] in *. destruct IHm as (A & B & C).
      split; [cbn; congruence|]. split; [cbn; congruence|]. cbn [proper inv held]. intros [P1 P2] [I1 I2]. destruct (C P1 I1) as (X & Y & Z).
      repeat split; auto. apply Forall2_app; [exact Z|apply grown_refl].
    + destruct b as [b0|]; [|apply okp_refl]. specialize (H b0 eq_refl v false true). destruct (xsteps b0 v false true) as [b' w]. cbn [fst] in *. destruct H as (A & B & C).
      split; [cbn; congruence|]. split; [cbn; congruence|]. cbn [proper inv held]. intros [P1 P2] [I1 I2]. destruct (C P2 I2) as (X & Y & Z).
      repeat split; auto. apply Forall2_app; [apply grown_refl|exact Z].
Qed.

(** ** clean_state and whole histories *)
Definition cfg_same (m m' : md F) : Prop := room m' = room m /\ limits m' = limits m.
Lemma clean_obj {B} (full : list B -> Prop) Li Ls o : jobj full Li Ls (obj_clean o).
Proof. split; [left; reflexivity|]. unfold small. cbn. lia. Qed.
Lemma clean_mem m : cfg_same m (clean m) /\ (proper m -> inv m -> proper (clean m) /\ inv (clean m)).
Proof.
  assert (L : forall ms, Forall (fun m => cfg_same m (clean m) /\ (proper m -> inv m -> proper (clean m) /\ inv (clean m))) ms ->
    (flat_map room (map clean ms) = flat_map room ms /\ flat_map limits (map clean ms) = flat_map limits ms) /\
    (allP proper ms -> allP inv ms -> allP proper (map clean ms) /\ allP inv (map clean ms))).
  { induction 1 as [|m' ms [[R L] H] _ [[IR IL] IH]]; [repeat split|]. cbn [map flat_map allP fold_right]. split; [split; congruence|].
    intros [P1 P2] [I1 I2]. destruct (H P1 I1), (IH P2 I2). repeat split; auto. }
  induction m using md_ind'; cbn [clean]; try (apply L; assumption); (split; [split; reflexivity|]); cbn [proper inv]; intros P I; (split; [exact P|]); auto; try apply clean_obj.
  - unfold skip_init. lia.
  - exact Logic.I.
Qed.

Lemma xcall_mem m c : cfg_same m (fst (xcall m c)) /\
  (proper m -> inv m -> proper (fst (xcall m c)) /\ inv (fst (xcall m c)) /\
     (keeps_state c -> Forall2 grown (held m) (held (fst (xcall m c))))).
Proof.
  destruct c as [v upd|v pe upd|v|]; cbn [xcall fst keeps_state].
  - destruct (xstep_mem m v upd) as (A & B & C). split; [split; assumption|]. intros P I. destruct (C P I) as (X & Y & Z). auto.
  - destruct (xsteps_mem m v pe upd) as (A & B & C). split; [split; assumption|]. intros P I. destruct (C P I) as (X & Y & Z). auto.
  - split; [split; reflexivity|]. intros P I. repeat split; auto. intros _. apply grown_refl.
  - destruct (clean_mem m) as [A B]. split; [exact A|]. intros P I. destruct (B P I). repeat split; auto. intros [].
Qed.
Lemma grown_trans a b c : Forall2 grown a b -> Forall2 grown b c -> Forall2 grown a c.
Proof.
  intros H. revert c. induction H as [|x y a b G _ IH]; intros c H'; inversion H' as [|y' z b' c' G' H'']; subst; constructor; auto.
  unfold grown in *. lia.
Qed.
Lemma xrun_mem cs : forall m, cfg_same m (fst (xrun m cs)) /\
  (proper m -> inv m -> proper (fst (xrun m cs)) /\ inv (fst (xrun m cs)) /\
     (Forall keeps_state cs -> Forall2 grown (held m) (held (fst (xrun m cs))))).
Proof.
  induction cs as [|c cs IH]; intros m; cbn [xrun fst].
  - split; [split; reflexivity|]. intros P I. repeat split; auto. intros _. apply grown_refl.
  - destruct (xcall_mem m c) as [[A B] C]. destruct (xcall m c) as [m1 r]. cbn [fst] in *. destruct (IH m1) as [[A' B'] C'].
    destruct (xrun m1 cs) as [m2 rs]. cbn [fst] in *. split; [split; congruence|]. intros P I. destruct (C P I) as (X & Y & Z), (C' X Y) as (X' & Y' & Z').
    repeat split; auto. intros K. inversion K; subst. eapply grown_trans; eauto.
Qed.

(** The invariant in terms of what is held. *)
Lemma inv_held m : proper m -> inv m ->
  Forall2 (fun h r => h = 0 \/ h = r) (held m) (room m) /\ Forall2 (fun z l => (Z.abs z <= Z.of_nat l)%Z) (counters m) (limits m).
Proof.
  assert (L : forall ms, Forall (fun m => proper m -> inv m ->
      Forall2 (fun h r => h = 0 \/ h = r) (held m) (room m) /\ Forall2 (fun z l => (Z.abs z <= Z.of_nat l)%Z) (counters m) (limits m)) ms ->
    allP proper ms -> allP inv ms ->
      Forall2 (fun h r => h = 0 \/ h = r) (flat_map held ms) (flat_map room ms) /\ Forall2 (fun z l => (Z.abs z <= Z.of_nat l)%Z) (flat_map counters ms) (flat_map limits ms)).
  { induction 1 as [|m' ms H _ IH]; intros P I; [split; constructor|]. destruct P as [P1 P2], I as [I1 I2]. destruct (H P1 I1), (IH P2 I2).
    cbn [flat_map]. split; apply Forall2_app; assumption. }
  induction m using md_ind'; cbn [proper inv held room counters limits]; intros P I; try (apply L; assumption); try solve [split; constructor].
  - destruct I as [I [S1 S2]]. split; (constructor; [|constructor]); [|exact S1]. destruct I as [-> | ->]; auto.
  - split; [constructor|]. constructor; [lia|constructor].
  - destruct I as [I [S1 S2]]. split; [|repeat constructor; assumption]. constructor; [|constructor]. destruct I as [-> |I]; [left; reflexivity|right; apply conv_full_size, I].
  - destruct I as [I [S1 S2]]. split; [|repeat constructor; assumption]. constructor; [|constructor]. destruct I as [-> |I]; [left; reflexivity|right; apply I].
  - split; [|constructor]. constructor; [|constructor]. destruct o as [hs|]; [right; apply hid_ok_size, I|left; reflexivity].
  - destruct P as [P1 P2], I as [I1 I2]. destruct (IHm P1 I1) as [A B]. destruct b as [b0|]; [|rewrite !app_nil_r; auto].
    destruct (H b0 eq_refl P2 I2) as [A' B']. split; apply Forall2_app; assumption.
Qed.
Lemma fresh_inv m : fresh m -> inv m.
Proof.
  assert (L : forall ms, Forall (fun m => fresh m -> inv m) ms -> allP fresh ms -> allP inv ms).
  { induction 1; intros P; [exact I|]. destruct P. split; auto. }
  induction m using md_ind'; cbn [fresh inv]; intros Hf; subst; auto; try apply (@clean_obj _ _ _ _ obj_init).
  - unfold skip_init. lia.
  - destruct Hf. split; auto. destruct b; auto.
Qed.

Lemma memory m cs : proper m -> fresh m ->
  Forall2 (fun h r => h = 0 \/ h = r) (held (fst (xrun m cs))) (room m) /\
  Forall2 (fun z l => (Z.abs z <= Z.of_nat l)%Z) (counters (fst (xrun m cs))) (limits m).
Proof.
  intros P Fr. destruct (xrun_mem cs m) as [[R L] H]. destruct (H P (fresh_inv m Fr)) as (X & Y & _). rewrite <- R, <- L. apply inv_held; assumption.
Qed.
Lemma memory_total m cs : proper m -> fresh m -> list_sum (held (fst (xrun m cs))) <= list_sum (room m).
Proof.
  intros P Fr. destruct (memory m cs P Fr) as [H _]. induction H as [|a b l l' H _ IH]; [auto|]. cbn [list_sum fold_right]. unfold list_sum in IH. destruct H; subst; lia.
Qed.
Lemma memory_grows m before after : proper m -> fresh m -> Forall keeps_state after ->
  Forall2 (fun a b => b = a \/ a = 0) (held (fst (xrun m before))) (held (fst (xrun (fst (xrun m before)) after))).
Proof.
  intros P Fr K. destruct (xrun_mem before m) as [_ H]. destruct (H P (fresh_inv m Fr)) as (X & Y & _).
  destruct (xrun_mem after (fst (xrun m before))) as [_ H']. destruct (H' X Y) as (_ & _ & G). exact (G K).
Qed.
End Mem.
