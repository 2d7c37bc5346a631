(** Proofs about leaf modules: closed form of the state after n frames. *)
From Coq Require Import List ZArith Bool Arith Lia Permutation ZifyBool ZifyNat.
From Verif Require Import Base Frames CoMod Leaf Spec LeafSpec Ring.
Import ListNotations.
Ltac Zify.zify_post_hook ::= Z.div_mod_to_equations.

Lemma somes_app {A} (l l' : list (option A)) : somes (l ++ l') = somes l ++ somes l'.
Proof. induction l as [|[a|] l IH]; simpl; rewrite ?IH; auto. Qed.

Section Machine.
Context {F Ob St : Type}.
Variable get_state : Ob -> option St.
Variable set_state : Ob -> St -> Ob.
Variable fstep : F -> option St -> res (option F * option St).
Variable h : nat -> F.
Variable S_ : nat -> option St.
Variable out : nat -> option F.

Definition clip (n len : nat) : list F := map h (seq n len).

(** If the step function follows the closed form [S_]/[out] ... *)
Variable lo : nat.
Hypothesis Hstep : forall n, lo <= n -> fstep (h n) (S_ n) = Ok (out n, S_ (S n)).

Lemma co_loop_closed n len : lo <= n ->
  co_loop fstep (clip n len) (S_ n) =
  Ok (somes (map out (seq n len)), S_ (n + len)).
Proof.
  unfold clip. revert n; induction len as [|len IH]; simpl; intros n Hn.
  - now rewrite Nat.add_0_r.
  - rewrite Hstep by lia; simpl. rewrite IH by lia; simpl.
    destruct (out n); do 2 f_equal; f_equal; lia.
Qed.

(** ... then so do the stateful calls. *)
Variable Ob_ : nat -> Ob.
Hypothesis Hget : forall n, lo <= n -> get_state (Ob_ n) = S_ n.
Hypothesis Hset : forall n, lo <= n -> exists s, S_ (S n) = Some s /\
  forall m, lo <= m <= n -> set_state (Ob_ m) s = Ob_ (S n).

Lemma co_forward_step_closed n : lo <= n ->
  co_forward_step get_state set_state fstep (Ob_ n) (h n) true
  = Ok (out n, Ob_ (S n)).
Proof.
  intros Hn. unfold co_forward_step. rewrite Hget, Hstep by auto. simpl.
  destruct (Hset n Hn) as (s & -> & E). rewrite E by lia. reflexivity.
Qed.

Lemma feed_closed n len : lo <= n ->
  feed (fun o x => co_forward_step get_state set_state fstep o x true)
       (Ob_ n) (clip n len)
  = Ok (map out (seq n len), Ob_ (n + len)).
Proof.
  unfold clip. revert n; induction len as [|len IH]; intros n Hn; simpl.
  - now rewrite Nat.add_0_r.
  - rewrite co_forward_step_closed by auto; simpl. rewrite IH by lia; simpl.
    do 3 f_equal. lia.
Qed.

Lemma obj_after n len s : lo <= n -> S_ (n + len) = Some s -> 0 < len ->
  set_state (Ob_ n) s = Ob_ (n + len).
Proof.
  intros Hn E Hl. destruct (Hset (n + len - 1)) as (s' & E' & H); [lia|].
  replace (S (n + len - 1)) with (n + len) in * by lia.
  rewrite E in E'. injection E' as <-. apply H. lia.
Qed.

Variable mkpad : F -> F.

(** forward_steps without end padding. *)
Lemma co_forward_steps_closed pad n len : lo <= n -> 0 < len ->
  co_forward_steps get_state set_state fstep mkpad pad (Ob_ n) (clip n len) false true
  = Ok (stack_outs (somes (map out (seq n len))),
        Ob_ (n + len)).
Proof.
  intros Hn Hl. unfold co_forward_steps. rewrite Hget by auto.
  rewrite co_loop_closed by auto. simpl.
  destruct (Hset (n + len - 1)) as (s & E & _); [lia|].
  replace (S (n + len - 1)) with (n + len) in E by lia.
  rewrite E. rewrite app_nil_r.
  rewrite (obj_after n len s) by auto. reflexivity.
Qed.

(** forward_steps with end padding, when the stream continues with padding. *)
Lemma co_forward_steps_pad_closed pad n len : lo <= n -> 0 < len ->
  (forall i, i < pad -> h (n + len + i) = mkpad (h (n + len - 1))) ->
  co_forward_steps get_state set_state fstep mkpad pad (Ob_ n) (clip n len) true true
  = Ok (stack_outs (somes (map out (seq n (len + pad)))),
        Ob_ (n + len)).
Proof.
  intros Hn Hl Hp. unfold co_forward_steps. rewrite Hget by auto.
  rewrite co_loop_closed by auto. simpl.
  destruct (Hset (n + len - 1)) as (s & E & _); [lia|].
  replace (S (n + len - 1)) with (n + len) in E by lia.
  rewrite E. rewrite (obj_after n len s) by auto.
  rewrite Hget, E by lia.
  assert (Hlast : forall d, last (clip n len) d = h (n + len - 1)).
  { intros d. unfold clip. replace len with ((len - 1) + 1) by lia.
    rewrite seq_app, map_app. simpl. rewrite last_last. f_equal. lia. }
  assert (He : end_frames mkpad pad (clip n len) = Ok (clip (n + len) pad)).
  { unfold end_frames. destruct pad as [|pad].
    - reflexivity.
    - assert (clip n len <> []) by (unfold clip; destruct len; simpl; [lia|discriminate]).
      destruct (clip n len) as [|x t] eqn:Ec; [congruence|].
      rewrite Hlast. f_equal. unfold clip.
      clear -Hp. revert Hp. generalize (S pad); intros p Hp.
      transitivity (map (fun _ : nat => mkpad (h (n + len - 1))) (seq (n + len) p)).
      + clear Hp. generalize (n + len) as a, (mkpad (h (n + len - 1))) as v.
        induction p; simpl; intros; f_equal; auto.
      + apply map_ext_in. intros i Hi%in_seq. rewrite <- (Hp (i - (n + len))) by lia.
        f_equal; lia. }
  rewrite He. simpl. rewrite <- E. rewrite co_loop_closed by lia. simpl.
  rewrite <- somes_app, <- map_app, <- seq_app. reflexivity.
Qed.

(** update_state=False: same outputs, object untouched (no end padding). *)
Lemma co_forward_steps_peek_closed pad n len : lo <= n ->
  co_forward_steps get_state set_state fstep mkpad pad (Ob_ n) (clip n len) false false
  = Ok (stack_outs (somes (map out (seq n len))), Ob_ n).
Proof.
  intros Hn. unfold co_forward_steps. rewrite Hget by auto.
  rewrite co_loop_closed by auto. simpl. rewrite app_nil_r.
  destruct (S_ (n + len)); reflexivity.
Qed.

End Machine.

(* ------------------------------------------------------------------ *)
(** ** Counting emissions *)

Definition cnt (d s M : nat) : nat := if Nat.leb M d then 0 else (M - 1 - d) / s + 1.

Lemma cnt_0 d s : cnt d s 0 = 0.
Proof. reflexivity. Qed.

Lemma div_succ a s : 0 < s ->
  S a / s = if Nat.eqb (S a mod s) 0 then a / s + 1 else a / s.
Proof.
  intros Hs. pose proof (Nat.div_mod a s) as D. pose proof (Nat.div_mod (S a) s) as D'.
  pose proof (Nat.mod_upper_bound a s) as B1. pose proof (Nat.mod_upper_bound (S a) s) as B2.
  destruct (Nat.eqb_spec (S a mod s) 0) as [E|E].
  - rewrite E in D'. assert (s * (S a / s) = s * (a / s) + (a mod s + 1)) by lia.
    assert (a mod s + 1 <= s) by lia. nia.
  - assert (s * (S a / s) + S a mod s = s * (a / s) + (a mod s + 1)) by lia. nia.
Qed.

Lemma cnt_S d s M : 0 < s ->
  cnt d s (S M) = if emits d s M then S (cnt d s M) else cnt d s M.
Proof.
  intros Hs. unfold cnt, emits.
  destruct (Nat.leb_spec d M) as [H|H]; simpl andb.
  - replace (Nat.leb (S M) d) with false by lia.
    destruct (Nat.leb_spec M d).
    + assert (M = d) by lia. subst. rewrite Nat.sub_diag.
      replace (S d - 1 - d) with 0 by lia. rewrite Nat.mod_0_l, Nat.div_0_l by lia. reflexivity.
    + replace (S M - 1 - d) with (S (M - 1 - d)) by lia. rewrite div_succ by lia.
      replace (S (M - 1 - d)) with (M - d) by lia.
      destruct (Nat.eqb ((M - d) mod s) 0); lia.
  - replace (Nat.leb (S M) d) with true by lia.
    replace (Nat.leb M d) with true by lia. reflexivity.
Qed.

Lemma emits_cnt d s M : 0 < s -> emits d s M = true ->
  M = d + cnt d s M * s /\ (M - d) / s = cnt d s M.
Proof.
  intros Hs. unfold emits, cnt. intros H. apply andb_prop in H as [H1 H2].
  apply Nat.leb_le in H1. apply Nat.eqb_eq in H2.
  pose proof (Nat.div_mod (M - d) s) as D. rewrite H2 in D.
  destruct (Nat.leb_spec M d).
  - assert (M = d) by lia; subst. rewrite Nat.sub_diag, Nat.div_0_l by lia. lia.
  - assert (E : (M - d) / s = (M - 1 - d) / s + 1).
    { replace (M - d) with (S (M - 1 - d)) at 1 by lia. rewrite div_succ by lia.
      replace (S (M - 1 - d)) with (M - d) by lia. rewrite H2. reflexivity. }
    split; [|lia]. rewrite <- E. lia.
Qed.

(** The outputs emitted during the first M steps, in order. *)
Lemma somes_scheduled {A} (f : nat -> A) d s M : 0 < s ->
  somes (map (fun n => if emits d s n then Some (f n) else None) (seq 0 M))
  = map (fun j => f (d + j * s)) (seq 0 (cnt d s M)).
Proof.
  intros Hs. induction M as [|M IH]; [reflexivity|].
  rewrite seq_S, map_app, somes_app, IH, cnt_S by auto. cbn [map Nat.add].
  destruct (emits d s M) eqn:E; cbn [somes].
  - rewrite seq_S, map_app. cbn [map Nat.add]. do 3 f_equal. apply emits_cnt in E; lia.
  - apply app_nil_r.
Qed.

(* ------------------------------------------------------------------ *)
(** ** Stride counter *)

(** [stride_index] after n steps from the initial value [a]. *)
Definition str_at (a : Z) (s n : nat) : Z :=
  let v := (a + Z.of_nat n)%Z in
  if Z.leb v 0 then v else (v mod Z.of_nat s)%Z.

Lemma str_at_next a s n : 0 < s ->
  (let ns := (str_at a s n + 1)%Z in
   if Z.ltb 0 ns then (ns mod Z.of_nat s)%Z else ns) = str_at a s (S n).
Proof.
  intros Hs. cbv zeta. unfold str_at.
  replace (a + Z.of_nat (S n))%Z with (a + Z.of_nat n + 1)%Z by lia.
  set (v := (a + Z.of_nat n)%Z).
  destruct (Z.leb_spec v 0).
  - destruct (Z.ltb_spec 0 (v + 1)), (Z.leb_spec (v + 1) 0); auto; lia.
  - assert (0 <= v mod Z.of_nat s)%Z by (apply Z.mod_pos_bound; lia).
    replace (Z.ltb 0 (v mod Z.of_nat s + 1)) with true by lia.
    replace (Z.leb (v + 1) 0) with false by lia.
    apply Zplus_mod_idemp_l.
Qed.

Lemma str_at_0 a s : (a <= Z.of_nat s - 1)%Z -> 0 < s -> str_at a s 0 = a.
Proof.
  intros. unfold str_at. rewrite Z.add_0_r. destruct (Z.leb_spec a 0); auto.
  apply Z.mod_small. lia.
Qed.

Lemma mod0_iff x s : (0 < s)%Z -> (x mod s = 0 <-> exists q, x = s * q)%Z.
Proof.
  intros. rewrite Z.mod_divide by lia. split; intros [q E]; exists q; lia.
Qed.

(** The counter equals s-1 exactly at the emission steps. *)
Lemma str_at_valid s e n : 0 < s ->
  Z.eqb (str_at (Z.of_nat s - 1 - Z.of_nat e) s n) (Z.of_nat s - 1) = emits e s n.
Proof.
  intros Hs. unfold str_at, emits.
  set (v := (Z.of_nat s - 1 - Z.of_nat e + Z.of_nat n)%Z).
  destruct (Nat.leb_spec e n) as [Hle|Hlt]; simpl.
  - assert (Hm : ((n - e) mod s =? 0) = Z.eqb (v mod Z.of_nat s) (Z.of_nat s - 1)).
    { replace v with ((Z.of_nat s - 1) + Z.of_nat (n - e))%Z by (unfold v; lia).
      set (m := n - e). clearbody m. clear - Hs.
      destruct (Nat.eqb_spec (m mod s) 0) as [E|E]; symmetry.
      - apply Z.eqb_eq. apply Nat.mod_divides in E as [q E]; [|lia]. subst m.
        symmetry. apply Z.mod_unique_pos with (q := Z.of_nat q); lia.
      - apply Z.eqb_neq. intros E2. apply E.
        pose proof (Z.div_mod (Z.of_nat s - 1 + Z.of_nat m) (Z.of_nat s)) as D.
        set (q := ((Z.of_nat s - 1 + Z.of_nat m) / Z.of_nat s)%Z) in *.
        assert (Z.of_nat m = Z.of_nat s * q)%Z by lia.
        assert (0 <= q)%Z by nia.
        apply Nat.mod_divides; [lia|]. exists (Z.to_nat q). nia. }
    destruct (Z.leb_spec v 0); [|now rewrite Hm].
    assert (s = 1 /\ n = e \/ v = 0%Z /\ s = 1 /\ n = e) as [(-> & ->)|(?&->&->)] by lia.
    + unfold v. rewrite Nat.sub_diag. simpl. apply Z.eqb_eq. lia.
    + rewrite Nat.sub_diag. simpl. apply Z.eqb_eq. lia.
  - destruct (Z.leb_spec v 0); apply Z.eqb_neq.
    + lia.
    + rewrite Z.mod_small; lia.
Qed.

(* ------------------------------------------------------------------ *)
(** ** Extended streams *)

Section Leaves.
Context {F : Type} {FA : Frames F} {FL : FrameLaws F}.
Implicit Types xs ys zs : list F.

(** Stream extended to negative times with [v]. *)
Definition ext (v : F) (h : nat -> F) (z : Z) : F :=
  if Z.ltb z 0 then v else h (Z.to_nat z).

(** A clip as a stream: beyond its end, the value [e]. *)
Definition stream (e : F) (xs : list F) (n : nat) : F := nth n xs e.

Lemma clip_stream e xs : clip (stream e xs) 0 (length xs) = xs.
Proof.
  unfold clip, stream. apply nth_error_ext. intros j. rewrite nth_error_map_seq. simpl.
  destruct (Nat.ltb_spec j (length xs)).
  - symmetry. apply nth_error_nth'. lia.
  - symmetry. apply nth_error_None. lia.
Qed.

Lemma fadd_0_r a : fadd a f0 = a.
Proof. now rewrite fadd_comm, fadd_0_l. Qed.

Lemma fsum_single (f : nat -> F) k j v :
  j < k -> (forall i, i < k -> f i = if Nat.eqb i j then v else f0) ->
  fsum (map f (seq 0 k)) = v.
Proof.
  intros Hj H.
  assert (G : forall a n, (forall i, a <= i < a + n -> f i = if Nat.eqb i j then v else f0) ->
     fsum (map f (seq a n)) = if Nat.leb a j && Nat.ltb j (a + n) then v else f0).
  { intros a n; revert a; induction n as [|n IH]; intros a Ha; simpl.
    - replace (Nat.leb a j && Nat.ltb j (a + 0)) with false by lia. reflexivity.
    - change (fold_right fadd f0 (map f (seq (S a) n))) with (fsum (map f (seq (S a) n))).
      rewrite IH by (intros; apply Ha; lia). rewrite Ha by lia.
      destruct (Nat.eqb_spec a j).
      + replace (Nat.leb (S a) j && _) with false by lia.
        replace (Nat.leb a j && _) with true by lia. apply fadd_0_r.
      + rewrite fadd_0_l. match goal with |- (if ?b then _ else _) = (if ?b1 then _ else _) => replace b with b1 by lia; reflexivity end. }
  rewrite G by (intros; apply H; lia). now replace (Nat.leb 0 j && Nat.ltb j (0 + k)) with true by lia.
Qed.

Lemma fsum_app l l' : fsum (l ++ l') = fadd (fsum l) (fsum l').
Proof.
  induction l; simpl; [now rewrite fadd_0_l|]. fold (fsum (l ++ l')). 
  rewrite IHl. apply fadd_assoc.
Qed.

(* ------------------------------------------------------------------ *)
(** ** Convolution *)

Lemma conv_delay_eq (c : conv_cfg F) : conv_delay c = ck c - 1 - cp c.
Proof. unfold conv_delay, conv_rf. lia. Qed.

(** Products of frame [x] with taps k-2, ..., 0: the row kept in the buffer. *)
Definition row_of (c : conv_cfg F) (x : F) : list F :=
  map (fun j => cW c (ck c - 2 - j) x) (seq 0 (ck c - 1)).

Lemma nth_pads (x : F) m j d : j <= 2 * m -> 
  nth j (repeat f0 m ++ [x] ++ repeat f0 m) d = if Nat.eqb j m then x else f0.
Proof.
  intros Hj. destruct (Nat.ltb_spec j m).
  - rewrite app_nth1 by (rewrite repeat_length; lia).
    replace (Nat.eqb j m) with false by lia. 
    rewrite nth_indep with (d' := f0) by (rewrite repeat_length; lia). apply nth_repeat.
  - rewrite app_nth2; rewrite repeat_length; [|lia].
    destruct (Nat.eqb_spec j m).
    + now subst; rewrite Nat.sub_diag.
    + rewrite app_nth2; simpl; [|lia].
      rewrite nth_indep with (d' := f0) by (rewrite repeat_length; lia). apply nth_repeat.
Qed.

(** The temporal convolution of a single zero-padded frame. *)
Lemma xcorr_frame c x : conv_ok c ->
  xcorr (cW c) None (ck c) 1 (repeat f0 (ck c - 1) ++ [x] ++ repeat f0 (ck c - 1))
  = Ok (cW c (ck c - 1) x :: row_of c x).
Proof.
  intros [Hk Hs Hp H1 Hf Hm Hm' HW]. unfold xcorr.
  rewrite !app_length, !repeat_length.
  replace (length [x]) with 1 by reflexivity.
  replace (Nat.ltb _ _) with false by lia. f_equal.
  rewrite Nat.div_1_r.
  replace (ck c - 1 + (1 + (ck c - 1)) - ck c + 1) with (1 + (ck c - 1)) by lia.
  rewrite seq_app, map_app. simpl. f_equal.
  - apply fsum_single with (j := ck c - 1); [lia|]. intros i Hi. 
    rewrite (nth_pads x) by lia. destruct (Nat.eqb i (ck c - 1)) eqn:E; [|apply HW].
    f_equal. lia.
  - unfold row_of. rewrite <- seq_shift, map_map. apply map_ext_in.
    intros j Hj%in_seq.
    apply fsum_single with (j := ck c - 2 - j); [lia|]. intros i Hi.
    rewrite Nat.mul_1_r, (nth_pads x) by lia.
    destruct (Nat.eqb_spec i (ck c - 2 - j)).
    + subst. replace (Nat.eqb _ _) with true by lia. reflexivity.
    + replace (Nat.eqb _ _) with false by lia. apply HW.
Qed.

Lemma row_len c x : length (row_of c x) = ck c - 1.
Proof. unfold row_of. now rewrite map_length, seq_length. Qed.

Lemma row_get c x m : m < ck c - 1 ->
  getz (row_of c x) (Z.of_nat (ck c - 1 - 1 - m)) = Ok (cW c m x).
Proof.
  intros Hm. unfold getz. replace (Z.ltb _ _) with false by lia.
  unfold row_of. rewrite nth_error_map_seq, Nat2Z.id.
  replace (Nat.ltb _ _) with true by lia. do 2 f_equal. lia.
Qed.

(** Value of the convolution whose newest frame is frame [n]. *)
Definition conv_val (c : conv_cfg F) (h : Z -> F) (n : nat) : F :=
  add_bias (cb c) (fsum (map (fun i => cW c i (h (Z.of_nat n - Z.of_nat (ck c - 1) + Z.of_nat i)%Z))
                             (seq 0 (ck c)))).

(** Closed form of the buffers after [n] frames of the extended stream [h]. *)
Definition conv_state (c : conv_cfg F) (h : Z -> F) (n : nat) : obj (list F) :=
  Obj (ring (ck c - 1) (fun z => row_of c (h z)) (Z.of_nat n))
      (Z.of_nat n mod Z.of_nat (ck c - 1))
      (str_at (Z.of_nat (cs c) - Z.of_nat (ck c) + Z.of_nat (cp c)) (cs c) n).

Lemma conv_str_valid c n : conv_ok c -> 
  Z.eqb (o_str (conv_state c (fun _ => f0) n)) (Z.of_nat (cs c) - 1) = emits (ck c - 1 - cp c) (cs c) n.
Proof.
  intros H. destruct H. simpl.
  rewrite <- str_at_valid by lia. do 2 f_equal. lia.
Qed.

Lemma conv_gather_ok c h n : 2 <= ck c ->
  conv_gather (ring (ck c - 1) (fun z => row_of c (h z)) (Z.of_nat n))
     (Z.of_nat n mod Z.of_nat (ck c - 1)) (ck c - 1)
  = Ok (map (fun i => cW c i (h (Z.of_nat n - Z.of_nat (ck c - 1) + Z.of_nat i)%Z)) (seq 0 (ck c - 1))).
Proof.
  intros Hk. unfold conv_gather. apply mapM_ok. intros m Hm%in_seq.
  rewrite Zplus_mod_idemp_r.
  rewrite ring_get by lia. simpl. rewrite row_get by lia. reflexivity.
Qed.

Lemma conv_step_state c h n : conv_ok c -> 2 <= ck c ->
  conv_fstep c (h (Z.of_nat n)) (Some (conv_state c h n)) =
  Ok (if emits (ck c - 1 - cp c) (cs c) n then Some (conv_val c h n) else None,
      Some (conv_state c h (S n))).
Proof.
  intros Hc Hk. unfold conv_fstep.
  assert (Es : conv_stateless c = false) by (unfold conv_stateless; lia).
  rewrite Es. simpl pad_time. simpl bind. 
  change (repeat f0 (ck c - 1) ++ h (Z.of_nat n) :: repeat f0 (ck c - 1))
   with (repeat f0 (ck c - 1) ++ [h (Z.of_nat n)] ++ repeat f0 (ck c - 1)).
  rewrite xcorr_frame by auto. cbn -[ring conv_gather Z.mul Z.add Nat.ltb].
  pose proof (conv_str_valid c n Hc) as Hv. simpl in Hv. rewrite Hv.
  replace (Nat.ltb 1 (ck c)) with true by lia.
  rewrite ring_set with (h := fun z => row_of c (h z)) by (auto; lia).
  rewrite conv_gather_ok by auto.
  assert (Hval : add_bias (cb c) (fadd (cW c (ck c - 1) (h (Z.of_nat n)))
     (fsum (map (fun i => cW c i (h (Z.of_nat n - Z.of_nat (ck c - 1) + Z.of_nat i)%Z)) (seq 0 (ck c - 1)))))
     = conv_val c h n).
  { unfold conv_val. f_equal. 
    transitivity (fsum (map (fun i => cW c i (h (Z.of_nat n - Z.of_nat (ck c - 1) + Z.of_nat i)%Z)) 
      (seq 0 ((ck c - 1) + 1)))).
    - rewrite seq_app, map_app, fsum_app. simpl. rewrite fadd_0_r, fadd_comm.
      do 3 f_equal. lia.
    - do 3 f_equal. lia. }
  assert (Hnext : conv_state c h (S n) = 
     Obj (ring (ck c - 1) (fun z : Z => row_of c (h z)) (Z.of_nat n + 1))
         ((Z.of_nat n mod Z.of_nat (ck c - 1) + 1) mod Z.of_nat (ck c - 1))
         (let ns := (str_at (Z.of_nat (cs c) - Z.of_nat (ck c) + Z.of_nat (cp c)) (cs c) n + 1)%Z in
          if Z.ltb 0 ns then (ns mod Z.of_nat (cs c))%Z else ns)).
  { unfold conv_state. rewrite str_at_next by (destruct Hc; lia).
    rewrite Zplus_mod_idemp_l. f_equal; [f_equal|f_equal]; lia. }
  rewrite Hnext. cbv zeta.
  destruct (emits (ck c - 1 - cp c) (cs c) n); cbn [bind]; [rewrite Hval|]; reflexivity.
Qed.

(** Value standing for the frames before the first one. *)
Definition conv_v (c : conv_cfg F) (x0 : F) : F := make_padding (cfill c) x0.

Lemma conv_fstep_init c x : conv_ok c -> 2 <= ck c ->
  conv_fstep c x None = conv_fstep c x (Some (conv_init c (row_of c x))).
Proof.
  intros Hc Hk. unfold conv_fstep.
  assert (Es : conv_stateless c = false) by (unfold conv_stateless; lia).
  rewrite Es. simpl pad_time. simpl bind.
  change (repeat f0 (ck c - 1) ++ x :: repeat f0 (ck c - 1))
   with (repeat f0 (ck c - 1) ++ [x] ++ repeat f0 (ck c - 1)).
  rewrite xcorr_frame by auto. reflexivity.
Qed.

Lemma conv_step_first c h : conv_ok c -> 2 <= ck c ->
  (forall z, (z < 0)%Z -> h z = conv_v c (h 0%Z)) ->
  conv_fstep c (h 0%Z) None =
  Ok (if emits (ck c - 1 - cp c) (cs c) 0 then Some (conv_val c h 0) else None,
      Some (conv_state c h 1)).
Proof.
  intros Hc Hk Hh.
  rewrite <- (conv_step_state c h 0) by auto.
  rewrite conv_fstep_init by auto. simpl Z.of_nat.
  assert (E : conv_init c (row_of c (h 0%Z)) = conv_state c h 0).
  { unfold conv_init, conv_state. simpl Z.of_nat.
    rewrite ring_init with (v := row_of c (conv_v c (h 0%Z))).
    2:{ intros z Hz. now rewrite Hh. }
    rewrite repeat_length. rewrite Z.mod_0_l by lia.
    rewrite str_at_0 by (destruct Hc; lia).
    f_equal; [|lia]. f_equal.
    unfold row_of, conv_v. rewrite map_map. apply map_ext. intros j.
    destruct Hc. destruct (cfill c); simpl; auto. contradiction. }
  rewrite E. reflexivity.
Qed.

(** Closed form, including the clean module. *)
Definition conv_S (c : conv_cfg F) (h : Z -> F) (n : nat) : option (obj (list F)) :=
  match n with O => None | _ => Some (conv_state c h n) end.
Definition conv_O (c : conv_cfg F) (h : Z -> F) (n : nat) : obj (list F) :=
  match n with O => obj_init | _ => conv_state c h n end.
Definition conv_out (c : conv_cfg F) (h : Z -> F) (n : nat) : option F :=
  if emits (ck c - 1 - cp c) (cs c) n then Some (conv_val c h n) else None.

Lemma conv_closed c h n : conv_ok c -> 2 <= ck c ->
  (forall z, (z < 0)%Z -> h z = conv_v c (h 0%Z)) ->
  conv_fstep c (h (Z.of_nat n)) (conv_S c h n) = Ok (conv_out c h n, conv_S c h (S n)).
Proof.
  intros Hc Hk Hh. destruct n.
  - apply conv_step_first; auto.
  - apply conv_step_state; auto.
Qed.

Lemma conv_get c h n : 2 <= ck c -> obj_get (conv_O c h n) = conv_S c h n.
Proof.
  intros. destruct n; auto. unfold obj_get, conv_O, conv_S, conv_state; simpl o_buf.
  destruct (ring _ _ _) eqn:E; auto.
  apply (f_equal (@length _)) in E. rewrite ring_length in E. simpl in E. lia.
Qed.

Lemma conv_Ob c h n : exists s, conv_S c h (S n) = Some s /\
  forall m, 0 <= m <= n -> obj_set (conv_O c h m) s = conv_O c h (S n).
Proof. eexists; split; [reflexivity|]. reflexivity. Qed.

(** The clip [xs] extended on both sides as forward's padding does. *)
Definition ext_clip (m : fill) (xs : list F) (z : Z) : F :=
  if Z.ltb z 0 then make_padding m (hd f0 xs)
  else nth (Z.to_nat z) xs (make_padding m (last xs f0)).

Lemma nth_repeat_any {A} (v d : A) n i : i < n -> nth i (repeat v n) d = v.
Proof.
  revert i; induction n; intros [|i] H; simpl; auto; try lia. apply IHn; lia.
Qed.

Lemma last_indep {A} (l : list A) d d' : l <> [] -> last l d = last l d'.
Proof.
  induction l as [|a l IH]; [congruence|]. intros _. destruct l; auto.
  simpl in *. apply IH. discriminate.
Qed.

Lemma pad_time_nth m p xs ps : xs <> [] -> pad_time m p xs = Ok ps ->
  length ps = length xs + 2 * p /\
  forall i d, i < length xs + 2 * p -> 
    nth i ps d = ext_clip m xs (Z.of_nat i - Z.of_nat p).
Proof.
  intros Hx E.
  assert (Eps : ps = repeat (make_padding m (hd f0 xs)) p ++ xs ++ repeat (make_padding m (last xs f0)) p).
  { destruct m; try (simpl in *; congruence). destruct xs as [|f xs]; [congruence|].
    unfold pad_time in E. injection E as <-. simpl hd.
    rewrite (last_indep (f :: xs) f0 f) by auto. reflexivity. }
  clear E. subst ps. split.
  { rewrite !app_length, !repeat_length. lia. }
  intros i d Hi. unfold ext_clip.
  destruct (Z.ltb_spec (Z.of_nat i - Z.of_nat p) 0).
  - rewrite app_nth1 by (rewrite repeat_length; lia). apply nth_repeat_any. lia.
  - rewrite app_nth2; rewrite repeat_length; [|lia].
    replace (Z.to_nat (Z.of_nat i - Z.of_nat p)) with (i - p) by lia.
    destruct (Nat.ltb_spec (i - p) (length xs)).
    + rewrite app_nth1 by lia. apply nth_indep. lia.
    + rewrite app_nth2 by lia. rewrite nth_repeat_any by lia.
      rewrite nth_overflow by lia. reflexivity.
Qed.

Lemma pad_time_total m p xs : xs <> [] -> exists ps, pad_time m p xs = Ok ps.
Proof. intros. destruct m; simpl; eauto. destruct xs; [congruence|eauto]. Qed.

(** Closed form of [forward]. *)
Lemma conv_forward_inv c xs ys : conv_ok c -> conv_forward c xs = Ok ys ->
  xs <> [] /\ ck c <= length xs + 2 * cp c /\
  ys = map (fun j => conv_val c (ext_clip (cfill c) xs) (ck c - 1 - cp c + j * cs c))
           (seq 0 ((length xs + 2 * cp c - ck c) / cs c + 1)).
Proof.
  intros Hc E. destruct xs as [|x0 xt] eqn:Ex; [discriminate|]. rewrite <- Ex in *.
  assert (Hx : xs <> []) by (subst; discriminate).
  assert (E' : (xs' <- pad_time (cmode c) (cp c) xs ;; xcorr (cW c) (cb c) (ck c) (cs c) xs') = Ok ys)
   by (subst xs; exact E).
  clear E Ex x0 xt.
  destruct (pad_time_total (cmode c) (cp c) xs Hx) as [ps Hps].
  rewrite Hps in E'. simpl in E'.
  destruct (pad_time_nth _ _ _ _ Hx Hps) as [Hl Hn].
  unfold xcorr in E'. rewrite Hl in E'.
  destruct (Nat.ltb_spec (length xs + 2 * cp c) (ck c)) as [|Hk]; [discriminate|].
  injection E' as <-. split; [auto|split; [lia|]].
  apply map_ext_in. intros j Hj%in_seq. unfold conv_val. f_equal. f_equal.
  apply map_ext_in. intros i Hi%in_seq. f_equal.
  pose proof (Nat.div_mod (length xs + 2 * cp c - ck c) (cs c)) as D.
  assert (cs c <> 0) by (destruct Hc; lia).
  assert (j * cs c <= length xs + 2 * cp c - ck c) by nia.
  rewrite Hn by lia.
  destruct Hc as [? ? ? ? ? [Hp0|Hm] ? ?].
  - rewrite Hp0 in *. unfold ext_clip.
    replace (Z.ltb _ 0) with false by lia. replace (Z.ltb _ 0) with false by lia.
    replace (Z.to_nat _) with (j * cs c + i) by lia.
    match goal with |- nth _ _ _ = nth ?z _ _ => replace z with (j * cs c + i) by lia end.
    apply nth_indep. lia.
  - rewrite Hm. f_equal. lia.
Qed.

Lemma conv_forward_total c xs : xs <> [] -> ck c <= length xs + 2 * cp c ->
  exists ys, conv_forward c xs = Ok ys.
Proof.
  intros Hx Hk. destruct (pad_time_total (cmode c) (cp c) xs Hx) as [ps Hps].
  destruct (pad_time_nth _ _ _ _ Hx Hps) as [Hl _].
  unfold conv_forward. destruct xs as [|x0 xt]; [congruence|]. rewrite Hps. simpl.
  unfold xcorr. rewrite Hl. replace (Nat.ltb _ _) with false by lia. eauto.
Qed.

Lemma ext_clip_pre m xs z : xs <> [] -> (z < 0)%Z -> 
  ext_clip m xs z = make_padding m (ext_clip m xs 0).
Proof.
  intros Hx Hz. unfold ext_clip at 1. replace (Z.ltb z 0) with true by lia.
  unfold ext_clip; simpl. destruct xs; [congruence|reflexivity].
Qed.

Lemma ext_clip_clip m xs n len : n + len <= length xs ->
  clip (fun i => ext_clip m xs (Z.of_nat i)) n len = firstn len (skipn n xs).
Proof.
  intros H. apply nth_error_ext. intros j. unfold clip.
  rewrite nth_error_map_seq. destruct (Nat.ltb_spec j len).
  - unfold ext_clip. replace (Z.ltb _ 0) with false by lia. rewrite Nat2Z.id.
    assert (G : forall (l : list F) a b, b < a -> nth_error (firstn a l) b = nth_error l b).
    { clear. induction l as [|y l IHl]; intros [|a] [|b]; simpl; intros; try lia; auto. apply IHl; lia. }
    rewrite G by auto.
    assert (G2 : forall (l : list F) a b, nth_error (skipn a l) b = nth_error l (a + b)).
    { clear. induction l as [|y l IHl]; intros [|a] b; simpl; auto. now destruct b. }
    rewrite G2. symmetry. apply nth_error_nth'. lia.
  - symmetry. apply nth_error_None. rewrite firstn_length. lia.
Qed.

Lemma ext_clip_post m xs i : xs <> [] -> 
  ext_clip m xs (Z.of_nat (length xs + i)) = make_padding m (ext_clip m xs (Z.of_nat (length xs - 1))).
Proof.
  intros Hx. assert (length xs <> 0) by (destruct xs; simpl; congruence).
  unfold ext_clip. replace (Z.ltb _ 0) with false by lia. replace (Z.ltb _ 0) with false by lia.
  rewrite nth_overflow by lia. f_equal.
  rewrite Nat2Z.id.
  destruct (exists_last Hx) as (l & a & ->). rewrite last_last, app_length. simpl.
  rewrite app_nth2 by lia. now replace (length l + 1 - 1 - length l) with 0 by lia.
Qed.

(** *** Stepping, kernel size at least 2 *)


Lemma conv_feed c xs ws : conv_ok c -> 2 <= ck c -> xs ++ ws <> [] ->
  feed (fun o x => conv_forward_step c o x true) obj_init xs
  = Ok (map (conv_out c (ext_clip (cfill c) (xs ++ ws))) (seq 0 (length xs)),
        conv_O c (ext_clip (cfill c) (xs ++ ws)) (length xs)).
Proof.
  intros Hc Hk Hx.
  set (H := ext_clip (cfill c) (xs ++ ws)).
  assert (E : xs = clip (fun i => H (Z.of_nat i)) 0 (length xs)).
  { unfold H. rewrite ext_clip_clip by (rewrite app_length; lia). simpl.
    rewrite firstn_app, Nat.sub_diag, firstn_all. simpl. now rewrite app_nil_r. }
  rewrite E at 1.
  refine (feed_closed obj_get obj_set (conv_fstep c) (fun i => H (Z.of_nat i))
    (conv_S c H) (conv_out c H) 0 _ (conv_O c H) _ _ 0 (length xs) _); [| | |lia].
  - intros n _. apply conv_closed; auto. intros z Hz. apply ext_clip_pre; auto.
  - intros n _. apply conv_get; auto.
  - intros n _. apply conv_Ob.
Qed.

Lemma cnt_forward c T : conv_ok c -> ck c <= T + 2 * cp c ->
  cnt (ck c - 1 - cp c) (cs c) (T + cp c) = (T + 2 * cp c - ck c) / cs c + 1.
Proof.
  intros [] Hk. unfold cnt. replace (Nat.leb _ _) with false by lia.
  f_equal. f_equal. lia.
Qed.

Lemma scheduled_out {A} (f : nat -> A) d s N n : 0 < s ->
  (emits d s n = true -> (n - d) / s < N) ->
  scheduled d s (map (fun j => f (d + j * s)) (seq 0 N)) n
  = if emits d s n then Some (f n) else None.
Proof.
  intros Hs HN. unfold scheduled. destruct (emits d s n) eqn:E; auto.
  rewrite nth_error_map_seq. specialize (HN eq_refl).
  replace (Nat.ltb _ _) with true by lia. f_equal. f_equal. simpl.
  unfold emits in E. apply andb_prop in E as [E1 E2].
  apply Nat.leb_le in E1. apply Nat.eqb_eq in E2.
  pose proof (Nat.div_mod (n - d) s). lia.
Qed.

(** *** Stateless convolutions (kernel 1, stride 1, no padding) *)

Definition conv1_val (c : conv_cfg F) (x : F) : F := add_bias (cb c) (fadd (cW c 0 x) f0).

Lemma conv_stateless_ok c : conv_ok c -> ck c = 1 -> conv_stateless c = true.
Proof. intros [] H. unfold conv_stateless. lia. Qed.

Lemma conv1_forward c xs : conv_ok c -> ck c = 1 -> xs <> [] ->
  conv_forward c xs = Ok (map (conv1_val c) xs).
Proof.
  intros Hc H1 Hx. destruct (conv_forward_total c xs) as [ys E]; auto.
  { destruct xs; simpl; [congruence|lia]. }
  rewrite E. f_equal. apply conv_forward_inv in E as (_ & _ & ->); auto.
  destruct Hc. assert (cp c = 0) by lia. assert (cs c = 1) by auto.
  assert (length xs <> 0) by (destruct xs; simpl; congruence).
  rewrite H1, H, H0. rewrite Nat.div_1_r. replace (length xs + 2 * 0 - 1 + 1) with (length xs) by lia.
  apply nth_error_ext. intros j. rewrite nth_error_map_seq.
  destruct (Nat.ltb_spec j (length xs)).
  - rewrite nth_error_map. 
    rewrite nth_error_nth' with (d := f0) by lia. simpl. f_equal.
    unfold conv_val, conv1_val. rewrite H1. simpl. do 3 f_equal.
    unfold ext_clip. replace (Z.ltb _ 0) with false by lia.
    match goal with |- nth ?z _ _ = nth ?z' _ _ => replace z with z' by lia end.
    apply nth_indep. lia.
  - rewrite nth_error_map. rewrite (proj2 (nth_error_None xs j)) by lia. reflexivity.
Qed.

Lemma conv1_fstep c x s : conv_ok c -> ck c = 1 ->
  conv_fstep c x s = Ok (Some (conv1_val c x), s).
Proof.
  intros Hc H1. unfold conv_fstep. rewrite conv_stateless_ok by auto.
  rewrite conv1_forward by (auto; discriminate). reflexivity.
Qed.

Lemma conv1_feed c xs : conv_ok c -> ck c = 1 ->
  feed (fun o x => conv_forward_step c o x true) obj_init xs
  = Ok (map (fun x => Some (conv1_val c x)) xs, obj_init).
Proof.
  intros Hc H1. induction xs as [|x xs IH]; simpl; auto.
  unfold conv_forward_step at 1, co_forward_step. simpl. rewrite conv1_fstep by auto. simpl.
  change (@Obj (list F) [] 0 0) with (@obj_init (list F)). rewrite IH. reflexivity.
Qed.

Lemma conv1_loop c xs s : conv_ok c -> ck c = 1 ->
  co_loop (conv_fstep c) xs s = Ok (map (conv1_val c) xs, s).
Proof.
  intros Hc H1. induction xs as [|x xs IH]; simpl; auto.
  rewrite conv1_fstep by auto. simpl. rewrite IH. reflexivity.
Qed.

(* ------------------------------------------------------------------ *)
(** *** C01, C02 *)

Lemma conv_step_thm c xs ws ys : conv_ok c -> conv_forward c (xs ++ ws) = Ok ys ->
  exists o, feed (fun o x => conv_forward_step c o x true) obj_init xs
  = Ok (map (scheduled (conv_delay c) (cs c) ys) (seq 0 (length xs)), o).
Proof.
  intros Hc E. pose proof (conv_forward_inv _ _ _ Hc E) as (Hx & Hk & Ey).
  rewrite conv_delay_eq.
  destruct (Nat.eq_dec (ck c) 1) as [H1|H1].
  - rewrite conv1_feed by auto. exists obj_init. do 2 f_equal.
    rewrite conv1_forward in E by auto. injection E as <-.
    assert (cp c = 0 /\ cs c = 1) as [Hp Hs] by (destruct Hc; auto with arith; split; [lia|auto]).
    rewrite H1, Hp, Hs. simpl Nat.sub.
    apply nth_error_ext. intros j. rewrite nth_error_map, nth_error_map_seq.
    destruct (Nat.ltb_spec j (length xs)).
    + unfold scheduled, emits. rewrite Nat.mod_1_r, Nat.div_1_r. simpl.
      rewrite ?Nat.add_0_l, ?Nat.sub_0_r.
      rewrite nth_error_map, nth_error_app1 by lia.
      destruct (nth_error xs j) eqn:En; auto. apply nth_error_None in En. lia.
    + now rewrite (proj2 (nth_error_None xs j)) by lia.
  - assert (2 <= ck c) by (destruct Hc; lia).
    rewrite (conv_feed c xs ws) by auto. eexists. do 2 f_equal.
    apply map_ext_in. intros n Hn%in_seq. subst ys. symmetry.
    apply scheduled_out; [destruct Hc; lia|].
    intros He. assert (Hs : cs c <> 0) by (destruct Hc; lia).
    assert (Hp : cp c <= ck c - 1) by (destruct Hc; lia).
    unfold emits in He. rewrite app_length in *.
    assert ((n - (ck c - 1 - cp c)) / cs c <= (length xs + length ws + 2 * cp c - ck c) / cs c)
      by (apply Nat.div_le_mono; lia).
    lia.
Qed.

Lemma feed_length {O} (step : O -> F -> res (option F * O)) xs o os o' :
  feed step o xs = Ok (os, o') -> length os = length xs.
Proof.
  revert o os; induction xs as [|x xs IH]; simpl; intros o os.
  - intros [= <- <-]. reflexivity.
  - destruct (step o x) as [[y o1]|]; simpl; [|discriminate].
    destruct (feed step o1 xs) as [[ys o2]|] eqn:E; simpl; [|discriminate].
    intros [= <- <-]. simpl. f_equal. eauto.
Qed.

(** Any number of single steps followed by a final chunk with end padding. *)
Lemma conv_pad_end_thm c xs1 xs2 ys : conv_ok c -> xs2 <> [] ->
  conv_forward c (xs1 ++ xs2) = Ok ys ->
  exists os o1 o2 rest,
    feed (fun o x => conv_forward_step c o x true) obj_init xs1 = Ok (os, o1) /\ conv_forward_steps c o1 xs2 true true
      = Ok (stack_outs rest, o2) /\ somes os ++ rest = ys.
Proof.
  intros Hc Hx2 E. pose proof (conv_forward_inv _ _ _ Hc E) as (Hx & Hk & Ey).
  destruct (Nat.eq_dec (ck c) 1) as [H1|H1].
  - do 4 eexists. split; [apply conv1_feed; auto|].
    unfold conv_forward_steps, co_forward_steps. rewrite conv1_loop by auto.
    rewrite conv1_forward in E by auto. injection E as <-.
    assert (cp c = 0) as -> by (destruct Hc; lia).
    cbn [bind]. cbn [obj_get obj_init o_buf end_frames bind co_loop]. rewrite app_nil_r.
    split.
    + instantiate (2 := map (conv1_val c) xs2). destruct xs2; reflexivity.
    + rewrite map_app. f_equal. clear. induction xs1; simpl; congruence.
  - assert (H2 : 2 <= ck c) by (destruct Hc; lia).
    rewrite (conv_feed c xs1 xs2) by auto.
    set (H := ext_clip (cfill c) (xs1 ++ xs2)) in *.
    do 4 eexists. split; [reflexivity|].
    assert (Hl2 : length xs2 <> 0) by (destruct xs2; simpl; congruence).
    assert (Ec : xs2 = clip (fun i => H (Z.of_nat i)) (length xs1) (length xs2)).
    { unfold H. rewrite ext_clip_clip by (rewrite app_length; lia). 
      rewrite skipn_app, skipn_all, Nat.sub_diag. simpl. now rewrite firstn_all. }
    split.
    + unfold conv_forward_steps. rewrite Ec at 1.
      rewrite (co_forward_steps_pad_closed obj_get obj_set (conv_fstep c) _ (conv_S c H) (conv_out c H) 0)
       with (Ob_ := conv_O c H); [reflexivity| | | |lia|lia|].
      * intros n _. apply conv_closed; auto. intros z Hz. apply ext_clip_pre; auto.
      * intros n _. apply conv_get; auto.
      * intros n _. apply conv_Ob.
      * intros i Hi. unfold H. 
        replace (length xs1 + length xs2) with (length (xs1 ++ xs2)) by apply app_length.
        apply ext_clip_post; auto.
    + rewrite <- somes_app, <- map_app, <- seq_app.
      replace (length xs1 + (length xs2 + cp c)) with (length (xs1 ++ xs2) + cp c)
        by (rewrite app_length; lia).
      unfold conv_out. rewrite somes_scheduled by (destruct Hc; lia).
      rewrite cnt_forward by auto. symmetry. exact Ey.
Qed.

(* ------------------------------------------------------------------ *)
(** ** Pooling *)

Lemma pool_delay_eq c : pool_ok c -> pool_delay c = pk c - 1 - pp c.
Proof. intros []. unfold pool_delay, pool_rf. rewrite pok_d. lia. Qed.

Definition pool_val (c : pool_cfg F) (h : Z -> F) (n : nat) : F :=
  pagg c (map (fun i => h (Z.of_nat n - Z.of_nat (pk c - 1) + Z.of_nat i)%Z) (seq 0 (pk c))).

(** [h] is the stream of spatially pooled frames. *)
Definition pool_state (c : pool_cfg F) (h : Z -> F) (n : nat) : obj F :=
  Obj (ring (pk c) h (Z.of_nat n)) (Z.of_nat n mod Z.of_nat (pk c))
      (str_at (Z.of_nat (ps c) - Z.of_nat (pk c) + Z.of_nat (pp c)) (ps c) n).

Definition pool_out (c : pool_cfg F) (h : Z -> F) (n : nat) : option F :=
  if emits (pk c - 1 - pp c) (ps c) n then Some (pool_val c h n) else None.

Lemma pool_step_state c h n x : pool_ok c -> psp c x = h (Z.of_nat n) ->
  pool_fstep c x (Some (pool_state c h n)) =
  Ok (pool_out c h n, Some (pool_state c h (S n))).
Proof.
  intros Hc Hx. pose proof Hc as [Hk Hs Hp Hd Hfd Hagg Hfill Hsp].
  unfold pool_fstep. cbn [o_buf o_idx o_str pool_state].
  rewrite ring_set by (auto; lia). cbn [bind].
  replace (Z.of_nat (ps c) - Z.of_nat (pk c) + Z.of_nat (pp c))%Z
    with (Z.of_nat (ps c) - 1 - Z.of_nat (pk c - 1 - pp c))%Z by lia.
  rewrite str_at_valid by lia.
  unfold pool_out. rewrite Hd. cbn [Nat.eqb bind].
  assert (Hnext : pool_state c h (S n) =
     Obj (ring (pk c) h (Z.of_nat n + 1)) ((Z.of_nat n mod Z.of_nat (pk c) + 1) mod Z.of_nat (pk c))
     (let ns := (str_at (Z.of_nat (ps c) - 1 - Z.of_nat (pk c - 1 - pp c)) (ps c) n + 1)%Z in
          if Z.ltb 0 ns then (ns mod Z.of_nat (ps c))%Z else ns)).
  { unfold pool_state. rewrite str_at_next by lia. rewrite Zplus_mod_idemp_l.
    f_equal; [f_equal|f_equal|f_equal]; lia. }
  rewrite Hnext. cbv zeta.
  destruct (emits _ _ n); cbn [bind]; [|reflexivity].
  assert (Hval : pagg c (ring (pk c) h (Z.of_nat n + 1)) = pool_val c h n); [|rewrite Hval; reflexivity].
  unfold pool_val. rewrite (Hagg _ _ (ring_perm _ _ _ Hk)). f_equal.
  apply map_ext. intros i. f_equal. lia.
Qed.

Lemma pool_step_first c h x : pool_ok c -> psp c x = h 0%Z ->
  (forall z, (z < 0)%Z -> h z = make_padding (pfill c) (h 0%Z)) ->
  pool_fstep c x None = Ok (pool_out c h 0, Some (pool_state c h 1)).
Proof.
  intros Hc Hx Hh. rewrite <- (pool_step_state c h 0 x) by auto.
  assert (E : pool_init c (psp c x) = pool_state c h 0).
  { pose proof Hc as []. unfold pool_init, pool_state, pool_buflen. simpl Z.of_nat. rewrite pok_d.
    replace (1 * (pk c - 1) + 1) with (pk c) by lia.
    rewrite ring_init with (v := make_padding (pfill c) (psp c x)).
    2:{ intros z Hz. rewrite Hh, Hx by auto. reflexivity. }
    rewrite Z.mod_0_l by lia. rewrite str_at_0 by lia. reflexivity. }
  unfold pool_fstep. cbv zeta. rewrite E. reflexivity.
Qed.

Definition pool_S (c : pool_cfg F) (h : Z -> F) (n : nat) : option (obj F) :=
  match n with O => None | _ => Some (pool_state c h n) end.
Definition pool_O (c : pool_cfg F) (h : Z -> F) (n : nat) : obj F :=
  match n with O => obj_init | _ => pool_state c h n end.

(** Pooled stream of a clip. *)
Definition pool_ext (c : pool_cfg F) (xs : list F) (z : Z) : F :=
  if Z.ltb z 0 then make_padding (pfill c) (psp c (hd f0 xs))
  else psp c (ext_clip (pfill c) xs z).

Lemma pool_closed c xs n : pool_ok c -> xs <> [] ->
  pool_fstep c (ext_clip (pfill c) xs (Z.of_nat n)) (pool_S c (pool_ext c xs) n)
  = Ok (pool_out c (pool_ext c xs) n, pool_S c (pool_ext c xs) (S n)).
Proof.
  intros Hc Hx. destruct n.
  - apply pool_step_first; auto.
    intros z Hz. unfold pool_ext at 1. replace (Z.ltb z 0) with true by lia.
    unfold pool_ext, ext_clip; simpl. destruct xs; [congruence|]. reflexivity.
  - apply pool_step_state; auto.
Qed.

Lemma pool_get c h n : pool_ok c -> obj_get (pool_O c h n) = pool_S c h n.
Proof.
  intros Hc. destruct n; auto. unfold obj_get, pool_O, pool_S, pool_state; simpl o_buf.
  destruct (ring _ _ _) eqn:E; auto.
  apply (f_equal (@length _)) in E. rewrite ring_length in E. destruct Hc. simpl in E. lia.
Qed.

Lemma pool_Ob c h n : exists s, pool_S c h (S n) = Some s /\
  forall m, 0 <= m <= n -> obj_set (pool_O c h m) s = pool_O c h (S n).
Proof. eexists; split; [reflexivity|]. reflexivity. Qed.

Lemma pool_forward_inv c xs ys : pool_ok c -> pool_forward c xs = Ok ys ->
  xs <> [] /\ pk c <= length xs + 2 * pp c /\
  ys = map (fun j => pool_val c (pool_ext c xs) (pk c - 1 - pp c + j * ps c))
           (seq 0 ((length xs + 2 * pp c - pk c) / ps c + 1)).
Proof.
  intros Hc E. pose proof Hc as [Hk Hs Hp Hd Hfd Hagg Hfill Hsp].
  unfold pool_forward in E. destruct (Nat.ltb _ _); [discriminate|].
  destruct xs as [|x0 xt] eqn:Ex; [discriminate|]. rewrite <- Ex in *.
  assert (Hx : xs <> []) by (subst; discriminate).
  clear Ex x0 xt.
  destruct (pad_time_total (pmode c) (pp c) xs Hx) as [psx Hps].
  rewrite Hps in E. simpl in E.
  destruct (pad_time_nth _ _ _ _ Hx Hps) as [Hl Hn].
  unfold xpool in E. rewrite map_length, Hl, Hfd in E.
  replace (1 * (pk c - 1) + 1) with (pk c) in E by lia.
  destruct (Nat.ltb_spec (length xs + 2 * pp c) (pk c)) as [|Hk']; [discriminate|].
  injection E as <-. split; [auto|split; [lia|]].
  apply map_ext_in. intros j Hj%in_seq. unfold pool_val. f_equal.
  apply map_ext_in. intros i Hi%in_seq.
  pose proof (Nat.div_mod (length xs + 2 * pp c - pk c) (ps c)) as D.
  assert (ps c <> 0) by lia.
  assert (j * ps c <= length xs + 2 * pp c - pk c) by nia.
  rewrite nth_indep with (d' := psp c f0) by (rewrite map_length; lia).
  rewrite map_nth, Hn by lia. unfold pool_ext.
  destruct Hfill as [Hp0|Hm].
  - rewrite Hp0 in *. unfold ext_clip.
    replace (Z.ltb _ 0) with false by lia. replace (Z.ltb _ 0) with false by lia.
    f_equal. replace (Z.to_nat _) with (j * ps c + i) by lia.
    match goal with |- nth _ _ _ = nth ?z _ _ => replace z with (j * ps c + i) by lia end.
    apply nth_indep. lia.
  - rewrite Hm in *.
    replace (Z.of_nat (j * ps c + i * 1) - Z.of_nat (pp c))%Z
     with (Z.of_nat (pk c - 1 - pp c + j * ps c) - Z.of_nat (pk c - 1) + Z.of_nat i)%Z by lia.
    destruct (Z.ltb _ 0) eqn:Eneg; [|reflexivity].
    unfold ext_clip. rewrite Eneg. apply Hsp.
Qed.

Lemma pool_forward_total c xs : pool_ok c -> xs <> [] -> 2 * pp c <= pk c ->
  pk c <= length xs + 2 * pp c -> exists ys, pool_forward c xs = Ok ys.
Proof.
  intros Hc Hx Hp Hk. pose proof Hc as [].
  destruct (pad_time_total (pmode c) (pp c) xs Hx) as [ps' Hps].
  destruct (pad_time_nth _ _ _ _ Hx Hps) as [Hl _].
  unfold pool_forward. rewrite pok_fd. replace (Nat.ltb _ _) with false by lia.
  destruct xs as [|x0 xt]; [congruence|]. rewrite Hps. simpl.
  unfold xpool. rewrite map_length, Hl. replace (Nat.ltb _ _) with false by lia. eauto.
Qed.

Lemma prefix_clip m xs ws : 
  xs = clip (fun i => ext_clip m (xs ++ ws) (Z.of_nat i)) 0 (length xs).
Proof.
  rewrite ext_clip_clip by (rewrite app_length; lia). simpl.
  rewrite firstn_app, Nat.sub_diag, firstn_all. simpl. now rewrite app_nil_r.
Qed.

Lemma suffix_clip m xs ws : 
  ws = clip (fun i => ext_clip m (xs ++ ws) (Z.of_nat i)) (length xs) (length ws).
Proof.
  rewrite ext_clip_clip by (rewrite app_length; lia).
  rewrite skipn_app, skipn_all, Nat.sub_diag. simpl. now rewrite firstn_all.
Qed.

Lemma pool_feed c xs ws : pool_ok c -> xs ++ ws <> [] ->
  feed (fun o x => pool_forward_step c o x true) obj_init xs
  = Ok (map (pool_out c (pool_ext c (xs ++ ws))) (seq 0 (length xs)),
        pool_O c (pool_ext c (xs ++ ws)) (length xs)).
Proof.
  intros Hc Hx. rewrite (prefix_clip (pfill c) xs ws) at 1.
  refine (feed_closed obj_get obj_set (pool_fstep c) _
    (pool_S c _) (pool_out c _) 0 _ (pool_O c _) _ _ 0 (length xs) _); [| | |lia].
  - intros n _. apply pool_closed; auto.
  - intros n _. apply pool_get; auto.
  - intros n _. apply pool_Ob.
Qed.

Lemma pool_step_thm c xs ws ys : pool_ok c -> pool_forward c (xs ++ ws) = Ok ys ->
  exists o, feed (fun o x => pool_forward_step c o x true) obj_init xs
  = Ok (map (scheduled (pool_delay c) (ps c) ys) (seq 0 (length xs)), o).
Proof.
  intros Hc E. pose proof (pool_forward_inv _ _ _ Hc E) as (Hx & Hk & Ey).
  rewrite pool_delay_eq by auto.
  rewrite (pool_feed c xs ws) by auto. eexists. do 2 f_equal.
  pose proof Hc as [].
  apply map_ext_in. intros n Hn%in_seq. subst ys. symmetry.
  apply scheduled_out; [lia|].
  intros He. unfold emits in He. rewrite app_length in *.
  assert ((n - (pk c - 1 - pp c)) / ps c <= (length xs + length ws + 2 * pp c - pk c) / ps c)
      by (apply Nat.div_le_mono; lia).
  lia.
Qed.

Lemma pool_pad_end_thm c xs1 xs2 ys : pool_ok c -> xs2 <> [] ->
  pool_forward c (xs1 ++ xs2) = Ok ys ->
  exists os o1 o2 rest,
    feed (fun o x => pool_forward_step c o x true) obj_init xs1 = Ok (os, o1) /\
    pool_forward_steps c o1 xs2 true true = Ok (stack_outs rest, o2) /\
    somes os ++ rest = ys.
Proof.
  intros Hc Hx2 E. pose proof (pool_forward_inv _ _ _ Hc E) as (Hx & Hk & Ey).
  rewrite (pool_feed c xs1 xs2) by auto.
  set (H := pool_ext c (xs1 ++ xs2)) in *.
  do 4 eexists. split; [reflexivity|].
  assert (Hl2 : length xs2 <> 0) by (destruct xs2; simpl; congruence).
  split.
  - unfold pool_forward_steps. rewrite (suffix_clip (pfill c) xs1 xs2) at 1.
    rewrite (co_forward_steps_pad_closed obj_get obj_set (pool_fstep c) _ (pool_S c H) (pool_out c H) 0)
     with (Ob_ := pool_O c H); [reflexivity| | | |lia|lia|].
    * intros n _. apply pool_closed; auto.
    * intros n _. apply pool_get; auto.
    * intros n _. apply pool_Ob.
    * intros i Hi. 
      replace (length xs1 + length xs2) with (length (xs1 ++ xs2)) by apply app_length.
      apply ext_clip_post; auto.
  - rewrite <- somes_app, <- map_app, <- seq_app.
    replace (length xs1 + (length xs2 + pp c)) with (length (xs1 ++ xs2) + pp c)
      by (rewrite app_length; lia).
    pose proof Hc as [].
    unfold pool_out. rewrite somes_scheduled by lia.
    rewrite Ey. do 2 f_equal. unfold cnt. replace (Nat.leb _ _) with false by lia.
    f_equal. f_equal. lia.
Qed.

(* ------------------------------------------------------------------ *)
(** ** Delay *)

(** First step at which a Delay emits. *)
Definition delay_lim (d : nat) (sh : shrink) : nat :=
  match sh with ShTrue => 2 * d | _ => d end.

Definition delay_idx (d lim n : nat) : Z :=
  let v := (Z.of_nat n - Z.of_nat lim)%Z in
  if Z.leb v 0 then v else (v mod Z.of_nat d)%Z.

Definition delay_state (d : nat) (sh : shrink) (h : Z -> F) (n : nat) : obj F :=
  Obj (ring d h (Z.of_nat n)) (delay_idx d (delay_lim d sh) n) 0.

Definition delay_out (d : nat) (sh : shrink) (h : Z -> F) (n : nat) : option F :=
  if Nat.leb (delay_lim d sh) n then Some (h (Z.of_nat n - Z.of_nat d)%Z) else None.

Lemma delay_lim_mult d sh : exists q, Z.of_nat (delay_lim d sh) = (Z.of_nat d * q)%Z /\ (1 <= q)%Z.
Proof. destruct sh; simpl; [exists 1%Z|exists 2%Z|exists 1%Z|exists 1%Z]; lia. Qed.

Lemma delay_idx_mod d sh n : 0 < d ->
  (delay_idx d (delay_lim d sh) n mod Z.of_nat d = Z.of_nat n mod Z.of_nat d)%Z.
Proof.
  intros Hd. destruct (delay_lim_mult d sh) as (q & E & _). unfold delay_idx. rewrite E.
  replace (Z.of_nat n - Z.of_nat d * q)%Z with (Z.of_nat n + (- q) * Z.of_nat d)%Z by lia.
  destruct (Z.leb _ 0); rewrite ?Z.mod_mod by lia; apply Z.mod_add; lia.
Qed.

Lemma delay_idx_next d lim n : 0 < d -> 
  (let ni := (delay_idx d lim n + 1)%Z in if Z.ltb 0 ni then (ni mod Z.of_nat d)%Z else ni)
  = delay_idx d lim (S n).
Proof.
  intros Hd. unfold delay_idx. cbv zeta.
  replace (Z.of_nat (S n) - Z.of_nat lim)%Z with (Z.of_nat n - Z.of_nat lim + 1)%Z by lia.
  set (v := (Z.of_nat n - Z.of_nat lim)%Z).
  destruct (Z.leb_spec v 0).
  - destruct (Z.ltb_spec 0 (v + 1)), (Z.leb_spec (v + 1) 0); auto; lia.
  - assert (0 <= v mod Z.of_nat d)%Z by (apply Z.mod_pos_bound; lia).
    replace (Z.ltb 0 _) with true by lia. replace (Z.leb _ 0) with false by lia.
    apply Zplus_mod_idemp_l.
Qed.

Lemma delay_idx_nonneg d lim n : 0 < d -> Z.leb 0 (delay_idx d lim n) = Nat.leb lim n.
Proof.
  intros Hd. unfold delay_idx. destruct (Z.leb_spec (Z.of_nat n - Z.of_nat lim) 0); [lia|].
  assert (0 <= (Z.of_nat n - Z.of_nat lim) mod Z.of_nat d)%Z by (apply Z.mod_pos_bound; lia).
  lia.
Qed.

Lemma delay_step_state d m sh h n : 0 < d ->
  delay_fstep d m sh (h (Z.of_nat n)) (Some (delay_state d sh h n))
  = Ok (delay_out d sh h n, Some (delay_state d sh h (S n))).
Proof.
  intros Hd. unfold delay_fstep. replace (Nat.eqb d 0) with false by lia.
  cbn [o_buf o_idx o_str delay_state]. rewrite delay_idx_nonneg by auto.
  rewrite delay_idx_mod by auto. rewrite ring_set by auto. cbn [bind].
  pose proof (delay_idx_next d (delay_lim d sh) n Hd) as Hn. cbv zeta in Hn.
  unfold delay_out.
  assert (Hst : delay_state d sh h (S n) = Obj (ring d h (Z.of_nat n + 1)) (delay_idx d (delay_lim d sh) (S n)) 0)
    by (unfold delay_state; do 2 f_equal; lia).
  rewrite Hst.
  destruct (Nat.leb_spec (delay_lim d sh) n) as [Hl|Hl].
  - assert (Ei : delay_idx d (delay_lim d sh) n = ((0 + Z.of_nat n) mod Z.of_nat d)%Z).
    { rewrite Z.add_0_l. rewrite <- (delay_idx_mod d sh n Hd).
      symmetry. apply Z.mod_small. unfold delay_idx.
      destruct (Z.leb_spec (Z.of_nat n - Z.of_nat (delay_lim d sh)) 0); [lia|].
      apply Z.mod_pos_bound; lia. }
    rewrite Ei at 1. rewrite ring_get by lia. cbn [bind]. rewrite Hn.
    do 3 f_equal. f_equal. lia.
  - cbn [bind]. rewrite Hn. reflexivity.
Qed.

Definition delay_S d sh (h : Z -> F) (n : nat) : option (obj F) :=
  match n with O => None | _ => Some (delay_state d sh h n) end.
Definition delay_O d sh (h : Z -> F) (n : nat) : obj F :=
  match n with O => obj_init | _ => delay_state d sh h n end.

Lemma delay_closed d m sh h n : 0 < d ->
  (forall z, (z < 0)%Z -> h z = make_padding m (h 0%Z)) ->
  delay_fstep d m sh (h (Z.of_nat n)) (delay_S d sh h n)
  = Ok (delay_out d sh h n, delay_S d sh h (S n)).
Proof.
  intros Hd Hh. destruct n; [|apply delay_step_state; auto].
  cbn [delay_S]. rewrite <- (delay_step_state d m sh h 0) by auto.
  assert (E : delay_init d m sh (h (Z.of_nat 0)) = delay_state d sh h 0).
  { unfold delay_init, delay_state. simpl Z.of_nat. 
    rewrite ring_init with (v := make_padding m (h 0%Z)) by auto.
    f_equal. unfold delay_idx. destruct sh; simpl delay_lim;
    replace (Z.leb _ 0) with true by lia; lia. }
  unfold delay_fstep. cbv zeta. replace (Nat.eqb d 0) with false by lia. rewrite E. reflexivity.
Qed.

Lemma delay_get d sh h n : 0 < d -> obj_get (delay_O d sh h n) = delay_S d sh h n.
Proof.
  intros Hd. destruct n; auto. unfold obj_get, delay_O, delay_S, delay_state; simpl o_buf.
  destruct (ring _ _ _) eqn:E; auto.
  apply (f_equal (@length _)) in E. rewrite ring_length in E. simpl in E. lia.
Qed.

Lemma delay_Ob d sh h n : exists s, delay_S d sh h (S n) = Some s /\
  forall m, 0 <= m <= n -> obj_set (delay_O d sh h m) s = delay_O d sh h (S n).
Proof. eexists; split; [reflexivity|]. reflexivity. Qed.

Lemma delay_feed d m sh xs ws : 0 < d -> xs ++ ws <> [] ->
  feed (fun o x => delay_forward_step d m sh o x true) obj_init xs
  = Ok (map (delay_out d sh (ext_clip m (xs ++ ws))) (seq 0 (length xs)),
        delay_O d sh (ext_clip m (xs ++ ws)) (length xs)).
Proof.
  intros Hd Hx. unfold delay_forward_step. replace (Nat.eqb d 0) with false by lia.
  rewrite (prefix_clip m xs ws) at 1.
  refine (feed_closed obj_get obj_set (delay_fstep d m sh) _
    (delay_S d sh _) (delay_out d sh _) 0 _ (delay_O d sh _) _ _ 0 (length xs) _); [| | |lia].
  - intros n _. apply delay_closed; auto. intros z Hz. apply ext_clip_pre; auto.
  - intros n _. apply delay_get; auto.
  - intros n _. apply delay_Ob.
Qed.

(** C05: exact FIFO. *)
Lemma delay_fifo_thm d m sh xs : sh <> ShTrue ->
  exists o, feed (fun o x => delay_forward_step d m sh o x true) obj_init xs
  = Ok (map (fun n => if Nat.ltb n d then None else nth_error xs (n - d)) (seq 0 (length xs)), o).
Proof.
  intros Hsh. destruct xs as [|x0 xt] eqn:Ex; [exists obj_init; reflexivity|]. rewrite <- Ex.
  assert (Hx : xs ++ [] <> []) by (subst; discriminate). clear Ex x0 xt.
  destruct (Nat.eq_dec d 0) as [->|Hd].
  - exists obj_init. unfold delay_forward_step. simpl Nat.eqb. cbv iota.
    clear Hx. generalize (@obj_init F) as o.
    assert (G : forall l o, feed (fun (o : obj F) (x : F) => Ok (Some x, o)) o l = Ok (map Some l, o)).
    { induction l; intros; simpl; auto. now rewrite IHl. }
    intros o. rewrite G. do 2 f_equal. apply nth_error_ext. intros j.
    rewrite nth_error_map, nth_error_map_seq. simpl. rewrite Nat.sub_0_r.
    destruct (Nat.ltb_spec j (length xs)).
    + destruct (nth_error xs j) eqn:E; auto. apply nth_error_None in E. lia.
    + rewrite (proj2 (nth_error_None xs j)) by lia. reflexivity.
  - rewrite (delay_feed d m sh xs []) by (auto; lia). eexists. do 2 f_equal.
    apply map_ext_in. intros n Hn%in_seq. unfold delay_out.
    replace (delay_lim d sh) with d by (destruct sh; simpl; congruence).
    destruct (Nat.leb_spec d n), (Nat.ltb_spec n d); try lia; auto.
    unfold ext_clip. replace (Z.ltb _ 0) with false by lia.
    rewrite app_nil_r. replace (Z.to_nat _) with (n - d) by lia.
    symmetry. apply nth_error_nth'. lia.
Qed.

Lemma somes_lim (f : nat -> F) lim M :
  somes (map (fun n => if Nat.leb lim n then Some (f n) else None) (seq 0 M))
  = map (fun i => f (lim + i)) (seq 0 (M - lim)).
Proof.
  induction M as [|M IH]; [reflexivity|].
  rewrite seq_S, map_app, somes_app, IH. cbn [map Nat.add].
  destruct (Nat.leb_spec lim M); cbn [somes].
  - replace (S M - lim) with (S (M - lim)) by lia. rewrite seq_S, map_app. cbn [map].
    do 3 f_equal. lia.
  - replace (S M - lim) with (M - lim) by lia. apply app_nil_r.
Qed.

Lemma map_nth_seq (l : list F) d n a : a + n <= length l ->
  map (fun i => nth (a + i) l d) (seq 0 n) = firstn n (skipn a l).
Proof.
  intros H. apply nth_error_ext. intros j. rewrite nth_error_map_seq.
  assert (G : forall (l : list F) a b, b < a -> nth_error (firstn a l) b = nth_error l b).
  { clear. induction l as [|y l IHl]; intros [|a] [|b]; simpl; intros; try lia; auto. apply IHl; lia. }
  assert (G2 : forall (l : list F) a b, nth_error (skipn a l) b = nth_error l (a + b)).
  { clear. induction l as [|y l IHl]; intros [|a] b; simpl; auto. now destruct b. }
  destruct (Nat.ltb_spec j n).
  - rewrite G, G2 by auto. simpl. symmetry. apply nth_error_nth'. lia.
  - symmetry. apply nth_error_None. rewrite firstn_length. lia.
Qed.

(** Outputs of a clean Delay over a whole clip plus [e] padding steps. *)
Lemma delay_somes d m sh xs e : 0 < d -> e <= d -> 
  somes (map (delay_out d sh (ext_clip m xs)) (seq 0 (length xs + e)))
  = firstn (length xs + e - delay_lim d sh) (skipn (delay_lim d sh - d) xs).
Proof.
  intros Hd He. unfold delay_out. rewrite somes_lim.
  set (lim := delay_lim d sh).
  assert (Hl : d <= lim) by (unfold lim; destruct sh; simpl; lia).
  destruct (Nat.leb_spec lim (length xs + e)) as [Hle|Hgt].
  2:{ replace (length xs + e - lim) with 0 by lia. reflexivity. }
  rewrite <- map_nth_seq with (d := make_padding m (last xs f0)) by lia.
  apply map_ext_in. intros i Hi%in_seq. unfold ext_clip.
  replace (Z.ltb _ 0) with false by lia. f_equal. lia.
Qed.

Lemma firstn_min {A} n (l : list A) : length l <= n -> firstn n l = l.
Proof. apply firstn_all2. Qed.

(** C06, C07: forward_steps on a clean Delay. *)
Lemma delay_steps_thm d m sh xs pe : xs <> [] ->
  exists o, delay_forward_steps d m sh obj_init xs pe true
  = Ok (if Nat.eqb d 0 then Some xs else
        stack_outs (firstn (length xs + (if pe then d else 0) - delay_lim d sh)
                           (skipn (delay_lim d sh - d) xs)), o).
Proof.
  intros Hx. unfold delay_forward_steps. destruct (Nat.eqb_spec d 0) as [->|Hd].
  { eexists; reflexivity. }
  assert (Hl : length xs <> 0) by (destruct xs; simpl; congruence).
  set (H := ext_clip m xs).
  assert (E : xs = clip (fun i => H (Z.of_nat i)) 0 (length xs)).
  { rewrite (prefix_clip m xs []) at 1. rewrite app_nil_r. reflexivity. }
  assert (Hst : forall n, 0 <= n -> delay_fstep d m sh (H (Z.of_nat n)) (delay_S d sh H n)
       = Ok (delay_out d sh H n, delay_S d sh H (S n))).
  { intros n _. apply delay_closed; [lia|]. intros z Hz. apply ext_clip_pre; auto. }
  exists (delay_O d sh H (length xs)). rewrite E at 1. destruct pe.
  - rewrite (co_forward_steps_pad_closed obj_get obj_set (delay_fstep d m sh) _ (delay_S d sh H) (delay_out d sh H) 0 Hst (delay_O d sh H))
     with (n := 0); [|intros; apply delay_get; lia|intros; apply delay_Ob|lia|lia|].
    + unfold H; rewrite delay_somes by lia. reflexivity.
    + intros i Hi. apply ext_clip_post; auto.
  - rewrite (co_forward_steps_closed obj_get obj_set (delay_fstep d m sh) _ (delay_S d sh H) (delay_out d sh H) 0 Hst (delay_O d sh H))
     with (n := 0); [|intros; apply delay_get; lia|intros; apply delay_Ob|lia|lia].
    rewrite <- (Nat.add_0_r (length xs)) at 1. unfold H; rewrite delay_somes by lia. reflexivity.
Qed.

(* ------------------------------------------------------------------ *)
(** ** Skip *)

Definition skip_S (N n : nat) : option Z := Some (Z.min (Z.of_nat n - Z.of_nat N) 0).
Definition skip_O (N n : nat) : Z := Z.min (Z.of_nat n - Z.of_nat N) 0.

Lemma skip_closed N (x : F) n :
  skip_fstep N x (skip_S N n) = Ok (if Nat.leb N n then Some x else None, skip_S N (S n)).
Proof.
  unfold skip_fstep, skip_S. destruct (Nat.leb_spec N n).
  - replace (Z.leb 0 _) with true by lia. do 3 f_equal. lia.
  - replace (Z.leb 0 _) with false by lia. do 3 f_equal. lia.
Qed.

Lemma skip_feed N xs :
  exists o, feed (fun o x => skip_forward_step N o x true) (skip_init N) xs
  = Ok (map (fun n => if Nat.ltb n N then None else nth_error xs n) (seq 0 (length xs)), o).
Proof.
  pose (h := stream f0 xs).
  exists (skip_O N (length xs)).
  rewrite <- (clip_stream f0 xs) at 1. fold h.
  replace (skip_init N) with (skip_O N 0) by (unfold skip_O, skip_init; lia).
  transitivity (Ok (map (fun n => if Nat.leb N n then Some (h n) else None) (seq 0 (length xs)), skip_O N (0 + length xs))).
  - refine (feed_closed skip_get skip_set (skip_fstep N) h (skip_S N) _ 0 _ (skip_O N) _ _ 0 (length xs) _); [| | |lia].
    + intros n _. apply skip_closed.
    + reflexivity.
    + intros n _. eexists; split; [reflexivity|]. reflexivity.
  - do 2 f_equal. apply map_ext_in. intros n Hn%in_seq. unfold h, stream.
    destruct (Nat.leb_spec N n), (Nat.ltb_spec n N); try lia; auto.
    symmetry. apply nth_error_nth'. lia.
Qed.

Lemma skip_steps_thm N xs pe : xs <> [] ->
  exists o, skip_forward_steps N (skip_init N) xs pe true
  = Ok (stack_outs (skip_forward N xs), o).
Proof.
  intros Hx. pose (h := stream f0 xs).
  assert (Hl : length xs <> 0) by (destruct xs; simpl; congruence).
  exists (skip_O N (length xs)).
  rewrite <- (clip_stream f0 xs) at 1. fold h.
  replace (skip_init N) with (skip_O N 0) by (unfold skip_O, skip_init; lia).
  transitivity (Ok (stack_outs (somes (map (fun n => if Nat.leb N n then Some (h n) else None) (seq 0 (length xs)))), skip_O N (0 + length xs))).
  - assert (H1 : forall n, 0 <= n -> skip_fstep N (h n) (skip_S N n) = Ok (if Nat.leb N n then Some (h n) else None, skip_S N (S n)))
      by (intros; apply skip_closed).
    assert (H2 : forall n, 0 <= n -> skip_get (skip_O N n) = skip_S N n) by reflexivity.
    assert (H3 : forall n, 0 <= n -> exists s, skip_S N (S n) = Some s /\ forall m, 0 <= m <= n -> skip_set (skip_O N m) s = skip_O N (S n))
      by (intros; eexists; split; reflexivity).
    unfold skip_forward_steps. destruct pe.
    + rewrite (co_forward_steps_pad_closed skip_get skip_set (skip_fstep N) h (skip_S N) _ 0 H1 (skip_O N) H2 H3);
       [|lia|lia|intros; lia]. rewrite Nat.add_0_r. reflexivity.
    + rewrite (co_forward_steps_closed skip_get skip_set (skip_fstep N) h (skip_S N) _ 0 H1 (skip_O N) H2 H3); [reflexivity|lia|lia].
  - do 3 f_equal. rewrite somes_lim. unfold h, stream, skip_forward.
    destruct (Nat.leb_spec N (length xs)).
    + rewrite map_nth_seq by lia. apply firstn_all2. rewrite skipn_length. lia.
    + replace (length xs - N) with 0 by lia. simpl. symmetry. apply skipn_all2. lia.
Qed.

End Leaves.
