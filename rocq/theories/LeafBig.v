(** Convolutions whose temporal padding is at least the kernel size. *)
From Coq Require Import List ZArith Bool Arith Lia ZifyBool ZifyNat.
From Verif Require Import Base Frames CoMod Leaf Spec LeafSpec Ring LeafProof.
Import ListNotations.
Ltac Zify.zify_post_hook ::= Z.div_mod_to_equations.

Section Big.
Context {F : Type} {FA : Frames F} {FL : FrameLaws F}.
Implicit Types xs ys : list F.

(** The same convolution without padding: only the start of a stream differs. *)
Definition unpadded (c : conv_cfg F) : conv_cfg F :=
  {| ck := ck c; cs := cs c; cp := 0; cW := cW c; cb := cb c; cmode := Zeros; cfill := Zeros |}.

Lemma unpadded_ok c : conv_overpadded c -> conv_ok (unpadded c).
Proof. intros []. constructor; simpl; auto; try lia; try discriminate. Qed.

Lemma big_step c h n st : conv_overpadded c ->
  conv_fstep c (h (Z.of_nat n))
    (Some (Obj (ring (ck c - 1) (fun z => row_of c (h z)) (Z.of_nat n))
               (Z.of_nat n mod Z.of_nat (ck c - 1)) st)) =
  Ok (if Z.eqb st (Z.of_nat (cs c) - 1) then Some (conv_val c h n) else None,
      Some (Obj (ring (ck c - 1) (fun z => row_of c (h z)) (Z.of_nat (S n)))
                (Z.of_nat (S n) mod Z.of_nat (ck c - 1))
                (let ns := (st + 1)%Z in
                 if Z.ltb 0 ns then (ns mod Z.of_nat (cs c))%Z else ns))).
Proof.
  intros Hc. pose proof (unpadded_ok c Hc) as Hu. destruct Hc. unfold conv_fstep.
  assert (Es : conv_stateless c = false) by (unfold conv_stateless; lia).
  rewrite Es. simpl pad_time. simpl bind.
  change (repeat f0 (ck c - 1) ++ h (Z.of_nat n) :: repeat f0 (ck c - 1))
   with (repeat f0 (ck c - 1) ++ [h (Z.of_nat n)] ++ repeat f0 (ck c - 1)).
  pose proof (xcorr_frame (unpadded c) (h (Z.of_nat n)) Hu) as Ex. cbn [unpadded cW ck] in Ex.
  change (row_of (unpadded c) (h (Z.of_nat n))) with (row_of c (h (Z.of_nat n))) in Ex.
  rewrite Ex. cbn -[ring conv_gather Z.mul Z.add Nat.ltb Z.of_nat].
  replace (Nat.ltb 1 (ck c)) with true by lia.
  rewrite ring_set with (h := fun z => row_of c (h z)) by (auto; lia).
  rewrite conv_gather_ok by auto.
  assert (Hval : add_bias (cb c) (fadd (cW c (ck c - 1) (h (Z.of_nat n)))
     (fsum (map (fun i => cW c i (h (Z.of_nat n - Z.of_nat (ck c - 1) + Z.of_nat i)%Z)) (seq 0 (ck c - 1)))))
     = conv_val c h n).
  { unfold conv_val. f_equal.
    transitivity (fsum (map (fun i => cW c i (h (Z.of_nat n - Z.of_nat (ck c - 1) + Z.of_nat i)%Z))
      (seq 0 ((ck c - 1) + 1)))).
    - rewrite seq_app, map_app, fsum_app. simpl. rewrite fadd_0_r, fadd_comm.
      do 3 f_equal. lia.
    - do 3 f_equal. lia. }
  assert (En : ((Z.of_nat n mod Z.of_nat (ck c - 1) + 1) mod Z.of_nat (ck c - 1)
                = Z.of_nat (S n) mod Z.of_nat (ck c - 1))%Z).
  { rewrite Zplus_mod_idemp_l. f_equal. lia. }
  rewrite En. replace (Z.of_nat n + 1)%Z with (Z.of_nat (S n)) by lia.
  destruct (Z.eqb st (Z.of_nat (cs c) - 1)); cbn [bind]; [rewrite Hval|]; reflexivity.
Qed.

(** Stride counter after [n] frames; [e] is the excess of padding. *)
Definition big_str (c : conv_cfg F) (n : nat) : Z :=
  let a := (Z.of_nat (cs c) - Z.of_nat (ck c) + Z.of_nat (cp c))%Z in
  match n with O => a | _ => ((a + Z.of_nat n) mod Z.of_nat (cs c))%Z end.
Definition big_state (c : conv_cfg F) (h : Z -> F) (n : nat) : obj (list F) :=
  Obj (ring (ck c - 1) (fun z => row_of c (h z)) (Z.of_nat n))
      (Z.of_nat n mod Z.of_nat (ck c - 1)) (big_str c n).
Definition big_emits (c : conv_cfg F) (n : nat) : bool :=
  Nat.leb 1 n && Nat.eqb ((n + (cp c - (ck c - 1))) mod cs c) 0.

Lemma big_str_next c n : conv_overpadded c ->
  (let ns := (big_str c n + 1)%Z in
   if Z.ltb 0 ns then (ns mod Z.of_nat (cs c))%Z else ns) = big_str c (S n).
Proof.
  intros []. cbv zeta. unfold big_str.
  set (a := (Z.of_nat (cs c) - Z.of_nat (ck c) + Z.of_nat (cp c))%Z).
  destruct n.
  - replace (Z.ltb 0 (a + 1)) with true by lia. f_equal.
  - assert (0 <= (a + Z.of_nat (S n)) mod Z.of_nat (cs c))%Z by (apply Z.mod_pos_bound; lia).
    replace (Z.ltb 0 _) with true by (symmetry; apply Z.ltb_lt; lia).
    rewrite Zplus_mod_idemp_l. f_equal. lia.
Qed.

Lemma mod_last s m : 0 < s ->
  Z.eqb ((Z.of_nat s - 1 + Z.of_nat m) mod Z.of_nat s) (Z.of_nat s - 1) = Nat.eqb (m mod s) 0.
Proof.
  intros Hs. destruct (Nat.eqb_spec (m mod s) 0) as [E|E].
  - apply Z.eqb_eq. apply Nat.mod_divides in E as [q E]; [|lia]. subst m.
    symmetry. apply Z.mod_unique_pos with (q := Z.of_nat q); lia.
  - apply Z.eqb_neq. intros E2. apply E.
    pose proof (Z.div_mod (Z.of_nat s - 1 + Z.of_nat m) (Z.of_nat s)) as D.
    set (q := ((Z.of_nat s - 1 + Z.of_nat m) / Z.of_nat s)%Z) in *.
    assert (Z.of_nat m = Z.of_nat s * q)%Z by lia.
    assert (0 <= q)%Z by nia.
    apply Nat.mod_divides; [lia|]. exists (Z.to_nat q). nia.
Qed.

Lemma big_valid c n : conv_overpadded c ->
  Z.eqb (big_str c n) (Z.of_nat (cs c) - 1) = big_emits c n.
Proof.
  intros []. unfold big_str, big_emits. destruct n as [|n].
  - simpl. apply Z.eqb_neq. lia.
  - cbn [Nat.leb andb]. rewrite <- mod_last by lia. do 2 f_equal. lia.
Qed.

Definition big_S c h n : option (obj (list F)) :=
  match n with O => None | _ => Some (big_state c h n) end.
Definition big_O c h n : obj (list F) :=
  match n with O => obj_init | _ => big_state c h n end.
Definition big_out c (h : Z -> F) n : option F :=
  if big_emits c n then Some (conv_val c h n) else None.

Lemma big_fstep_init c x : conv_overpadded c ->
  conv_fstep c x None = conv_fstep c x (Some (conv_init c (row_of c x))).
Proof.
  intros Hc. pose proof (unpadded_ok c Hc) as Hu. unfold conv_fstep.
  assert (Es : conv_stateless c = false) by (destruct Hc; unfold conv_stateless; lia).
  rewrite Es. simpl pad_time. simpl bind.
  change (repeat f0 (ck c - 1) ++ x :: repeat f0 (ck c - 1))
   with (repeat f0 (ck c - 1) ++ [x] ++ repeat f0 (ck c - 1)).
  pose proof (xcorr_frame (unpadded c) x Hu) as Ex. cbn [unpadded cW ck] in Ex.
  change (row_of (unpadded c) x) with (row_of c x) in Ex.
  rewrite Ex. reflexivity.
Qed.

Lemma big_closed c h n : conv_overpadded c ->
  (forall z, (z < 0)%Z -> h z = conv_v c (h 0%Z)) ->
  conv_fstep c (h (Z.of_nat n)) (big_S c h n) = Ok (big_out c h n, big_S c h (S n)).
Proof.
  intros Hc Hh.
  assert (G : conv_fstep c (h (Z.of_nat n)) (Some (big_state c h n))
              = Ok (big_out c h n, big_S c h (S n))).
  { unfold big_state at 1. rewrite big_step by auto. rewrite big_str_next, big_valid by auto.
    reflexivity. }
  destruct n; [|exact G]. rewrite <- G. simpl Z.of_nat. cbn [big_S].
  rewrite big_fstep_init by auto. simpl Z.of_nat. destruct Hc.
  assert (E : conv_init c (row_of c (h 0%Z)) = big_state c h 0).
  { unfold conv_init, big_state. simpl Z.of_nat.
    rewrite ring_init with (v := row_of c (conv_v c (h 0%Z))).
    2:{ intros z Hz. now rewrite Hh. }
    rewrite repeat_length. rewrite Z.mod_0_l by lia.
    f_equal; [|unfold big_str; lia]. f_equal.
    unfold row_of, conv_v. rewrite map_map. apply map_ext. intros j.
    destruct (cfill c); simpl; auto. contradiction. }
  rewrite E. reflexivity.
Qed.

Lemma big_get c h n : 2 <= ck c -> obj_get (big_O c h n) = big_S c h n.
Proof.
  intros. destruct n; auto. unfold obj_get, big_O, big_S, big_state; simpl o_buf.
  destruct (ring _ _ _) eqn:E; auto.
  apply (f_equal (@length _)) in E. rewrite ring_length in E. simpl in E. lia.
Qed.

Lemma big_Ob c h n : exists s, big_S c h (S n) = Some s /\
  forall m, 0 <= m <= n -> obj_set (big_O c h m) s = big_O c h (S n).
Proof. eexists; split; [reflexivity|]. reflexivity. Qed.

(** [forward]: output [j] is the window whose newest frame is [j*s - e]. *)
Lemma big_forward c xs ys : conv_overpadded c -> conv_forward c xs = Ok ys ->
  xs <> [] /\
  length ys = (length xs + 2 * cp c - ck c) / cs c + 1 /\
  forall n, n < length xs + cp c -> Nat.eqb ((n + (cp c - (ck c - 1))) mod cs c) 0 = true ->
    nth_error ys ((n + (cp c - (ck c - 1))) / cs c) = Some (conv_val c (ext_clip (cfill c) xs) n).
Proof.
  intros Hc E. destruct xs as [|x0 xt] eqn:Ex; [discriminate|]. rewrite <- Ex in *.
  assert (Hx : xs <> []) by (subst; discriminate).
  assert (E' : (xs' <- pad_time (cmode c) (cp c) xs ;; xcorr (cW c) (cb c) (ck c) (cs c) xs') = Ok ys)
   by (subst xs; exact E).
  clear E Ex x0 xt.
  destruct (pad_time_total (cmode c) (cp c) xs Hx) as [ps Hps].
  rewrite Hps in E'. simpl in E'.
  destruct (pad_time_nth _ _ _ _ Hx Hps) as [Hl Hn].
  unfold xcorr in E'. rewrite Hl in E'.
  destruct (Nat.ltb_spec (length xs + 2 * cp c) (ck c)) as [|Hk]; [discriminate|].
  injection E' as <-. split; [auto|]. rewrite map_length, seq_length. split; [auto|].
  intros n Hn1 Hn2. apply Nat.eqb_eq in Hn2. destruct Hc.
  set (e := cp c - (ck c - 1)) in *.
  assert (D : n + e = cs c * ((n + e) / cs c)) by (pose proof (Nat.div_mod (n + e) (cs c)); lia).
  assert (L : (n + e) / cs c <= (length xs + 2 * cp c - ck c) / cs c)
    by (apply Nat.div_le_mono; lia).
  rewrite nth_error_map_seq.
  match goal with |- (if ?b then _ else _) = _ => replace b with true end.
  2:{ symmetry. apply Nat.ltb_lt. rewrite Nat.add_1_r. apply Nat.lt_succ_r. exact L. }
  f_equal. unfold conv_val. f_equal. f_equal.
  apply map_ext_in. intros i Hi%in_seq. f_equal. cbn [Nat.add].
  replace ((n + e) / cs c * cs c) with (n + e) by nia.
  rewrite Hn by lia. rewrite co_mode. f_equal. lia.
Qed.

Lemma big_feed c xs ws : conv_overpadded c -> xs ++ ws <> [] ->
  feed (fun o x => conv_forward_step c o x true) obj_init xs
  = Ok (map (big_out c (ext_clip (cfill c) (xs ++ ws))) (seq 0 (length xs)),
        big_O c (ext_clip (cfill c) (xs ++ ws)) (length xs)).
Proof.
  intros Hc Hx. assert (Hk : 2 <= ck c) by (destruct Hc; lia).
  set (H := ext_clip (cfill c) (xs ++ ws)).
  assert (E : xs = clip (fun i => H (Z.of_nat i)) 0 (length xs)).
  { unfold H. rewrite ext_clip_clip by (rewrite app_length; lia). simpl.
    rewrite firstn_app, Nat.sub_diag, firstn_all. simpl. now rewrite app_nil_r. }
  rewrite E at 1.
  refine (feed_closed obj_get obj_set (conv_fstep c) (fun i => H (Z.of_nat i))
    (big_S c H) (big_out c H) 0 _ (big_O c H) _ _ 0 (length xs) _); [| | |lia].
  - intros n _. apply big_closed; auto. intros z Hz. apply ext_clip_pre; auto.
  - intros n _. apply big_get; auto.
  - intros n _. apply big_Ob.
Qed.

Lemma big_step_thm c xs ws ys : conv_overpadded c -> conv_forward c (xs ++ ws) = Ok ys ->
  exists o, feed (fun o x => conv_forward_step c o x true) obj_init xs
  = Ok (map (fun n => if Nat.leb 1 n && Nat.eqb ((n + (cp c - (ck c - 1))) mod cs c) 0
                      then nth_error ys ((n + (cp c - (ck c - 1))) / cs c) else None)
            (seq 0 (length xs)), o).
Proof.
  intros Hc E. destruct (big_forward _ _ _ Hc E) as (Hx & Hl & Hv).
  rewrite (big_feed c xs ws) by auto. eexists. do 2 f_equal.
  apply map_ext_in. intros n Hn%in_seq. unfold big_out, big_emits.
  destruct (Nat.leb 1 n && _) eqn:Ee; auto. apply andb_prop in Ee as [_ Ee].
  symmetry. apply Hv; auto. rewrite app_length. lia.
Qed.

Lemma nth_error_skip {A} (l : list A) a b : nth_error (skipn a l) b = nth_error l (a + b).
Proof. revert a b. induction l; intros [|a'] b; simpl; auto. now destruct b. Qed.

Lemma firstn_snoc {A} (l : list A) n y : nth_error l n = Some y ->
  firstn (S n) l = firstn n l ++ [y].
Proof.
  revert n. induction l as [|x l IH]; intros [|n] E; simpl in *; try discriminate.
  - now injection E as ->.
  - f_equal. now apply IH.
Qed.

(** The outputs in order: all but the first [e/s + 1] of [forward]. *)
Lemma somes_late {A} (f : nat -> option A) (l : list A) e s M : 0 < s ->
  (forall n, n < M -> Nat.eqb ((n + e) mod s) 0 = true -> f n = nth_error l ((n + e) / s)) ->
  (M + e - 1) / s < length l -> 0 < M ->
  somes (map (fun n => if Nat.leb 1 n && Nat.eqb ((n + e) mod s) 0 then f n else None) (seq 0 M))
  = firstn ((M + e - 1) / s - e / s) (skipn (e / s + 1) l).
Proof.
  intros Hs. induction M as [|M IH]; intros Hf Hl HM; [lia|]. destruct (Nat.eq_dec M 0) as [->|H0].
  - cbn [seq map Nat.leb andb somes]. replace (1 + e - 1) with e by lia. now rewrite Nat.sub_diag.
  - rewrite seq_S, map_app, somes_app. cbn [Nat.add map]. 
    replace (S M + e - 1) with (S (M + e - 1)) in * by lia.
    rewrite div_succ in * by auto. replace (S (M + e - 1)) with (M + e) in * by lia.
    replace (Nat.leb 1 M) with true by lia. cbn [andb].
    assert (Hle : e / s <= (M + e - 1) / s) by (apply Nat.div_le_mono; lia).
    destruct (Nat.eqb ((M + e) mod s) 0) eqn:Em.
    + rewrite IH; [| intros; apply Hf; auto; lia | lia | lia].
      assert (Ed : (M + e) / s = (M + e - 1) / s + 1).
      { replace (M + e) with (S (M + e - 1)) at 1 by lia. rewrite div_succ by auto.
        replace (S (M + e - 1)) with (M + e) by lia. now rewrite Em. }
      rewrite (Hf M) by (auto; lia). rewrite Ed.
      destruct (nth_error l ((M + e - 1) / s + 1)) as [y|] eqn:En;
        [|apply nth_error_None in En; lia].
      cbn [somes]. set (q := (M + e - 1) / s) in *. 
      replace (S (M + e) - 1) with (M + e) by lia. rewrite Ed.
      replace (q + 1 - e / s) with (S (q - e / s)) by (clearbody q; generalize dependent (e / s); intros; lia).
      rewrite firstn_snoc with (y := y); [reflexivity|].
      rewrite nth_error_skip. rewrite <- En. f_equal. lia.
    + rewrite IH; [| intros; apply Hf; auto; lia | lia | lia].
      cbn [somes]. rewrite app_nil_r. replace (S (M + e) - 1) with (S (M + e - 1)) by lia.
      rewrite div_succ by auto. replace (S (M + e - 1)) with (M + e) by lia. now rewrite Em.
Qed.

Lemma big_pad_end_thm c xs1 xs2 ys : conv_overpadded c -> xs2 <> [] ->
  conv_forward c (xs1 ++ xs2) = Ok ys ->
  (cp c - (ck c - 1)) / cs c + 1 <= length ys /\
  exists os o1 o2 rest,
    feed (fun o x => conv_forward_step c o x true) obj_init xs1 = Ok (os, o1) /\
    conv_forward_steps c o1 xs2 true true = Ok (stack_outs rest, o2) /\
    somes os ++ rest = skipn ((cp c - (ck c - 1)) / cs c + 1) ys.
Proof.
  intros Hc Hx2 E. destruct (big_forward _ _ _ Hc E) as (Hx & Hl & Hv).
  set (H := ext_clip (cfill c) (xs1 ++ xs2)) in *.
  assert (Hl2 : length xs2 <> 0) by (destruct xs2; simpl; congruence).
  assert (Hk : 2 <= ck c) by (destruct Hc; lia).
  assert (Hs : 0 < cs c) by (destruct Hc; lia).
  assert (Hp : ck c <= cp c) by (destruct Hc; lia).
  set (e := cp c - (ck c - 1)) in *.
  split.
  { rewrite Hl. apply Nat.add_le_mono_r. apply Nat.div_le_mono; [lia|].
    rewrite app_length. lia. }
  rewrite (big_feed c xs1 xs2) by auto. fold H.
  do 4 eexists. split; [reflexivity|].
  assert (Ec : xs2 = clip (fun i => H (Z.of_nat i)) (length xs1) (length xs2)).
  { unfold H. rewrite ext_clip_clip by (rewrite app_length; lia). 
    rewrite skipn_app, skipn_all, Nat.sub_diag. simpl. now rewrite firstn_all. }
  split.
  - unfold conv_forward_steps. rewrite Ec at 1.
    rewrite (co_forward_steps_pad_closed obj_get obj_set (conv_fstep c) _ (big_S c H) (big_out c H) 0)
     with (Ob_ := big_O c H); [reflexivity| | | |lia|lia|].
    + intros n _. apply big_closed; auto. intros z Hz. apply ext_clip_pre; auto.
    + intros n _. apply big_get; auto.
    + intros n _. apply big_Ob.
    + intros i Hi. unfold H. 
      replace (length xs1 + length xs2) with (length (xs1 ++ xs2)) by apply app_length.
      apply ext_clip_post; auto.
  - rewrite <- somes_app, <- map_app, <- seq_app.
    replace (length xs1 + (length xs2 + cp c)) with (length (xs1 ++ xs2) + cp c)
      by (rewrite app_length; lia).
    assert (Hlen : length (xs1 ++ xs2) + cp c + e - 1 = length (xs1 ++ xs2) + 2 * cp c - ck c)
      by lia.
    unfold big_out, big_emits. fold e.
    rewrite (somes_late (fun n => Some (conv_val c H n)) ys e (cs c)); auto; try lia.
    + rewrite Hlen. apply firstn_all2. rewrite skipn_length, Hl. lia.
    + intros n Hn Hm. symmetry. apply Hv; auto.
    + rewrite Hlen, Hl, Nat.add_1_r. apply Nat.lt_succ_diag_r.
Qed.

(** Pooling: torch refuses the padding, so [forward] raises. *)
Lemma pool_overpadded c xs : pfdil c = 1 -> 2 <= pk c -> pk c <= pp c ->
  pool_forward c xs = Err RuntimeError.
Proof. intros Hd Hk Hp. unfold pool_forward. rewrite Hd. now replace (Nat.ltb _ _) with true by lia. Qed.

End Big.
