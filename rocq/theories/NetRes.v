(** Automatic delays, Residual and warm_up. *)
From Coq Require Import List ZArith Bool Arith Lia ZifyBool ZifyNat.
From Verif Require Import Base Frames CoMod Leaf Rnn Net Spec LeafSpec Ring LeafProof LeafMore NetSpec NetOk Calls NetDef NetCore NetFwd NetPad NetAcc.
Import ListNotations.
Ltac Zify.zify_post_hook ::= Z.div_mod_to_equations.

Section NetRes.
Context {F : Type} {FA : Frames F} {FL : FrameLaws F}.
Implicit Types m : md F.
Implicit Types ms : list (md F).

Lemma oop_eq r (a b : option F) : oop r a b = opt_op r a b.
Proof. destruct a, b; reflexivity. Qed.

Lemma zipo_maps r (f g : nat -> option F) l :
  zipo r (map f l) (map g l) = map (fun n => opt_op r (f n) (g n)) l.
Proof. unfold zipo. induction l as [|x l IH]; [reflexivity|]. simpl in *. rewrite IH, oop_eq. reflexivity. Qed.

Lemma redl_maps r (fs : list (nat -> option F)) l : fs <> [] ->
  redl r (map (fun f => map f l) fs)
  = map (fun n => match map (fun f => f n) fs with [] => None | h :: t => fold_left (opt_op r) t h end) l.
Proof.
  destruct fs as [|f fs]; [congruence|]. intros _. cbn [map redl].
  revert f. induction fs as [|g fs IH]; intros f; [reflexivity|]. cbn [map fold_left].
  rewrite zipo_maps, IH. reflexivity.
Qed.

(* ------------------------------------------------------------------ *)
(** ** Automatic delays *)

Lemma nfwd_delay_to sh D m xs : core sh m -> nfwd (delay_to D m) xs = nfwd m xs.
Proof.
  intros Hc. unfold delay_to. destruct (Z.ltb (del m) D); [|reflexivity].
  unfold nfwd. cbn [fwd seq_fwd]. destruct (fwd m (VS xs)) as [v|] eqn:E; [|reflexivity]. cbn [bind].
  destruct (core_isclip sh m Hc xs v E) as [ys ->]. reflexivity.
Qed.

Theorem auto_delay_step sh ms r m xs ws zss :
  (forall x, In x ms -> net sh x) -> (forall x, In x ms -> strd x = 1%Z) ->
  mk_br ms r true = Ok m ->
  Forall2 (fun x zs => nfwd x (xs ++ ws) = Ok zs) ms zss ->
  exists m', feed (nstep true) m xs
    = Ok (map (fun n => if Nat.ltb n (Z.to_nat (zmax_list (map del ms))) then None
                        else combined r zss (n - Z.to_nat (zmax_list (map del ms))))
              (seq 0 (length xs)), m').
Proof.
  intros Hn Hs Hmk HF. apply mk_br_inv in Hmk as (-> & Hl & _). unfold auto_delay in *.
  set (D := zmax_list (map del ms)) in *.
  assert (G : exists ps, Forall2 (fun x p => feed (nstep true) x xs = Ok p) (map (delay_to D) ms) ps /\
     map fst ps = map (fun f => map f (seq 0 (length xs))) (map (fun z => scheduled (Z.to_nat D) 1 z) zss)).
  { assert (HD : forall x, In x ms -> (del x <= D)%Z) by (intros; apply zmax_ge, in_map; auto).
    clearbody D. clear Hl. induction HF as [|x z ms zss E HF IH]; [exists []; split; [constructor|reflexivity]|].
    destruct IH as (ps & IH1 & IH2); try (intros; auto using in_cons).
    destruct (net_core sh x (Hn x (or_introl eq_refl))) as [Hc Hi].
    destruct (inv_delay_to D x Hi (HD x (or_introl eq_refl)) (Hs x (or_introl eq_refl))) as ([] & I1 & I2).
    rewrite <- (nfwd_delay_to sh D) in E by auto.
    destruct (core_sched sh _ _ _ _ (core_delay_to sh D x Hc) E) as [x' Ef].
    exists ((map (scheduled (ph (delay_to D x)) (per (delay_to D x)) z) (seq 0 (length xs)), x') :: ps).
    cbn [map fst]. split; [constructor; auto|]. rewrite IH2. do 2 f_equal.
    replace (ph (delay_to D x)) with (Z.to_nat D) by lia. replace (per (delay_to D x)) with 1 by lia. reflexivity. }
  destruct G as (ps & G1 & G2).
  eexists. rewrite (feed_br xs r _ ps); [|destruct ms; [simpl in Hl; lia|discriminate]|lia| |exact G1].
  - rewrite G2, redl_maps.
    + do 2 f_equal. apply map_ext. intros n. rewrite map_map.
      assert (E : map (fun z => scheduled (Z.to_nat D) 1 z n) zss
        = map (fun z => if n <? Z.to_nat D then None else nth_error z (n - Z.to_nat D)) zss).
      { apply map_ext. intros z. unfold scheduled, emits. rewrite Nat.div_1_r, Nat.mod_1_r.
        destruct (Nat.leb_spec (Z.to_nat D) n), (Nat.ltb_spec n (Z.to_nat D)); try lia; reflexivity. }
      rewrite E. unfold combined. destruct (n <? Z.to_nat D); [|reflexivity].
      assert (Hz : forall h (t : list (list F)), fold_left (opt_op r) (map (fun _ => None) t) h = match t with [] => h | _ => None end).
      { intros h t. destruct t as [|z t]; [reflexivity|]. cbn [map fold_left].
        replace (opt_op r h None) with (@None F) by (destruct h; reflexivity). clear. induction t; [reflexivity|]. auto. }
      destruct zss as [|z zss]; [reflexivity|]. cbn [map]. rewrite Hz. destruct zss; reflexivity.
    + apply F2_length in HF. rewrite map_length in Hl. destruct zss; [simpl in *; lia|discriminate].
  - apply Forall_forall. intros x Hx. apply in_map_iff in Hx as (y & <- & Hy).
    destruct (net_core sh y (Hn y Hy)) as [Hc _]. eapply core_ok, core_delay_to; eauto.
Qed.

(* ------------------------------------------------------------------ *)
(** ** Residual *)

Lemma feed_delay_md d f s xs : exists m', feed (nstep true) (MDelay d f s obj_init) xs
  = Ok (map (fun n => if Nat.ltb n (match s with ShTrue => 2 * d | _ => d end) then None else nth_error xs (n - d))
         (seq 0 (length xs)), m').
Proof.
  rewrite (feed_wrap (MDelay d f s) (fun o x => delay_forward_step d f s o x true) (HW_delay d f s)).
  destruct (Nat.eq_dec d 0) as [->|Hd].
  - assert (E : forall o, feed (fun o x => delay_forward_step 0 f s o x true) o xs = Ok (map Some xs, o)).
    { intros o. induction xs as [|x xs IH]; [reflexivity|]. cbn [feed]. unfold delay_forward_step at 1. cbn [Nat.eqb bind].
      rewrite IH. reflexivity. }
    rewrite E. cbn [bind fst snd]. eexists. do 2 f_equal.
    replace (match s with ShTrue => 2 * 0 | _ => 0 end) with 0 by (destruct s; reflexivity).
    apply nth_error_ext. intros j. rewrite !nth_error_map.
    destruct (Nat.ltb_spec j (length xs)).
    + rewrite (nth_error_nth' _ 0) by (rewrite seq_length; auto). rewrite seq_nth by auto. cbn [option_map Nat.ltb Nat.leb].
      rewrite Nat.add_0_l, Nat.sub_0_r. destruct (nth_error xs j) eqn:E2; [reflexivity|]. apply nth_error_None in E2; lia.
    + rewrite (proj2 (nth_error_None xs j)) by auto. rewrite (proj2 (nth_error_None (seq 0 _) j)) by (rewrite seq_length; auto). reflexivity.
  - destruct xs as [|x0 xt] eqn:Ex; [eexists; reflexivity|]. rewrite <- Ex.
    assert (Hn : xs <> []) by (rewrite Ex; discriminate).
    rewrite (delay_feed d f s xs []) by (rewrite ?app_nil_r; auto; lia). cbn [bind fst snd]. eexists. do 2 f_equal.
    apply map_ext_in. intros n Hin. apply in_seq in Hin. unfold delay_out, delay_lim. rewrite app_nil_r.
    assert (Hlim : d <= match s with ShTrue => 2 * d | _ => d end) by (destruct s; lia).
    destruct (Nat.leb_spec (match s with ShTrue => 2 * d | _ => d end) n), (Nat.ltb_spec n (match s with ShTrue => 2 * d | _ => d end)); try lia; [|reflexivity].
    unfold ext_clip. replace (Z.of_nat n - Z.of_nat d <? 0)%Z with false by lia.
    replace (Z.to_nat (Z.of_nat n - Z.of_nat d)) with (n - d) by lia. symmetry. apply nth_error_nth'. lia.
Qed.

Lemma feed_skip_md n xs : exists m', feed (nstep true) (MSkip n (skip_init n)) xs
  = Ok (map (fun i => if Nat.ltb i n then None else nth_error xs i) (seq 0 (length xs)), m').
Proof.
  rewrite (feed_wrap (MSkip n) (fun o x => skip_forward_step n o x true) (HW_skip n)).
  destruct (skip_feed n xs) as [o ->]. eexists. reflexivity.
Qed.

Theorem residual_step sh m0 tf r rs m xs ws ys :
  net sh m0 -> residual m0 tf r rs = Ok m -> nfwd m0 (xs ++ ws) = Ok ys ->
  exists m', feed (nstep true) m xs
    = Ok (map (fun n => if Nat.ltb n (Z.to_nat (del m0)) then None
                        else opt_op r (nth_error xs (n - res_offset m0 rs)) (nth_error ys (n - Z.to_nat (del m0))))
              (seq 0 (length xs)), m').
Proof.
  intros Hn Hres E. destruct (net_sched sh m0 xs ws ys Hn E) as [m1 Ef].
  destruct (net_core sh m0 Hn) as [Hc []]. unfold residual in Hres.
  destruct (negb (strd m0 =? 1)%Z) eqn:Es; [discriminate|].
  replace (Z.to_nat (strd m0)) with 1 in Ef by lia.
  set (D := Z.to_nat (del m0)) in *.
  assert (Key : forall br L O, ok br -> (exists b', feed (nstep true) br xs
       = Ok (map (fun n => if Nat.ltb n L then None else nth_error xs (n - O)) (seq 0 (length xs)), b')) ->
     L <= D -> mk_br [br; m0] r false = Ok m ->
     exists m', feed (nstep true) m xs
      = Ok (map (fun n => if Nat.ltb n D then None else opt_op r (nth_error xs (n - O)) (nth_error ys (n - D)))
              (seq 0 (length xs)), m')).
  { intros br L O B1 [b' Eb] HL Hmk. apply mk_br_inv in Hmk as (-> & _ & _). eexists.
    match type of Eb with _ = Ok ?p => match type of Ef with _ = Ok ?q => rewrite (feed_br xs r [br; m0] [p; q]) end end; [|discriminate|simpl; lia|auto|constructor; [exact Eb|constructor; [exact Ef|constructor]]].
    cbn [map fst redl fold_left]. rewrite zipo_maps. do 2 f_equal. apply map_ext. intros n.
    unfold scheduled, emits. rewrite Nat.div_1_r, Nat.mod_1_r. cbn [Nat.eqb].
    destruct (Nat.leb_spec D n), (Nat.ltb_spec n D), (Nat.ltb_spec n L); try lia; cbn [andb]; try reflexivity.
    destruct (nth_error xs (n - O)); reflexivity. }
  assert (KD : forall d s O, (0 <= d)%Z -> (match s with ShTrue => 2 * Z.to_nat d | _ => Z.to_nat d end) <= D -> O = Z.to_nat d ->
     mk_br [MDelay (Z.to_nat d) tf s obj_init; m0] r false = Ok m ->
     exists m', feed (nstep true) m xs
      = Ok (map (fun n => if Nat.ltb n D then None else opt_op r (nth_error xs (n - O)) (nth_error ys (n - D)))
              (seq 0 (length xs)), m')).
  { intros d s O Hd HL -> Hmk. eapply Key; [..|exact Hmk]; [simpl; auto|apply feed_delay_md|exact HL]. }
  unfold res_offset. fold D.
  destruct (rfield m0 - padg m0 * 2 =? 1)%Z eqn:Er; [|destruct rs]; cbn [bind] in Hres.
  - destruct (del m0 <? 0)%Z eqn:Ed; [discriminate|]. cbn [bind] in Hres. eapply KD; [..|exact Hres]; cbv iota; unfold D; try lia.
  - destruct (del m0 <? 0)%Z eqn:Ed; [discriminate|]. cbn [bind] in Hres. eapply KD; [..|exact Hres]; cbv iota; unfold D; try lia.
  - destruct (del m0 mod 2 =? 0)%Z eqn:E2; [|discriminate]. cbn [bind] in Hres.
    destruct (del m0 / 2 <? 0)%Z eqn:Ed; [discriminate|]. cbn [bind] in Hres. eapply KD; [..|exact Hres]; cbv iota; unfold D; try lia.
  - destruct (del m0 mod 2 =? 0)%Z eqn:E2; [|discriminate]. cbn [bind] in Hres.
    destruct (del m0 / 2 <? 0)%Z eqn:Ed; [discriminate|]. cbn [bind] in Hres. eapply KD; [..|exact Hres]; cbv iota; unfold D; try lia.
  - destruct (del m0 <? 0)%Z eqn:Ed; [discriminate|]. cbn [bind] in Hres. eapply KD; [..|exact Hres]; cbv iota; unfold D; try lia.
  - destruct (0 <? del m0)%Z eqn:Ed; [|discriminate]. cbn [bind] in Hres.
    destruct (feed_skip_md (Z.to_nat (del m0)) xs) as [b' Eb].
    eapply (Key _ D 0); [..|exact Hres]; [simpl; unfold skip_init; lia| |lia].
    exists b'. rewrite Eb. do 2 f_equal. apply map_ext. intros n. rewrite Nat.sub_0_r. reflexivity.
Qed.

(* ------------------------------------------------------------------ *)
(** ** warm_up *)

Lemma pat_app d s : forall n, pat d s (d + n) = repeat false d ++ pat 0 s n.
Proof. induction d as [|d IH]; intros n; [reflexivity|]. cbn [Nat.add pat repeat app]. now rewrite <- IH. Qed.

Theorem warm_up_emits sh m z xs : net sh m -> (0 < del m)%Z ->
  exists m1 ys m2, warm_up m z = Ok m1 /\ feed (nstep true) m1 xs = Ok (ys, m2) /\
    map is_some ys = map (fun n => Nat.eqb (n mod Z.to_nat (strd m)) 0) (seq 0 (length xs)).
Proof.
  intros Hn Hd. destruct (net_core sh m Hn) as [Hc []]. set (w := repeat z (Z.to_nat (del m))).
  assert (Hw : w <> []) by (subst w; destruct (Z.to_nat (del m)) eqn:E; [lia|discriminate]).
  destruct (steps_good m inv_ok w Hw) as (os & m1 & E1 & E2 & _).
  destruct (feed_good (w ++ xs) m inv_ok) as (ys & m2 & Ef & _ & _ & Hp).
  rewrite feed_app, E1 in Ef. cbn [bind fst snd] in Ef.
  destruct (feed (nstep true) m1 xs) as [[y2 m3]|] eqn:E3; [|discriminate]. cbn [bind fst snd] in Ef. injection Ef as <- <-.
  exists m1, y2, m3. split; [unfold warm_up; fold w; rewrite E2; reflexivity|]. split; [auto|].
  rewrite app_length, map_app in Hp. assert (Lw : length w = ph m) by (subst w; rewrite repeat_length; lia).
  rewrite Lw, pat_app in Hp.
  assert (Lo : length os = ph m) by (rewrite <- Lw; eapply feed_length; eauto).
  assert (H2 : map is_some y2 = pat 0 (per m) (length xs)).
  { apply (f_equal (skipn (ph m))) in Hp. rewrite !skipn_app, map_length, repeat_length, Lo in Hp.
    rewrite (skipn_all2 (map is_some os)) in Hp by (rewrite map_length; lia).
    rewrite (skipn_all2 (repeat false (ph m))) in Hp by (rewrite repeat_length; lia).
    rewrite Nat.sub_diag in Hp. exact Hp. }
  rewrite H2, pat_emits0 by (apply per_pos; auto). apply map_ext. intros n. unfold emits.
  replace (Z.to_nat (strd m)) with (per m) by lia. rewrite Nat.sub_0_r. reflexivity.
Qed.

Lemma seq_from a n : seq a n = map (fun i => a + i) (seq 0 n).
Proof. revert a. induction n as [|n IH]; intros a; [reflexivity|]. cbn [seq map]. rewrite (IH (S a)), (IH 1), map_map. f_equal; [lia|]. apply map_ext. intros; lia. Qed.

Theorem warm_up_values sh m z xs ws zs : net sh m -> (0 < del m)%Z ->
  nfwd m (repeat z (Z.to_nat (del m)) ++ xs ++ ws) = Ok zs ->
  exists m1 m2, warm_up m z = Ok m1 /\ feed (nstep true) m1 xs
    = Ok (map (fun n => if Nat.eqb (n mod Z.to_nat (strd m)) 0 then nth_error zs (n / Z.to_nat (strd m)) else None)
              (seq 0 (length xs)), m2).
Proof.
  intros Hn Hd E. set (D := Z.to_nat (del m)) in *. set (w := repeat z D) in *.
  assert (Hw : w <> []) by (subst w; destruct D eqn:ED; [lia|discriminate]).
  rewrite app_assoc in E. destruct (net_sched sh m _ _ _ Hn E) as [m2 Ef]. fold D in Ef.
  destruct (net_core sh m Hn) as [Hc []].
  destruct (steps_good m inv_ok w Hw) as (os & m1 & E1 & E2 & _).
  rewrite feed_app, E1 in Ef. cbn [bind fst snd] in Ef.
  destruct (feed (nstep true) m1 xs) as [[y2 m3]|] eqn:E3; [|discriminate]. cbn [bind fst snd] in Ef. injection Ef as Ey <-.
  exists m1, m3. split; [unfold warm_up; fold D; fold w; rewrite E2; reflexivity|]. rewrite E3. do 2 f_equal.
  assert (Lw : length w = D) by (subst w; apply repeat_length).
  assert (Lo : length os = D) by (rewrite <- Lw; eapply feed_length; eauto).
  rewrite app_length, Lw, seq_app, map_app in Ey.
  apply (f_equal (skipn D)) in Ey. rewrite !skipn_app, Lo, map_length, seq_length, Nat.sub_diag in Ey.
  rewrite (skipn_all2 os) in Ey by lia. rewrite (skipn_all2 (map _ (seq 0 D))) in Ey by (rewrite map_length, seq_length; lia).
  cbn [skipn app] in Ey. rewrite Ey. rewrite Nat.add_0_l. rewrite seq_from, map_map. apply map_ext. intros n.
  unfold scheduled, emits. replace (D + n - D) with n by lia. replace (D <=? D + n) with true by lia. reflexivity.
Qed.

End NetRes.
