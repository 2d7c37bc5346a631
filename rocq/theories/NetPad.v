(** Networks: [forward_steps] with [pad_end] against [forward]. *)
From Coq Require Import List ZArith Bool Arith Lia ZifyBool ZifyNat.
From Verif Require Import Base Frames CoMod Leaf Rnn Net Spec LeafSpec Ring LeafProof LeafMore NetSpec NetOk Calls NetDef NetCore NetFwd.
Import ListNotations.
Ltac Zify.zify_post_hook ::= Z.div_mod_to_equations.

Section NetPad.
Context {F : Type} {FA : Frames F} {FL : FrameLaws F}.
Implicit Types m : md F.
Implicit Types ms : list (md F).
Implicit Types xs zs : list F.

(* ------------------------------------------------------------------ *)
(** ** Empty clips *)

Lemma fwd_nil sh m : core sh m -> forall zs, nfwd m [] = Ok zs -> zs = [].
Proof.
  induction 1 as [c H|c H Hp|d f s Hs|n|g|c|ms Hms IH|m t r Hms IH Ht Hsy Hsl]; intros zs E.
  - unfold nfwd in E. cbn [fwd] in E. destruct (conv_forward c []) eqn:Ef; [|discriminate].
    destruct (conv_forward_inv _ _ _ H Ef) as [Hx _]. congruence.
  - unfold nfwd in E. cbn [fwd] in E. destruct (pool_forward c []) eqn:Ef; [|discriminate].
    destruct (pool_forward_inv _ _ _ H Ef) as [Hx _]. congruence.
  - unfold nfwd in E. cbn [fwd bind] in E. injection E as <-. unfold delay_forward, slice_ab. 
    destruct (d =? 0), s; simpl; rewrite ?firstn_nil, ?skipn_nil; reflexivity.
  - unfold nfwd in E. cbn [fwd bind] in E. injection E as <-. unfold skip_forward. now rewrite ?skipn_nil.
  - unfold nfwd in E. cbn [fwd bind] in E. injection E as <-. reflexivity.
  - discriminate.
  - revert zs E. assert (Hc : Forall isclip ms) by (apply Forall_forall; intros; eapply core_isclip; eauto).
    clear Hms. induction ms as [|m t IHt]; intros zs E; [unfold nfwd in E; cbn in E; congruence|].
    inversion Hc; subst. apply seq_fwd_cons in E as (y & E1 & E2); auto.
    apply IH in E1; [|left; auto]. subst. apply IHt in E2; auto. intros; eapply IH; [right; eauto|eauto].
  - apply br_fwd_inv in E as (zss & n & HF & -> & Hn); auto.
    2:{ apply Forall_forall; intros; eapply core_isclip; eauto. }
    assert (Hz : Forall (fun z => length z = 0) zss).
    { apply Forall_forall. intros z Hz. destruct (F2_in_r _ _ _ z HF Hz) as (a & Ha & Ea).
      rewrite (IH a Ha z Ea). reflexivity. }
    pose proof (redz_length r 0 zss) as L. destruct (redz r zss); [reflexivity|].
    simpl in L. assert (zss <> []) by (intros ->; inversion HF). specialize (L H Hz). discriminate.
Qed.

(* ------------------------------------------------------------------ *)
(** ** A final call with [pad_end] after a history of single frames *)

Definition fin m := forall xs1 xs2 zs os m1, xs2 <> [] -> nfwd m (xs1 ++ xs2) = Ok zs ->
  feed (nstep true) m xs1 = Ok (os, m1) -> (xs1 = [] \/ ph m1 < length xs2) ->
  exists m2 rest, steps m1 (VS xs2) true true = Ok (of_clip (stack_outs rest), m2) /\ somes os ++ rest = zs.

Lemma fin_conv c : conv_ok c -> fin (MConv c obj_init).
Proof.
  intros Hc xs1 xs2 zs os m1 Hx E Ef _. unfold nfwd in E. cbn [fwd] in E.
  destruct (conv_forward c (xs1 ++ xs2)) as [y|] eqn:Ec; [|discriminate]. injection E as ->.
  destruct (conv_pad_end_thm c xs1 xs2 zs Hc Hx Ec) as (os' & o1 & o2 & rest & E1 & E2 & E3).
  rewrite (feed_wrap (MConv c) (fun o x => conv_forward_step c o x true) (HW_conv c)), E1 in Ef.
  cbn [bind fst snd] in Ef. injection Ef as <- <-.
  exists (MConv c o2), rest. cbn [steps]. rewrite E2. auto.
Qed.

Lemma fin_pool c : pool_ok c -> fin (MPool c obj_init).
Proof.
  intros Hc xs1 xs2 zs os m1 Hx E Ef _. unfold nfwd in E. cbn [fwd] in E.
  destruct (pool_forward c (xs1 ++ xs2)) as [y|] eqn:Ec; [|discriminate]. injection E as ->.
  destruct (pool_pad_end_thm c xs1 xs2 zs Hc Hx Ec) as (os' & o1 & o2 & rest & E1 & E2 & E3).
  rewrite (feed_wrap (MPool c) (fun o x => pool_forward_step c o x true) (HW_pool c)), E1 in Ef.
  cbn [bind fst snd] in Ef. injection Ef as <- <-.
  exists (MPool c o2), rest. cbn [steps]. rewrite E2. auto.
Qed.

Lemma delay_pad_mid d f sh xs1 xs2 : 0 < d -> xs2 <> [] ->
  let H := ext_clip f (xs1 ++ xs2) in
  delay_forward_steps d f sh (delay_O d sh H (length xs1)) xs2 true true
  = Ok (stack_outs (somes (map (delay_out d sh H) (seq (length xs1) (length xs2 + d)))),
        delay_O d sh H (length xs1 + length xs2)).
Proof.
  intros Hd Hx H. assert (Hl : length xs2 <> 0) by (destruct xs2; simpl; congruence).
  unfold delay_forward_steps. replace (d =? 0) with false by lia.
  assert (Hst : forall n, 0 <= n -> delay_fstep d f sh (H (Z.of_nat n)) (delay_S d sh H n)
       = Ok (delay_out d sh H n, delay_S d sh H (S n))).
  { intros n _. apply delay_closed; [lia|]. intros z Hz. apply ext_clip_pre; auto. destruct xs1; [auto|discriminate]. }
  assert (E : xs2 = clip (fun i => H (Z.of_nat i)) (length xs1) (length xs2)) by apply suffix_clip.
  rewrite E at 1.
  rewrite (co_forward_steps_pad_closed obj_get obj_set (delay_fstep d f sh) _ (delay_S d sh H) (delay_out d sh H) 0 Hst (delay_O d sh H))
     with (n := length xs1); [reflexivity|intros; apply delay_get; lia|intros; apply delay_Ob|lia|lia|].
  intros i Hi. unfold H. rewrite <- app_length. apply ext_clip_post; auto. destruct xs1; [auto|discriminate].
Qed.

Lemma fin_delay d f : fin (MDelay d f ShNo obj_init).
Proof.
  intros xs1 xs2 zs os m1 Hx E Ef _. unfold nfwd in E. cbn [fwd bind] in E. injection E as <-.
  destruct (Nat.eq_dec d 0) as [->|Hd].
  { rewrite feed_id in Ef. injection Ef as <- <-. exists (MDelay 0 f ShNo obj_init), xs2.
    rewrite somes_some. split; [|reflexivity]. simpl. destruct xs2; [congruence|reflexivity]. }
  rewrite (feed_wrap (MDelay d f ShNo) (fun o x => delay_forward_step d f ShNo o x true) (HW_delay d f ShNo)) in Ef.
  rewrite (delay_feed d f ShNo xs1 xs2) in Ef by (first [lia | destruct xs1; [auto|discriminate]]).
  cbn [bind fst snd] in Ef. injection Ef as <- <-.
  do 2 eexists. cbn [steps]. rewrite delay_pad_mid by (auto; lia). cbn [bind]. split; [reflexivity|].
  rewrite <- somes_app, <- map_app. pose proof (seq_app (length xs1) (length xs2 + d) 0) as Es. cbn [Nat.add] in Es. rewrite <- Es. clear Es.
  rewrite Nat.add_assoc, <- app_length.
  rewrite delay_somes by lia. cbn [delay_lim]. rewrite Nat.sub_diag. cbn [skipn].
  replace (length (xs1 ++ xs2) + d - d) with (length (xs1 ++ xs2)) by lia. rewrite firstn_all.
  unfold delay_forward. replace (d =? 0) with false by lia. reflexivity.
Qed.

(** Modules without end padding whose [forward] is causal. *)
Lemma fin_causal m : ok m -> causal m ->
  (forall xs os m1, feed (nstep true) m xs = Ok (os, m1) ->
     forall ys, ys <> [] -> steps m1 (VS ys) true true = steps m1 (VS ys) false true) -> fin m.
Proof.
  intros Ho Hca Hnp xs1 xs2 zs os m1 Hx E Ef _.
  destruct (Hca _ _ E) as (ys & m' & Ef2 & ->).
  destruct (feed_good xs1 m Ho) as (os' & m1' & Ef' & Ho1 & _). rewrite Ef in Ef'. injection Ef' as <- <-.
  rewrite feed_app, Ef in Ef2. cbn [bind fst snd] in Ef2.
  destruct (steps_good m1 Ho1 xs2 Hx) as (ys2 & m2 & G1 & G2 & _). rewrite G1 in Ef2. cbn [bind fst snd] in Ef2.
  injection Ef2 as <- <-. exists m2, (somes ys2). rewrite (Hnp xs1 os m1 Ef xs2 Hx), G2, somes_app. auto.
Qed.

Lemma fin_skip n : fin (MSkip n (skip_init n)).
Proof.
  apply fin_causal; [simpl; unfold skip_init; lia|apply causal_skip|].
  intros xs os m1 Ef ys _.
  rewrite (feed_wrap (MSkip n) (fun o x => skip_forward_step n o x true) (HW_skip n)) in Ef.
  destruct (feed _ (skip_init n) xs) as [[os' o']|]; [|discriminate]. injection Ef as <- <-.
  cbn [steps]. unfold skip_forward_steps, co_forward_steps. destruct (co_loop _ _ _) as [[a s]|]; [|reflexivity].
  cbn [bind end_frames co_loop fst snd]. reflexivity.
Qed.

Lemma feed_map_id (g : F -> F) xs os m1 : feed (nstep true) (MMap g) xs = Ok (os, m1) -> m1 = MMap g.
Proof.
  revert os. induction xs as [|x xs IH]; intros os; cbn [feed]; [congruence|]. unfold nstep at 1. cbn [step bind].
  destruct (feed (nstep true) (MMap g) xs) as [[o m']|] eqn:E; [|discriminate]. cbn [bind]. intros [= <- <-]. eauto.
Qed.

Lemma fin_map g : fin (MMap g).
Proof.
  apply fin_causal; [exact I|apply causal_map|]. intros xs os m1 Ef ys _. apply feed_map_id in Ef. subst. reflexivity.
Qed.

Lemma fin_rnn c : fin (MRnn c None).
Proof.
  apply fin_causal; [exact I|apply causal_rnn|]. intros xs os m1 Ef ys _.
  assert (HW : forall o x, step (MRnn c o) (VT x) true
    = bind (rnn_forward_step c o x true) (fun p => Ok (of_opt (fst p), MRnn c (snd p)))).
  { intros o x. cbn [step]. destruct (rnn_forward_step c o x true) as [[? ?]|]; reflexivity. }
  rewrite (feed_wrap (MRnn c) (fun o x => rnn_forward_step c o x true) HW) in Ef.
  destruct (feed _ None xs) as [[os' o']|]; [|discriminate]. injection Ef as <- <-. reflexivity.
Qed.

Lemma cnt_gt d s n p : 1 <= s -> d + s * p < n -> p < cnt d s n.
Proof.
  intros Hs Hn. unfold cnt. replace (n <=? d) with false by nia.
  assert (p <= (n - 1 - d) / s); [|replace (n - d - 1) with (n - 1 - d) by lia; lia].
  apply Nat.div_le_lower_bound; [lia|]. lia.
Qed.

Lemma feed_len m xs ys m' : ok m -> feed (nstep true) m xs = Ok (ys, m') ->
  length ys = length xs /\ length (somes ys) = cnt (ph m) (per m) (length xs) /\ ok m'.
Proof.
  intros Ho E. destruct (feed_good xs m Ho) as (ys2 & m2 & E2 & Ho2 & _ & Hp).
  rewrite E in E2. injection E2 as <- <-. pose proof (per_pos m Ho) as Hs.
  assert (L : length ys = length xs).
  { rewrite <- (map_length is_some), Hp, pat_emits0, map_length, seq_length by auto. reflexivity. }
  split; [auto|]. split; [|auto]. rewrite pat_emits0 in Hp by auto. rewrite <- L in *. now apply len_pat.
Qed.

Lemma fin_seq ms : Forall (fun m => isclip m /\ ok m /\ pre m /\ fin m) ms ->
  (forall m t zs, (exists a, ms = a ++ m :: t) -> nfwd (MSeq t) [] = Ok zs -> zs = []) -> fin (MSeq ms).
Proof.
  intros HF. induction HF as [|m t (Hcl & Hom & Hpm & Hfm) HF IH]; intros Hnil xs1 xs2 zs os m1 Hx E Ef Hph.
  - unfold nfwd in E. cbn [fwd seq_fwd bind] in E. injection E as <-.
    assert (Eid : feed (nstep true) (MSeq []) xs1 = Ok (map Some xs1, MSeq [])).
    { clear. induction xs1 as [|x xs IH]; [reflexivity|]. cbn [feed]. unfold nstep at 1. cbn [step seq_step bind].
      rewrite IH. reflexivity. }
    rewrite Eid in Ef. injection Ef as <- <-. exists (MSeq []), xs2. rewrite somes_some. split; [|auto].
    simpl. destruct xs2; [congruence|reflexivity].
  - apply seq_fwd_cons in E as (y & E1 & E2); auto.
    assert (Hot : ok (MSeq t)).
    { cbn [ok]. apply allP_Forall. eapply Forall_impl; [|exact HF]. tauto. }
    destruct (feed_good xs1 m Hom) as (o1 & n1 & F1 & Hon & Hper & _).
    destruct (feed_good (somes o1) (MSeq t) Hot) as (o2 & n2 & F2 & Hon2 & Hper2 & _).
    destruct (feed_seq_shape _ _ _ _ F2) as [t1 ->].
    destruct (feed_seq_cons xs1 m t o1 n1 o2 t1 F1 F2) as [G1 G2].
    rewrite G1 in Ef. injection Ef as <- <-. rewrite G2.
    assert (Hph1 : xs1 = [] \/ ph n1 < length xs2).
    { destruct Hph as [->|Hph]; [auto|]. right. change (ph (MSeq (n1 :: t1))) with (ph n1 + per n1 * ph (MSeq t1)) in Hph. nia. }
    destruct (Hfm xs1 xs2 y o1 n1 Hx E1 F1 Hph1) as (n3 & rest & S1 & <-).
    cbn [steps seq_steps stops]. rewrite S1. cbn [bind].
    destruct rest as [|r0 rt] eqn:Er.
    + (* nothing for the rest of the network *)
      destruct Hph as [->|Hph].
      * injection F1 as <- <-. cbn [somes app] in *. rewrite (Hnil m t zs (ex_intro _ [] eq_refl) E2).
        injection F2 as <- <-. exists (MSeq (n3 :: t)), []. cbn [stack_outs of_clip]. rewrite seq_steps_none. auto.
      * exfalso. (* at least one output *)
        destruct (Hpm (xs1 ++ xs2) [] (somes o1 ++ []) ) as (ya & ma & rest' & F3 & E3); [rewrite app_nil_r; auto|].
        rewrite feed_app, F1 in F3. cbn [bind fst snd] in F3.
        destruct (feed_good xs2 n1 Hon) as (y2 & n4 & F4 & _). rewrite F4 in F3. cbn [bind fst snd] in F3.
        injection F3 as <- <-. rewrite somes_app in E3. rewrite <- app_assoc in E3. apply app_inv_head in E3.
        destruct (feed_len n1 xs2 y2 n4 Hon F4) as (_ & L & _).
        change (ph (MSeq (n1 :: t1))) with (ph n1 + per n1 * ph (MSeq t1)) in Hph.
        pose proof (cnt_gt _ _ _ _ (per_pos n1 Hon) Hph). destruct (somes y2); [simpl in L; lia|discriminate].
    + rewrite <- Er in *. assert (Hr : rest <> []) by (rewrite Er; discriminate).
      assert (Hph2 : somes o1 = [] \/ ph (MSeq t1) < length rest).
      { destruct Hph as [->|Hph]; [injection F1 as <- <-; auto|]. right.
        destruct (Hpm (xs1 ++ xs2) [] (somes o1 ++ rest)) as (ya & ma & rest' & F3 & E3); [rewrite app_nil_r; auto|].
        rewrite feed_app, F1 in F3. cbn [bind fst snd] in F3.
        destruct (feed_good xs2 n1 Hon) as (y2 & n4 & F4 & _). rewrite F4 in F3. cbn [bind fst snd] in F3.
        injection F3 as <- <-. rewrite somes_app in E3. rewrite <- app_assoc in E3. apply app_inv_head in E3.
        destruct (feed_len n1 xs2 y2 n4 Hon F4) as (_ & L & _).
        change (ph (MSeq (n1 :: t1))) with (ph n1 + per n1 * ph (MSeq t1)) in Hph.
        pose proof (cnt_gt _ _ _ _ (per_pos n1 Hon) Hph). rewrite E3, app_length. lia. }
      assert (Hnil' : forall m' t' zs, (exists a, t = a ++ m' :: t') -> nfwd (MSeq t') [] = Ok zs -> zs = []).
      { intros m' t' z (a & ->). apply Hnil with m'. exists (m :: a). reflexivity. }
      destruct (IH Hnil' (somes o1) rest zs o2 (MSeq t1) Hr E2 F2 Hph2) as (n5 & rest2 & S2 & <-).
      cbn [steps] in S2.
      assert (Ec : of_clip (stack_outs rest) = VS rest) by (rewrite Er; reflexivity). rewrite Ec.
      destruct (seq_steps _ t1 (VS rest)) as [[w ms']|]; [|discriminate]. cbn [bind] in S2 |- *.
      injection S2 as -> <-. do 2 eexists. split; reflexivity.
Qed.

Lemma br_ph_eq ms r m1 : ok (MBR ms r) -> In m1 ms -> ph m1 = ph (MBR ms r).
Proof.
  destruct ms as [|m t]; [intros _ []|]. cbn [ok ph]. intros (_ & Hs & _) [<-|Hi]; [reflexivity|].
  apply allP_Forall in Hs. rewrite Forall_forall in Hs. destruct (Hs m1 Hi). congruence.
Qed.

Lemma fin_br sh m t r : core sh (MBR (m :: t) r) -> Forall isclip (m :: t) -> Forall fin (m :: t) ->
  t <> [] -> same_len (m :: t) ->
  (forall x, In x t -> ph x = ph m /\ per x = per m) -> fin (MBR (m :: t) r).
Proof.
  intros Hco Hc Hp Ht Hsl Hsy xs1 xs2 zs os m1 Hx E Ef Hph.
  assert (Hobr : ok (MBR (m :: t) r)) by (eapply core_ok; eauto).
  assert (Hok : Forall ok (m :: t)).
  { cbn [ok] in Hobr. apply allP_Forall. tauto. }
  apply br_fwd_inv in E as (zss & n & HF & -> & Hn); auto.
  assert (G0 : exists ps : list (list (option F) * md F), Forall2 (fun m p => feed (nstep true) m xs1 = Ok p) (m :: t) ps).
  { apply Forall_exists2. eapply Forall_impl; [|exact Hok]. intros a Ha.
    destruct (feed_good xs1 a Ha) as (y & a' & Ea & _). exists (y, a'). auto. }
  destruct G0 as [ps Hps].
  assert (Hfeed : feed (nstep true) (MBR (m :: t) r) xs1 = Ok (redl r (map fst ps), MBR (map snd ps) r)).
  { apply feed_br; auto; [discriminate|]. intros _. destruct t; [congruence|]. simpl. lia. }
  rewrite Hfeed in Ef. injection Ef as <- <-.
  destruct (feed_good xs1 _ Hobr) as (y' & m' & Ef' & Ho1 & _). rewrite Hfeed in Ef'. injection Ef' as <- <-.
  assert (Hpat : Forall (fun ys => map is_some ys = pat (ph m) (per m) (length xs1)) (map fst ps)).
  { apply Forall_forall. intros ys Hys. apply in_map_iff in Hys as (q & <- & Hq).
    destruct (F2_in_r _ _ _ q Hps Hq) as (a & Ha & Ea).
    rewrite Forall_forall in Hok. destruct (feed_good xs1 a (Hok a Ha)) as (ys2 & a2 & E2 & _ & _ & P).
    rewrite Ea in E2. injection E2 as ->. cbn [fst]. rewrite P.
    destruct Ha as [<-|Ha]; [reflexivity|]. destruct (Hsy a Ha) as [-> ->]. reflexivity. }
  (* every branch *)
  assert (G : exists qs : list (md F * list F), br_run (fun m v => steps m v true true) (map snd ps) (VS xs2)
       = Ok (map (fun q => of_clip (stack_outs (snd q))) qs, map fst qs) /\
     Forall2 (fun p q => (fst p, snd q) = (fst p, snd q)) ps qs /\
     zss = map (fun pq => somes (fst (fst pq)) ++ snd (snd pq)) (combine ps qs)).
  { assert (Hphs : forall q, In q ps -> xs1 = [] \/ ph (snd q) < length xs2).
    { intros q Hq. destruct Hph as [->|Hph]; [auto|]. right.
      rewrite (br_ph_eq (map snd ps) r (snd q) Ho1); auto. apply in_map; auto. }
    clear -HF Hp Hps Hphs Hx. revert zss HF Hp. induction Hps as [|a p l ps Ea Hps IH]; intros zss HF Hp.
    - inversion HF; subst. exists []. auto.
    - inversion HF as [|? z ? zt Ez Hzt]; subst. inversion Hp as [|? ? Ha Hl]; subst.
      destruct p as [os a1].
      destruct (Ha xs1 xs2 z os a1 Hx Ez Ea (Hphs _ (or_introl eq_refl))) as (a2 & rest & S & <-).
      destruct (IH (fun q Hq => Hphs q (or_intror Hq)) zt Hzt Hl) as (qs & I1 & I2 & ->).
      exists ((a2, rest) :: qs). cbn [map br_run snd fst combine]. rewrite S. cbn [bind]. rewrite I1. cbn [bind].
      repeat split; auto. }
  destruct G as (qs & S & Hl & ->). pose proof (F2_length _ _ _ Hl) as HL. pose proof (F2_length _ _ _ Hps) as HL2.
  assert (Hcm : forall {C} (g : md F * list F -> C), map (fun pq => g (snd pq)) (combine ps qs) = map g qs).
  { intros C g. clear -HL. revert qs HL. induction ps; intros [|q qs] L; try discriminate; simpl; auto. f_equal. auto. }
  assert (Hcf : forall {C} (g : list (option F) * md F -> C), map (fun pq => g (fst pq)) (combine ps qs) = map g ps).
  { intros C g. clear -HL. revert qs HL. induction ps; intros [|q qs] L; try discriminate; simpl; auto. f_equal. auto. }
  set (l0 := length (somes (hd [] (map fst ps)))).
  assert (Hfl : forall p, In p ps -> length (somes (fst p)) = l0).
  { intros p Hi. unfold l0. destruct ps as [|p0 pt]; [destruct Hi|]. cbn [map hd]. apply somes_length_pat.
    rewrite Forall_forall in Hpat. transitivity (pat (ph m) (per m) (length xs1)); [|symmetry]; apply Hpat;
    [apply in_map; auto|left; auto]. }
  assert (Hrest : Forall (fun z => length z = n - l0) (map snd qs)).
  { rewrite <- (Hcm _ snd). apply Forall_forall. intros z Hz. apply in_map_iff in Hz as ([p q] & <- & Hi).
    rewrite Forall_forall in Hn. pose proof (Hn _ (in_map (fun pq => somes (fst (fst pq)) ++ snd (snd pq)) _ _ Hi)) as L.
    cbn [fst snd] in *. rewrite app_length, Hfl in L by (eapply in_combine_l; eauto). lia. }
  assert (Hq : map snd qs <> []) by (destruct qs; [simpl in *; lia|discriminate]).
  exists (MBR (map fst qs) r), (redz r (map snd qs)). split.
  - cbn [steps]. rewrite S. cbn [bind].
    rewrite <- (map_map snd (fun z => of_clip (stack_outs z))).
    rewrite (reduce_clips_eq r (n - l0)); auto.
    intros _. rewrite map_length. destruct t; [congruence|]. simpl in *. lia.
  - rewrite (somes_redl r _ _ Hpat).
    rewrite <- (map_map (fun pq : (list (option F) * md F) * (md F * list F) => (somes (fst (fst pq)), snd (snd pq))) (fun p => fst p ++ snd p)).
    rewrite (redz_app r l0).
    + f_equal; f_equal; rewrite !map_map; cbn [fst snd]; symmetry.
      * apply (Hcf _ (fun p => somes (fst p))).
      * apply (Hcm _ snd).
    + apply Forall_forall. intros w Hw. apply in_map_iff in Hw as ([p q] & <- & Hi). cbn [fst snd].
      apply Hfl. eapply in_combine_l; eauto.
Qed.

Theorem core_fin m : core false m -> fin m.
Proof.
  intros H. pose proof H as H'. revert H'.
  induction H as [c H|c H Hp|d f s Hs|n|g|c|ms Hms IH|m t r Hms IH Ht Hsy Hsl]; intros H'.
  - now apply fin_conv.
  - now apply fin_pool.
  - destruct Hs as [->|[Hf _]]; [apply fin_delay|discriminate].
  - apply fin_skip.
  - apply fin_map.
  - apply fin_rnn.
  - apply fin_seq.
    + apply Forall_forall. intros x Hi. repeat split; [eapply core_isclip|eapply core_ok|eapply core_pre|]; eauto.
    + intros m t zs (a & ->) E. apply (fwd_nil false (MSeq t)) in E; auto. constructor.
      intros x Hi. apply Hms. apply in_or_app. right. right. auto.
  - eapply fin_br; eauto; apply Forall_forall; [intros; eapply core_isclip; eauto|auto].
Qed.

(** A clean network. *)
Theorem net_pad_end m xs zs : net false m -> xs <> [] -> nfwd m xs = Ok zs ->
  exists m', steps m (VS xs) true true = Ok (of_clip (stack_outs zs), m').
Proof.
  intros Hn Hx E. destruct (net_core false m Hn) as [Hc _].
  destruct (core_fin m Hc [] xs zs [] m Hx E eq_refl (or_introl eq_refl)) as (m2 & rest & S & <-). eauto.
Qed.

End NetPad.
