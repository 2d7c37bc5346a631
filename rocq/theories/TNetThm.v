(** Containers of tensor modules (C65). *)
From Coq Require Import List ZArith Bool Arith Lia.
From Verif Require Import Base Attn Frames CoMod Leaf Spec LeafSpec LeafProof LeafMore NetRel RelProof NetOk Ring Tensor TensorProof
  TConv TConvSpec TConvProof TPool TPoolSpec TPoolProof TAttn TAttnProof TRnn TRnnSpec TRnnProof TNet TNetSpec TNetProof TNetLeaf TNetRnn.
Import ListNotations.

Section Ind.
Context {K : Type}.
Variable P : kmod K -> Prop.
Hypothesis Hconv : forall c o, P (KConv c o).
Hypothesis Hpool : forall Q c o, P (KPool Q c o).
Hypothesis Hrnn : forall NK sg tn n o, P (KRnn NK sg tn n o).
Hypothesis Hchan : forall f, P (KChan f).
Hypothesis Hlin : forall i o w b, P (KLin i o w b).
Hypothesis Hdelay : forall d fl o, P (KDelay d fl o).
Hypothesis Hseq : forall ms, Forall P ms -> P (KSeq ms).
Hypothesis Hbr : forall r ms, Forall P ms -> P (KBR r ms).
Fixpoint kmod_ind' (m : kmod K) : P m :=
  let go := fix go (ms : list (kmod K)) : Forall P ms :=
    match ms with [] => Forall_nil _ | m :: t => Forall_cons _ (kmod_ind' m) (go t) end in
  match m with
  | KConv c o => Hconv c o
  | KPool Q c o => Hpool Q c o
  | KRnn NK sg tn n o => Hrnn NK sg tn n o
  | KChan f => Hchan f
  | KLin i o w b => Hlin i o w b
  | KDelay d fl o => Hdelay d fl o
  | KSeq ms => Hseq ms (go ms)
  | KBR r ms => Hbr r ms (go ms)
  end.
End Ind.

Section Net.
Context {K : Type} {SC : Scal K} {SL : ScalLaws K}.
Notation d0 := (T [] [] : tens K).

(** *** Sequential *)

Lemma kseq_shape xs : forall ms zs m', feed kstep (KSeq ms) xs = Ok (zs, m') -> exists ms' : list (kmod K), m' = KSeq ms'.
Proof.
  induction xs as [|x xs IH]; intros ms zs m' E; cbn [feed] in E.
  - apply ok_inj in E. injection E as _ <-. eauto.
  - cbn [kstep] in E. destruct (kseq_step kstep ms x) as [[y ms1]|]; [|discriminate]. cbn [bind] in E.
    destruct (feed kstep (KSeq ms1) xs) as [[ys m1]|] eqn:Ef; [|discriminate]. cbn [bind] in E. apply ok_inj in E. injection E as _ <-. eapply IH; eauto.
Qed.
Lemma feed_kseq xs : forall (m : kmod K) r ys m' zs r',
  feed kstep m xs = Ok (ys, m') -> feed kstep (KSeq r) (somes ys) = Ok (zs, KSeq r') ->
  feed kstep (KSeq (m :: r)) xs = Ok (weave ys zs, KSeq (m' :: r')) /\ length zs = length (somes ys).
Proof.
  induction xs as [|x xs IH]; intros m r ys m' zs r' E1 E2; cbn [feed] in E1.
  - apply ok_inj in E1. injection E1 as <- <-. cbn [somes feed] in E2. apply ok_inj in E2. injection E2 as <- <-. split; reflexivity.
  - destruct (kstep m x) as [[y m1]|] eqn:Es; [|discriminate]. cbn [bind] in E1.
    destruct (feed kstep m1 xs) as [[ys1 m2]|] eqn:Ef; [|discriminate]. cbn [bind] in E1. apply ok_inj in E1. injection E1 as <- <-.
    cbn [feed kstep kseq_step]. rewrite Es. cbn [bind]. destruct y as [y|].
    + cbn [somes feed kstep] in E2. destruct (kseq_step kstep r y) as [[z r1]|]; [|discriminate]. cbn [bind] in *.
      destruct (feed kstep (KSeq r1) (somes ys1)) as [[zs1 mt]|] eqn:Ez; [|discriminate]. cbn [bind] in E2. apply ok_inj in E2. injection E2 as <- ->.
      destruct (IH m1 r1 ys1 m2 zs1 r' Ef Ez) as [I1 I2]. rewrite I1. cbn [bind weave somes length]. auto.
    + cbn [somes] in E2. destruct (IH m1 r ys1 m2 zs r' Ef E2) as [I1 I2]. cbn [bind]. rewrite I1. cbn [bind weave somes]. auto.
Qed.

Lemma kout_cons m (r : list (kmod K)) C sp : kout (KSeq (m :: r)) C sp = kout (KSeq r) (fst (kout m C sp)) (snd (kout m C sp)).
Proof. cbn [kout fold_left fst snd]. rewrite <- surjective_pairing. reflexivity. Qed.

Lemma seq_nil_good B C sp t : 1 <= t -> good B (KSeq []) C sp C sp t.
Proof.
  intros Ht. apply (map_good _ _ _ _ _ _ _ (fun x => x)); auto.
  intros xs Hne HF. rewrite map_id. split; [reflexivity|]. intros pe. reflexivity.
Qed.

Lemma seq_cons_good B m r C sp C1 sp1 C2 sp2 t : 1 <= t -> good B m C sp C1 sp1 t -> good B (KSeq r) C1 sp1 C2 sp2 (klen m t) ->
  good B (KSeq (m :: r)) C sp C2 sp2 t.
Proof.
  intros Ht G1 G2. pose proof G1 as G1'. pose proof G2 as G2'. destruct G1' as [S1 L1 V1 R1], G2' as [S2 L2 V2 R2].
  assert (Es : kstr (KSeq (m :: r)) = kstr m * kstr (KSeq r)) by reflexivity.
  assert (Ed : kdel (KSeq (m :: r)) = kdel m + kstr m * kdel (KSeq r)) by reflexivity.
  assert (El : klen (KSeq (m :: r)) t = klen (KSeq r) (klen m t)) by reflexivity.
  constructor; rewrite ?Es, ?Ed, ?El.
  - nia.
  - exact L2.
  - nia.
  - intros xs Hl HF. destruct (R1 xs Hl HF) as (ys & Y1 & Y2 & Y3 & Y4 & m1 & Y5).
    destruct (R2 ys Y2 Y1) as (zs & Z1 & Z2 & Z3 & Z4 & m2 & Z5). exists zs. split; [exact Z1|]. split; [exact Z2|]. split; [|split].
    + cbn [kfwd kseq_fwd]. rewrite Y3. cbn [bind]. exact Z3.
    + intros n Hn. destruct (Y4 n Hn) as (m' & A1 & A2).
      assert (Hc : n <= kdel m + kstr m * length ys) by (rewrite Y2; lia).
      assert (Hk : cnt (kdel m) (kstr m) n <= klen m t) by (rewrite <- Y2; apply cnt_le; assumption).
      assert (So : somes (sched m ys n) = firstn (cnt (kdel m) (kstr m) n) ys) by (apply sched_somes; assumption).
      destruct (Z4 _ Hk) as (m2' & B1 & B2). destruct (kseq_shape _ _ _ _ B1) as (r' & ->). rewrite <- So in B1.
      destruct (feed_kseq _ _ _ _ _ _ _ A1 B1) as [F1 F2]. exists (KSeq (m' :: r')).
      assert (Ew : weave (sched m ys n) (sched (KSeq r) zs (cnt (kdel m) (kstr m) n)) = sched (KSeq (m :: r)) zs n)
        by (unfold sched; rewrite Es, Ed; apply weave_sched; assumption).
      rewrite <- Ew. split; [exact F1|]. intros Hn1. cbn [ksteps kseq_step]. rewrite (A2 Hn1). cbn [bind].
      rewrite weave_somes by exact F2. rewrite So.
      destruct (Nat.eq_dec (cnt (kdel m) (kstr m) n) 0) as [E0|E0].
      * rewrite E0. cbn [firstn clip_of bind sched seq map somes]. rewrite So, E0 in B1. cbn [firstn feed] in B1. apply ok_inj in B1. injection B1 as <-. reflexivity.
      * rewrite (clip_of_clip B C1 sp1).
        -- specialize (B2 ltac:(lia)). cbn [ksteps] in B2. destruct (kseq_step (ksteps false) r _) as [[w r2]|]; [|discriminate].
           cbn [bind] in *. apply ok_inj in B2. injection B2 as -> ->. reflexivity.
        -- apply firstn_fr. exact Y1.
        -- intros E. apply (f_equal (@length _)) in E. rewrite firstn_length_le in E by lia. cbn in E. lia.
    + cbn [ksteps kseq_step]. rewrite Y5. cbn [bind]. cbn [ksteps] in Z5. destruct (kseq_step (ksteps true) r _) as [[w r2]|]; [|discriminate].
      cbn [bind] in *. apply ok_inj in Z5. injection Z5 as -> _. eauto.
Qed.

(** *** Reductions *)

Lemma combine_tab {A} s (op : K -> K -> A) : forall f g : list nat -> K,
  map (fun p => op (fst p) (snd p)) (combine (tab s f) (tab s g)) = tab s (fun ix => op (f ix) (g ix)).
Proof.
  induction s as [|n r IH]; intros f g; [reflexivity|]. cbn [tab]. generalize 0. induction n as [|n IHn]; intros a; [reflexivity|].
  cbn [seq flat_map].
  assert (E : forall (a b c d : list K), length a = length c -> combine (a ++ b) (c ++ d) = combine a c ++ combine b d).
  { clear. induction a as [|x a IH]; intros b [|y c] d H; try discriminate; [reflexivity|]. cbn. f_equal. apply IH. injection H as H. exact H. }
  rewrite E by (rewrite !tab_len; reflexivity). rewrite map_app, IH, IHn. reflexivity.
Qed.

Lemma shape_eqb_ok s : shape_eqb s s = true.
Proof. unfold shape_eqb. destruct (list_eq_dec Nat.eq_dec s s); [reflexivity|congruence]. Qed.

Definition val2 (f : tens K -> tens K -> res (tens K)) (p : tens K * tens K) : tens K :=
  match f (fst p) (snd p) with Ok z => z | Err _ => fst p end.
Definition zip (f : tens K -> tens K -> res (tens K)) (xs ys : list (tens K)) : list (tens K) := map (val2 f) (combine xs ys).
Lemma zip_len f xs ys : length xs = length ys -> length (zip f xs ys) = length xs.
Proof. intros E. unfold zip. rewrite map_length, combine_length. lia. Qed.
Lemma zip_nth f xs ys i : length xs = length ys -> i < length xs -> nth i (zip f xs ys) d0 = val2 f (nth i xs d0, nth i ys d0).
Proof. intros E Hi. unfold zip. rewrite (nth_map_in _ _ i (d0, d0)) by (rewrite combine_length; lia). rewrite combine_nth by exact E. reflexivity. Qed.
Lemma zip_firstn f n : forall xs ys, firstn n (zip f xs ys) = zip f (firstn n xs) (firstn n ys).
Proof. unfold zip. induction n as [|n IH]; intros [|x xs] [|y ys]; cbn; try reflexivity. f_equal. apply IH. Qed.

Definition el_cond (a b : nat) : Prop := a = b.
Definition comb (r : kred K) (a b : nat) : nat := match r with KEl _ => a | KCat => a + b end.
Definition cond (r : kred K) (a b : nat) : Prop := match r with KEl _ => b = a | KCat => True end.
Definition op2 (r : kred K) : tens K -> tens K -> res (tens K) := match r with KEl op => el2 op | KCat => cat2 end.

Lemma el2_tab op s (x y : tens K) : sh x = s -> sh y = s -> length (dat x) = size s -> length (dat y) = size s ->
  el2 op x y = Ok (T s (tab s (fun ix => op (at_ s (dat x) (map Z.of_nat ix)) (at_ s (dat y) (map Z.of_nat ix))))).
Proof.
  intros Ex Ey Lx Ly. unfold el2. rewrite Ex, Ey, shape_eqb_ok. do 2 f_equal.
  rewrite <- combine_tab, !tab_at by assumption. reflexivity.
Qed.
Lemma op2_fr r B C1 C2 sp x y : fr B C1 sp x -> fr B C2 sp y -> cond r C1 C2 ->
  op2 r x y = Ok (val2 (op2 r) (x, y)) /\ fr B (comb r C1 C2) sp (val2 (op2 r) (x, y)).
Proof.
  intros [Ex Lx] [Ey Ly] Hc. unfold val2. cbn [fst snd]. destruct r as [op|]; cbn [op2 comb cond] in *.
  - subst C2. rewrite (el2_tab op (B :: C1 :: sp) x y) by assumption. split; [reflexivity|]. split; [reflexivity|]. cbn [dat]. apply tab_len.
  - unfold cat2. rewrite Ex, Ey, Nat.eqb_refl, shape_eqb_ok. cbn [andb]. split; [reflexivity|]. split; [reflexivity|]. cbn [dat]. apply tab_len.
Qed.
Lemma zip_fr r B C1 C2 sp xs ys : length xs = length ys -> Forall (fr B C1 sp) xs -> Forall (fr B C2 sp) ys -> cond r C1 C2 ->
  Forall (fr B (comb r C1 C2) sp) (zip (op2 r) xs ys).
Proof.
  intros El HX HY Hc. revert ys El HY. induction HX as [|x xs Hx _ IH]; intros [|y ys] El HY; try discriminate; [constructor|].
  inversion HY; subst. unfold zip. cbn [combine map]. constructor; [apply op2_fr; assumption|]. apply IH; [injection El as El; exact El|assumption].
Qed.
Lemma op2_clip r B C1 C2 sp xs ys : length xs = length ys -> Forall (fr B C1 sp) xs -> Forall (fr B C2 sp) ys -> cond r C1 C2 ->
  op2 r (clip B C1 sp xs) (clip B C2 sp ys) = Ok (clip B (comb r C1 C2) sp (zip (op2 r) xs ys)).
Proof.
  intros El HX HY Hc. pose proof (zip_fr r B C1 C2 sp xs ys El HX HY Hc) as HZ. pose proof (zip_len (op2 r) xs ys El) as LZ.
  destruct r as [op|] eqn:Er; cbn [op2 comb cond] in *.
  - subst C2. rewrite (el2_tab op (B :: C1 :: length xs :: sp)); [|reflexivity|cbn [clip sh]; rewrite El; reflexivity|cbn [clip dat]; rewrite stack_len, map_length; reflexivity|cbn [clip dat]; rewrite stack_len, map_length, El; reflexivity].
    f_equal. rewrite <- LZ. apply clip_tab; [exact HZ|]. intros b c i q d Hb Hc Hi Hq. rewrite LZ in *.
    assert (Hin : inr (b :: c :: q) (B :: C1 :: sp)) by (repeat (constructor; [assumption|]); exact Hq).
    rewrite (nth_indep _ d d0) by (rewrite LZ; exact Hi). rewrite zip_nth by assumption. cbn [clip dat].
    rewrite (at_clip B C1 sp xs b c i q d0) by assumption. rewrite El. rewrite (at_clip B C1 sp ys b c i q d0) by (assumption || lia).
    assert (Hx : fr B C1 sp (nth i xs d0)) by (rewrite Forall_forall in HX; apply HX, nth_In, Hi).
    assert (Hy : fr B C1 sp (nth i ys d0)) by (rewrite Forall_forall in HY; apply HY, nth_In; lia).
    unfold val2. cbn [fst snd]. destruct Hx as [Ex Lx], Hy as [Ey Ly]. rewrite (el2_tab op (B :: C1 :: sp) _ _ Ex Ey Lx Ly). cbn [dat].
    rewrite at_tab_in by exact Hin. reflexivity.
  - set (zz := zip cat2 xs ys) in *. unfold cat2. cbn [clip sh dat]. rewrite <- El, Nat.eqb_refl, shape_eqb_ok. cbn [andb]. f_equal. rewrite <- LZ. apply clip_tab; [exact HZ|].
    intros b c i q d Hb Hc' Hi Hq. rewrite LZ in *. rewrite (nth_indep _ d d0) by (rewrite LZ; exact Hi). unfold zz. rewrite zip_nth by assumption.
    assert (Hx : fr B C1 sp (nth i xs d0)) by (rewrite Forall_forall in HX; apply HX, nth_In, Hi).
    assert (Hy : fr B C2 sp (nth i ys d0)) by (rewrite Forall_forall in HY; apply HY, nth_In; lia).
    unfold val2. cbn [fst snd]. unfold cat2. destruct Hx as [Ex Lx], Hy as [Ey Ly]. rewrite Ex, Ey, Nat.eqb_refl, shape_eqb_ok. cbn [andb dat].
    rewrite at_tab_in by (repeat (constructor; [assumption|]); exact Hq).
    destruct (Nat.ltb_spec c C1) as [Hlt|Hlt].
    + apply at_clip; [exact Hi|]. repeat (constructor; [assumption|]). exact Hq.
    + rewrite El. apply at_clip; [lia|]. constructor; [exact Hb|]. constructor; [lia|exact Hq].
Qed.

(** Branch results with their channels. *)
Definition brs := list (nat * list (tens K)).
Fixpoint allc (r : kred K) (C : nat) (l : list nat) : Prop :=
  match l with [] => True | c :: t => cond r C c /\ allc r (comb r C c) t end.
Lemma kfold_ok r B sp L : forall (rest : brs) C xs,
  length xs = L -> Forall (fr B C sp) xs -> Forall (fun p => length (snd p) = L /\ Forall (fr B (fst p) sp) (snd p)) rest ->
  allc r C (map fst rest) ->
  let Co := fold_left (comb r) (map fst rest) C in
  let zs := fold_left (zip (op2 r)) (map snd rest) xs in
  length zs = L /\ Forall (fr B Co sp) zs /\
  (forall i, i < L -> kfold (op2 r) (nth i xs d0) (map (fun p => nth i (snd p) d0) rest) = Ok (nth i zs d0)) /\
  (forall n, kfold (op2 r) (clip B C sp (firstn n xs)) (map (fun p => clip B (fst p) sp (firstn n (snd p))) rest) = Ok (clip B Co sp (firstn n zs))).
Proof.
  induction rest as [|[C2 ys] rest IH]; intros C xs Hl HX HR Ha; cbn [map fst snd fold_left allc] in *.
  - cbv zeta. cbn [kfold]. auto.
  - inversion HR as [|? ? [Hl2 HY] HR']; subst. cbn [fst snd] in *. destruct Ha as [Hc Ha].
    assert (El : length xs = length ys) by lia.
    destruct (IH (comb r C C2) (zip (op2 r) xs ys)) as (I1 & I2 & I3 & I4); auto.
    { apply zip_len; exact El. }
    { apply zip_fr; assumption. }
    split; [exact I1|]. split; [exact I2|]. split.
    + intros i Hi. cbn [kfold].
      assert (Hx : fr B C sp (nth i xs d0)) by (rewrite Forall_forall in HX; apply HX, nth_In, Hi).
      assert (Hy : fr B C2 sp (nth i ys d0)) by (rewrite Forall_forall in HY; apply HY, nth_In; lia).
      rewrite (proj1 (op2_fr r B C C2 sp _ _ Hx Hy Hc)). cbn [bind]. rewrite <- zip_nth by assumption. apply I3. exact Hi.
    + intros n. cbn [kfold]. rewrite op2_clip; [|rewrite !firstn_length; lia|apply firstn_fr; assumption|apply firstn_fr; assumption|exact Hc].
      cbn [bind]. rewrite <- zip_firstn. apply I4.
Qed.

Lemma all_some_map {A} (l : list A) : all_some (map Some l) = Some l.
Proof. induction l as [|a l IH]; [reflexivity|]. cbn. rewrite IH. reflexivity. Qed.
Lemma kreduce_ok r x (l : list (tens K)) B : 1 <= B -> (match r with KEl _ => l <> [] | KCat => True end) ->
  Forall (fun x => exists s, sh x = B :: s) (x :: l) ->
  kreduce_some r (map Some (x :: l)) = bind (kfold (op2 r) x l) (fun y => Ok (Some y)).
Proof.
  intros HB Hn HF. unfold kreduce_some. rewrite all_some_map.
  assert (E : existsb no_batch (x :: l) = false).
  { clear Hn. induction HF as [|y t [s E] _ IH]; [reflexivity|]. cbn [existsb]. rewrite IH, orb_false_r. unfold no_batch. rewrite E. destruct B; [lia|reflexivity]. }
  rewrite E. f_equal. unfold kreduce. destruct r; [destruct l; [congruence|]|]; reflexivity.
Qed.

(** *** BroadcastReduce *)

Lemma kbr_fwd_ok fw (ms : list (kmod K)) x ys : Forall2 (fun m y => fw m x = Ok y) ms ys -> kbr_fwd fw ms x = Ok ys.
Proof. induction 1 as [|m y ms ys E _ IH]; [reflexivity|]. cbn [kbr_fwd]. rewrite E. cbn [bind]. rewrite IH. reflexivity. Qed.
Lemma kbr_step_ok st (ms : list (kmod K)) x ps : Forall2 (fun m p => st m x = Ok p) ms ps -> kbr_step st ms x = Ok (map fst ps, map snd ps).
Proof. induction 1 as [|m [y m'] ms ps E _ IH]; [reflexivity|]. cbn [kbr_step]. rewrite E. cbn [bind]. rewrite IH. reflexivity. Qed.

Lemma feed_kbr r xs : forall (ms : list (kmod K)) ps zs,
  Forall2 (fun m p => feed kstep m xs = Ok p) ms ps -> length zs = length xs ->
  (forall i, i < length xs -> kreduce_some r (map (fun p => nth i (fst p) None) ps) = Ok (nth i zs None)) ->
  feed kstep (KBR r ms) xs = Ok (zs, KBR r (map snd ps)).
Proof.
  induction xs as [|x xs IH]; intros ms ps zs HF Hl HR.
  - destruct zs; [|discriminate]. cbn [feed]. do 3 f_equal. induction HF as [|m p ms ps E _ IH]; [reflexivity|]. cbn [map feed] in *.
    apply ok_inj in E. subst p. cbn [snd]. f_equal. apply IH. intros i Hi. cbn in Hi. lia.
  - destruct zs as [|z zs]; [discriminate|].
    assert (D : exists qs rs, Forall2 (fun m q => kstep m x = Ok q) ms qs /\
      Forall2 (fun m p => feed kstep m xs = Ok p) (map snd qs) rs /\ map fst qs = map (fun p => nth 0 (fst p) None) ps /\
      map snd rs = map snd ps /\ forall i, map (fun p => nth i (fst p) None) rs = map (fun p => nth (S i) (fst p) None) ps).
    { clear HR Hl IH. induction HF as [|m p ms ps E _ IHF].
      - exists [], []. repeat split; constructor.
      - destruct IHF as (qs & rs & I1 & I2 & I3 & I4 & I5). cbn [feed] in E. destruct (kstep m x) as [[y m1]|] eqn:Es; [|discriminate]. cbn [bind] in E.
        destruct (feed kstep m1 xs) as [[ys m2]|] eqn:Ef; [|discriminate]. cbn [bind] in E. apply ok_inj in E. subst p.
        exists ((y, m1) :: qs), ((ys, m2) :: rs). split; [constructor; assumption|]. split; [constructor; assumption|].
        cbn [map fst snd nth]. split; [congruence|]. split; [congruence|]. intros i. f_equal. apply I5. }
    destruct D as (qs & rs & D1 & D2 & D3 & D4 & D5).
    cbn [feed kstep]. rewrite (kbr_step_ok _ _ _ _ D1). cbn [bind]. rewrite D3, (HR 0) by (cbn; lia). cbn [bind nth].
    rewrite (IH (map snd qs) rs zs D2); [cbn [bind]; rewrite D4; reflexivity|cbn in Hl; lia|].
    intros i Hi. rewrite D5. rewrite (HR (S i)) by (cbn; lia). reflexivity.
Qed.

Lemma fold_comb_el op l C : Forall (fun c => c = C) l -> allc (KEl op) C l /\ fold_left (comb (KEl op)) l C = C.
Proof. induction 1 as [|c l E _ IH]; [split; reflexivity|]. subst c. cbn [allc cond comb fold_left]. tauto. Qed.
Lemma fold_comb_cat l C : allc KCat C l /\ fold_left (comb KCat) l C = C + fold_right Nat.add 0 l.
Proof.
  revert C. induction l as [|c l IH]; intros C; cbn [allc cond comb fold_left fold_right]; [split; [exact I|lia]|].
  destruct (IH (C + c)) as [I1 I2]. split; [auto|]. rewrite I2. lia.
Qed.

Lemma br_good B r m0 ms C sp t : 1 <= B -> 1 <= t ->
  (forall m, In m (m0 :: ms) -> good B m C sp (fst (kout m C sp)) (snd (kout m C sp)) t) ->
  Forall (fun m' => kdel m' = kdel m0 /\ kstr m' = kstr m0 /\ klen m' t = klen m0 t /\
                    match r with
                    | KEl _ => kout m' C sp = kout m0 C sp
                    | KCat => snd (kout m' C sp) = snd (kout m0 C sp)
                    end) ms ->
  match r with KEl _ => ms <> [] | KCat => True end ->
  good B (KBR r (m0 :: ms)) C sp (fst (kout (KBR r (m0 :: ms)) C sp)) (snd (kout (KBR r (m0 :: ms)) C sp)) t.
Proof.
  intros HB Ht HG HE Hr. pose proof (HG m0 (or_introl eq_refl)) as G0. pose proof G0 as G0'. destruct G0' as [S0 L0 V0 R0].
  assert (Ed : kdel (KBR r (m0 :: ms)) = kdel m0) by reflexivity.
  assert (Es : kstr (KBR r (m0 :: ms)) = kstr m0) by reflexivity.
  assert (Ek : klen (KBR r (m0 :: ms)) t = klen m0 t) by reflexivity.
  set (spo := snd (kout m0 C sp)).
  assert (Esp : snd (kout (KBR r (m0 :: ms)) C sp) = spo) by (destruct r; reflexivity). rewrite Esp.
  constructor; rewrite ?Ed, ?Es, ?Ek; auto.
  intros xs Hl HF.
  (* results of the branches *)
  assert (D : exists brsl : brs, Forall2 (fun m p => length (snd p) = klen m0 t /\ Forall (fr B (fst p) spo) (snd p) /\ fst p = fst (kout m C sp) /\
      kfwd m (clip B C sp xs) = Ok (clip B (fst p) spo (snd p)) /\
      (forall n, n <= t -> exists m', feed kstep m (firstn n xs) = Ok (map (scheduled (kdel m0) (kstr m0) (snd p)) (seq 0 n), m') /\
         (1 <= n -> ksteps false m (clip B C sp (firstn n xs)) = Ok (clip_of (somes (map (scheduled (kdel m0) (kstr m0) (snd p)) (seq 0 n))), m'))) /\
      exists m', ksteps true m (clip B C sp xs) = Ok (Some (clip B (fst p) spo (snd p)), m')) (m0 :: ms) brsl).
  { assert (HE' : Forall (fun m' => kdel m' = kdel m0 /\ kstr m' = kstr m0 /\ klen m' t = klen m0 t /\ snd (kout m' C sp) = spo) (m0 :: ms)).
    { constructor; [auto|]. eapply Forall_impl; [|exact HE]. cbn beta. intros m' (E1 & E2 & E3 & E4). repeat split; auto. destruct r; [rewrite E4|rewrite E4]; reflexivity. }
    clear HE Hr G0 R0 Ed Es Ek Esp. remember (m0 :: ms) as l eqn:Q; clear Q.
    induction HE' as [|m l (E1 & E2 & E3 & E4) _ IH]; [exists []; constructor|].
    destruct IH as (bl & HB'); [intros m' Hm'; apply HG; right; exact Hm'|].
    destruct (HG m (or_introl eq_refl)) as [_ _ _ R]. destruct (R xs Hl HF) as (ys & Y1 & Y2 & Y3 & Y4 & Y5). rewrite E4 in Y1, Y3, Y5.
    exists ((fst (kout m C sp), ys) :: bl). constructor; [|exact HB']. cbn [fst snd].
    split; [congruence|]. split; [exact Y1|]. split; [reflexivity|]. split; [exact Y3|]. split; [|exact Y5].
    intros n Hn. destruct (Y4 n Hn) as (m' & A1 & A2). exists m'. unfold sched in *. rewrite E1, E2 in *. auto. }
  destruct D as ([|[C0 ys0] rest] & D); [inversion D|].
  assert (Dr : Forall (fun p => length (snd p) = klen m0 t /\ Forall (fr B (fst p) spo) (snd p)) ((C0, ys0) :: rest)).
  { clear -D. remember (m0 :: ms) as ms' eqn:Q; clear Q. remember ((C0, ys0) :: rest) as l eqn:Q; clear Q. induction D as [|m p ms' l (A1 & A2 & _) _ IH]; constructor; auto. }
  assert (Hch : map fst ((C0, ys0) :: rest) = map (fun m => fst (kout m C sp)) (m0 :: ms)).
  { clear -D. remember (m0 :: ms) as ms' eqn:Q; clear Q. remember ((C0, ys0) :: rest) as l eqn:Q; clear Q. induction D as [|m p ms' l (_ & _ & A3 & _) _ IH]; [reflexivity|]. cbn [map]. congruence. }
  cbn [map fst] in Hch. assert (HC0 : C0 = fst (kout m0 C sp)) by congruence. assert (Hcr : map fst rest = map (fun m => fst (kout m C sp)) ms) by congruence.
  assert (Hco : allc r C0 (map fst rest) /\ fold_left (comb r) (map fst rest) C0 = fst (kout (KBR r (m0 :: ms)) C sp)).
  { rewrite Hcr, HC0. destruct r as [op|].
    - cbn [kout]. apply fold_comb_el. apply Forall_map. eapply Forall_impl; [|exact HE]. cbn beta. intros m' (_ & _ & _ & E). rewrite E. reflexivity.
    - destruct (fold_comb_cat (map (fun m => fst (kout m C sp)) ms) (fst (kout m0 C sp))) as [I1 I2]. split; [exact I1|]. rewrite I2. cbn [kout fst]. f_equal.
      clear. induction ms as [|m l IH]; [reflexivity|]. cbn [map fold_right]. rewrite IH. reflexivity. }
  destruct Hco as [Ha Hco]. inversion Dr as [|? ? [Hl0 HF0] Drest]; subst. cbn [fst snd] in *.
  destruct (kfold_ok r B spo (klen m0 (length xs)) rest (fst (kout m0 C sp)) ys0 Hl0 HF0 Drest Ha) as (Z1 & Z2 & Z3 & Z4).
  rewrite Hco in Z2, Z4. set (zs := fold_left (zip (op2 r)) (map snd rest) ys0) in *. set (Co := fst (kout (KBR r (m0 :: ms)) C sp)) in *.
  set (C0 := fst (kout m0 C sp)) in *. set (t := length xs) in *.
  assert (Hr' : match r with KEl _ => rest <> [] | KCat => True end).
  { destruct r; [|exact I]. intros E. subst rest. cbn in Hcr. destruct ms; [congruence|discriminate]. }
  assert (Hrn : forall A (f : nat * list (tens K) -> A), match r with KEl _ => map f rest <> [] | KCat => True end).
  { intros A f. destruct r; [|exact I]. destruct rest; [congruence|discriminate]. }
  (* reducing clips of prefixes *)
  assert (RC : forall n, kreduce_some r (map (fun p => Some (clip B (fst p) spo (firstn n (snd p)))) ((C0, ys0) :: rest)) = Ok (Some (clip B Co spo (firstn n zs)))).
  { intros n. rewrite <- (map_map (fun p => clip B (fst p) spo (firstn n (snd p))) Some). cbn [map fst snd].
    change (Some (clip B C0 spo (firstn n ys0)) :: map Some (map (fun p => clip B (fst p) spo (firstn n (snd p))) rest))
      with (map Some (clip B C0 spo (firstn n ys0) :: map (fun p => clip B (fst p) spo (firstn n (snd p))) rest)).
    rewrite (kreduce_ok r _ _ B HB).
    - rewrite Z4. reflexivity.
    - apply Hrn.
    - constructor; [eexists; reflexivity|]. apply Forall_map. apply Forall_forall. intros p _. eexists. reflexivity. }
  exists zs. split; [exact Z2|]. split; [exact Z1|]. split; [|split].
  - cbn [kfwd]. assert (E : kbr_fwd kfwd (m0 :: ms) (clip B C sp xs) = Ok (map (fun p => clip B (fst p) spo (snd p)) ((C0, ys0) :: rest))).
    { apply kbr_fwd_ok. clear -D. remember (m0 :: ms) as ms' eqn:Q; clear Q. remember ((C0, ys0) :: rest) as l eqn:Q; clear Q.
      induction D as [|m p ms' l (_ & _ & _ & A & _) _ IH]; constructor; auto. }
    rewrite E. cbn [bind]. specialize (RC (klen m0 t)). rewrite map_map.
    assert (Ex : map (fun p => Some (clip B (fst p) spo (snd p))) ((C0, ys0) :: rest) = map (fun p => Some (clip B (fst p) spo (firstn (klen m0 t) (snd p)))) ((C0, ys0) :: rest)).
    { apply map_ext_in. intros p Hp. rewrite Forall_forall in Dr. destruct (Dr p Hp) as [Lp _]. rewrite <- Lp, firstn_all. reflexivity. }
    rewrite Ex, RC. cbn [bind]. rewrite <- Z1, firstn_all. reflexivity.
  - intros n Hn.
    assert (Q : exists ps, Forall2 (fun m p => feed kstep m (firstn n xs) = Ok p) (m0 :: ms) ps /\
       map fst ps = map (fun p => map (scheduled (kdel m0) (kstr m0) (snd p)) (seq 0 n)) ((C0, ys0) :: rest) /\
       (1 <= n -> Forall2 (fun m p => ksteps false m (clip B C sp (firstn n xs)) = Ok (clip_of (somes (fst p)), snd p)) (m0 :: ms) ps)).
    { clear -D Hn. remember (m0 :: ms) as ms' eqn:Q; clear Q. remember ((C0, ys0) :: rest) as l eqn:Q; clear Q.
      induction D as [|m p ms' l (_ & _ & _ & _ & A & _) _ IH]; [exists []; split; [constructor|]; split; [reflexivity|constructor]|].
      destruct IH as (ps & I1 & I2 & I3). destruct (A n Hn) as (m' & A1 & A2). exists ((map (scheduled (kdel m0) (kstr m0) (snd p)) (seq 0 n), m') :: ps).
      split; [constructor; assumption|]. split; [cbn [map fst]; congruence|]. intros H. constructor; [exact (A2 H)|exact (I3 H)]. }
    destruct Q as (ps & Q1 & Q2 & Q3). exists (KBR r (map snd ps)). unfold sched. rewrite Ed, Es.
    assert (Ln : length (firstn n xs) = n) by (apply firstn_length_le; exact Hn). split.
    + apply feed_kbr; [exact Q1|rewrite map_length, seq_length; lia|]. rewrite Ln. intros i Hi.
      assert (Nn : forall (ys : list (tens K)), nth i (map (scheduled (kdel m0) (kstr m0) ys) (seq 0 n)) None = scheduled (kdel m0) (kstr m0) ys i).
      { intros ys. rewrite (nth_map_in _ _ i 0) by (rewrite seq_length; exact Hi). rewrite seq_nth by exact Hi. reflexivity. }
      rewrite Nn. rewrite <- (map_map fst (fun l => nth i l None)), Q2, map_map.
      rewrite (map_ext _ (fun p => scheduled (kdel m0) (kstr m0) (snd p) i)) by (intros p; apply Nn).
      unfold scheduled. destruct (emits (kdel m0) (kstr m0) i) eqn:Ee; [|reflexivity].
      set (k := (i - kdel m0) / kstr m0).
      assert (Hk : k < klen m0 t).
      { unfold k. apply Nat.div_lt_upper_bound; [lia|]. unfold emits in Ee. apply andb_true_iff in Ee as [Ee _]. apply Nat.leb_le in Ee. lia. }
      rewrite (map_ext_in _ (fun p => Some (nth k (snd p) d0))).
      2: { intros p Hp. apply nth_error_nth'. rewrite Forall_forall in Dr. destruct (Dr p Hp) as [Lp _]. lia. }
      rewrite <- (map_map (fun p => nth k (snd p) d0) Some). cbn [map fst snd].
      change (Some (nth k ys0 d0) :: map Some (map (fun p => nth k (snd p) d0) rest)) with (map Some (nth k ys0 d0 :: map (fun p => nth k (snd p) d0) rest)).
      rewrite (kreduce_ok r _ _ B HB).
      * rewrite Z3 by exact Hk. cbn [bind]. f_equal. symmetry. apply nth_error_nth'. lia.
      * apply Hrn.
      * constructor.
        -- eexists. rewrite Forall_forall in HF0. apply HF0, nth_In. lia.
        -- apply Forall_map. eapply Forall_impl; [|exact Drest]. intros p [Lp Fp]. eexists. rewrite Forall_forall in Fp. apply Fp, nth_In. lia.
    + intros Hn1. cbn [ksteps].
      assert (E : kbr_step (ksteps false) (m0 :: ms) (clip B C sp (firstn n xs)) = Ok (map (fun p => clip_of (somes (fst p))) ps, map snd ps)).
      { rewrite (kbr_step_ok _ _ _ (map (fun p => (clip_of (somes (fst p)), snd p)) ps)); [rewrite !map_map; reflexivity|].
        specialize (Q3 Hn1). clear -Q3. induction Q3; constructor; auto. }
      rewrite E. cbn [bind]. rewrite <- (map_map fst (fun l => clip_of (somes l))), Q2, map_map.
      set (k := cnt (kdel m0) (kstr m0) n).
      assert (Hk : k <= klen m0 t) by (apply cnt_le; [exact S0|unfold t in *; lia]).
      rewrite (map_ext_in _ (fun p => clip_of (firstn k (snd p)))).
      2: { intros p Hp. rewrite Forall_forall in Dr. destruct (Dr p Hp) as [Lp _]. rewrite sched_somes by (auto; lia). reflexivity. }
      rewrite sched_somes by (auto; lia). fold k. destruct (Nat.eq_dec k 0) as [E0|E0].
      * rewrite E0. reflexivity.
      * rewrite (map_ext_in _ (fun p => Some (clip B (fst p) spo (firstn k (snd p))))).
        -- rewrite RC. cbn [bind]. rewrite (clip_of_clip B Co spo); [reflexivity|apply firstn_fr; exact Z2|].
           intros Q. apply (f_equal (@length _)) in Q. rewrite firstn_length_le in Q by lia. cbn in Q. lia.
        -- intros p Hp. rewrite Forall_forall in Dr. destruct (Dr p Hp) as [Lp Fp]. apply clip_of_clip; [apply firstn_fr; exact Fp|].
           intros Q. apply (f_equal (@length _)) in Q. rewrite firstn_length_le in Q by lia. cbn in Q. lia.
  - assert (Q : exists ps, Forall2 (fun m p => ksteps true m (clip B C sp xs) = Ok p) (m0 :: ms) ps /\ map fst ps = map (fun p => Some (clip B (fst p) spo (snd p))) ((C0, ys0) :: rest)).
    { clear -D. remember (m0 :: ms) as ms' eqn:Q; clear Q. remember ((C0, ys0) :: rest) as l eqn:Q; clear Q.
      induction D as [|m p ms' l (_ & _ & _ & _ & _ & m' & A) _ IH]; [exists []; split; [constructor|reflexivity]|].
      destruct IH as (ps & I1 & I2). eexists (_ :: ps). split; [constructor; [exact A|exact I1]|]. cbn [map fst]. congruence. }
    destruct Q as (ps & Q1 & Q2). exists (KBR r (map snd ps)). cbn [ksteps]. rewrite (kbr_step_ok _ _ _ _ Q1). cbn [bind]. rewrite Q2.
    specialize (RC (klen m0 t)).
    assert (Ex : map (fun p => Some (clip B (fst p) spo (snd p))) ((C0, ys0) :: rest) = map (fun p => Some (clip B (fst p) spo (firstn (klen m0 t) (snd p)))) ((C0, ys0) :: rest)).
    { apply map_ext_in. intros p Hp. rewrite Forall_forall in Dr. destruct (Dr p Hp) as [Lp _]. rewrite <- Lp, firstn_all. reflexivity. }
    rewrite Ex, RC. cbn [bind]. rewrite <- Z1, firstn_all. reflexivity.
Qed.

(** *** Every network *)

Theorem net_good B m : 1 <= B -> forall C sp t, kok B m C sp -> kfits m t -> 1 <= t ->
  good B m C sp (fst (kout m C sp)) (snd (kout m C sp)) t.
Proof.
  intros HB. induction m as [c o|Q c o|NK sg tn n o|f|i o w b|d fl o|ms IH|r ms IH] using kmod_ind'; intros C sp t Hk Hf Ht.
  - assert (o = obj_init) as -> by apply Hk. apply conv_good; assumption.
  - assert (o = obj_init) as -> by apply Hk. apply pool_good; assumption.
  - assert (o = None) as -> by apply Hk. apply rnn_good; assumption.
  - apply chan_good; assumption.
  - cbn [kok] in Hk. subst C. apply lin_good; assumption.
  - cbn [kok] in Hk. subst o. apply delay_good; assumption.
  - revert C sp t Hk Hf Ht. induction IH as [|m ms Hm _ IHs]; intros C sp t Hk Hf Ht; [apply seq_nil_good; exact Ht|].
    destruct Hk as [Hk1 Hk2]. destruct Hf as [Hf1 Hf2]. rewrite kout_cons. pose proof (Hm C sp t Hk1 Hf1 Ht) as G.
    apply (seq_cons_good B m ms C sp _ _ _ _ t Ht G). apply IHs; [exact Hk2|exact Hf2|apply (g_len _ _ _ _ _ _ _ G)].
  - destruct ms as [|m0 ms]; [destruct Hk as [_ []]|]. destruct Hk as (Hk & HE & Hr). cbn [kfits] in Hf. apply br_good; auto.
    2: { rewrite Forall_forall in HE |- *. intros m' Hm'. destruct (HE m' Hm') as (E1 & E2 & E3 & E4). split; [exact E1|]. split; [exact E2|]. split; [|exact E4].
         cbn [fold_right] in Hf. destruct Hf as [Hf0 Hf]. apply E3; [exact Ht|exact Hf0|]. clear -Hm' Hf. induction ms as [|m1 l IHl]; [contradiction|]. cbn [fold_right] in Hf.
         destruct Hm' as [->|Hm']; tauto. }
    intros m Hm. clear HE Hr. revert Hk Hf Hm. induction IH as [|m1 l H1 _ IHl]; intros Hk Hf Hm; [contradiction|].
    cbn [fold_right] in *. destruct Hm as [->|Hm]; [apply H1; tauto|apply IHl; tauto].
Qed.

(** *** Clips as whole tensors *)

Section Clips.
Variables (m : kmod K) (B C t : nat) (sp : list nat) (X : tens K).
Hypotheses (HB : 1 <= B) (Ht : 1 <= t) (Hk : kok B m C sp) (Hf : kfits m t) (HW : whole X) (HX : sh X = B :: C :: t :: sp).

Lemma net_run : exists ys, good B m C sp (fst (kout m C sp)) (snd (kout m C sp)) t /\
  let C' := fst (kout m C sp) in let sp' := snd (kout m C sp) in
  Forall (fr B C' sp') ys /\ length ys = klen m t /\ kfwd m X = Ok (clip B C' sp' ys) /\ frames_of (clip B C' sp' ys) = ys /\
  (forall n, n <= t -> exists m', feed kstep m (firstn n (frames_of X)) = Ok (sched m ys n, m') /\
     (1 <= n -> ksteps false m (clip B C sp (firstn n (frames_of X))) = Ok (clip_of (somes (sched m ys n)), m'))) /\
  exists m', ksteps true m X = Ok (Some (clip B C' sp' ys), m').
Proof.
  pose proof (net_good B m HB C sp t Hk Hf Ht) as G. destruct (clip_frames B C t sp X HW HX) as (E & F & L).
  destruct (g_run _ _ _ _ _ _ _ G (frames_of X) L F) as (ys & Y1 & Y2 & Y3 & Y4 & Y5). rewrite E in Y3, Y5.
  exists ys. split; [exact G|]. cbv zeta. split; [exact Y1|]. split; [exact Y2|]. split; [exact Y3|]. split; [apply frames_clip; exact Y1|]. split; assumption.
Qed.

Lemma net_forward_shape : 1 <= klen m t /\
  exists Y, kfwd m X = Ok Y /\ whole Y /\ sh Y = B :: fst (kout m C sp) :: klen m t :: snd (kout m C sp).
Proof.
  destruct net_run as (ys & G & Y1 & Y2 & Y3 & _). split; [apply (g_len _ _ _ _ _ _ _ G)|]. eexists. split; [exact Y3|]. split.
  - unfold whole, clip. cbn [sh dat]. rewrite stack_len, map_length. reflexivity.
  - cbn [clip sh]. rewrite Y2. reflexivity.
Qed.

Lemma net_no_pad : exists ys m', feed kstep m (frames_of X) = Ok (ys, m') /\ ksteps false m X = Ok (clip_of (somes ys), m').
Proof.
  destruct net_run as (ys & G & _ & _ & _ & _ & Y & _). destruct (clip_frames B C t sp X HW HX) as (E & F & L).
  destruct (Y t (le_n t)) as (m' & A1 & A2). rewrite <- L, firstn_all in A1, A2. rewrite E, L in A2. rewrite L in A1. specialize (A2 Ht). eauto.
Qed.
Lemma net_pad_end : exists Y m', kfwd m X = Ok Y /\ ksteps true m X = Ok (Some Y, m').
Proof. destruct net_run as (ys & G & _ & _ & Y3 & _ & _ & m' & Y5). eauto. Qed.

Variable Y : tens K.
Hypothesis HY : kfwd m X = Ok Y.

Lemma net_reach : length (frames_of Y) = klen m t /\ 1 <= kstr m /\ t <= kdel m + kstr m * length (frames_of Y).
Proof.
  destruct net_run as (ys & G & _ & Y2 & Y3 & Y6 & _). rewrite HY in Y3. apply ok_inj in Y3. subst Y. rewrite Y6, Y2.
  split; [reflexivity|]. split; [apply (g_str _ _ _ _ _ _ _ G)|apply (g_cov _ _ _ _ _ _ _ G)].
Qed.

Lemma net_step n : n <= t -> exists m', feed kstep m (firstn n (frames_of X)) =
  Ok (map (fun i => if emits (kdel m) (kstr m) i then nth_error (frames_of Y) ((i - kdel m) / kstr m) else None) (seq 0 n), m').
Proof.
  intros Hn. destruct net_run as (ys & G & _ & Y2 & Y3 & Y6 & Y4 & _). rewrite HY in Y3. apply ok_inj in Y3. rewrite <- Y3 in Y6. rewrite Y6.
  destruct (Y4 n Hn) as (m' & A1 & _). exists m'. exact A1.
Qed.

Lemma net_clip_then n X1 : 1 <= n <= t -> clip_of (firstn n (frames_of X)) = Some X1 ->
  exists m1 m2, ksteps false m X1 =
      Ok (clip_of (somes (map (fun i => if emits (kdel m) (kstr m) i then nth_error (frames_of Y) ((i - kdel m) / kstr m) else None) (seq 0 n))), m1) /\
    feed kstep m1 (skipn n (frames_of X)) =
      Ok (map (fun i => if emits (kdel m) (kstr m) i then nth_error (frames_of Y) ((i - kdel m) / kstr m) else None) (seq n (t - n)), m2).
Proof.
  intros Hn EX1. destruct net_run as (ys & G & _ & Y2 & Y3 & Y6 & Y4 & _). rewrite HY in Y3. apply ok_inj in Y3. rewrite <- Y3 in Y6. rewrite Y6.
  destruct (clip_frames B C t sp X HW HX) as (E & F & L).
  rewrite (clip_of_clip B C sp) in EX1; [|apply firstn_fr; exact F|].
  2: { intros Q. apply (f_equal (@length _)) in Q. rewrite firstn_length_le in Q by lia. cbn in Q. lia. }
  injection EX1 as <-. destruct (Y4 n ltac:(lia)) as (m1 & A1 & A2). destruct (Y4 t (le_n t)) as (m2 & A3 & _).
  exists m1, m2. split; [apply A2; lia|].
  rewrite <- L, firstn_all in A3. rewrite L in A3. rewrite <- (firstn_skipn n (frames_of X)) in A3.
  rewrite feed_app, A1 in A3. cbn [bind fst snd] in A3. destruct (feed kstep m1 (skipn n (frames_of X))) as [[zs mz]|]; [|discriminate].
  cbn [bind fst snd] in A3. apply ok_inj in A3.
  assert (mz = m2) as -> by congruence. assert (A4 : sched m ys n ++ zs = sched m ys t) by congruence. clear A3. rename A4 into A3. do 2 f_equal.
  unfold sched in A3. replace t with (n + (t - n)) in A3 by lia. rewrite seq_app, map_app in A3. cbn [Nat.add] in A3.
  apply app_inv_head in A3. exact A3.
Qed.

End Clips.
End Net.
