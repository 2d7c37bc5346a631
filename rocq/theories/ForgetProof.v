(** Proofs for C82. *)
From Coq Require Import List ZArith Bool Arith Lia ZifyBool ZifyNat.
From Verif Require Import Base Attn AttnSpec AttnProof AttnThm AttnMore FloatAttn Forget.
Import ListNotations.

Section Gen.
Context {K : Type} {NK : Num K}.
Variable c : cfg K.
Variable Hc : supported c.
Variable p : sdpa K.
Variable Inv : p_state p -> list (tok K) -> Prop.
Variable Out : list (tok K) -> list (vec K) -> Prop.
Variable step_ok : forall s l q k v, Inv s l ->
  exists o s', p_step p s q k v = Ok (o, s')
    /\ Inv s' (l ++ [(q, k, v)]) /\ Out (l ++ [(q, k, v)]) o.
Variable z0 : Z.

Definition f_inv (o : option (mstate p)) (l : list (tok K)) (h : cells) : Prop :=
  exists mem r, o = Some (mem, r) /\ Forall2 Inv mem (hist c (c_H c) l) /\ r < length h
    /\ cell_get h r = Z.min 0 (z0 + Z.of_nat (length l)).

Lemma f_fstep o l h t : f_inv o l h ->
  exists out s h' os, m_fstep c p t o h = Ok (out, s, h')
    /\ f_inv (Some s) (l ++ [t]) h'
    /\ Forall2 Out (hist c (c_H c) (l ++ [t])) os
    /\ out = (if (z0 + Z.of_nat (length l) + 1 <? 0)%Z then None else Some (join_heads c os)).
Proof.
  intros (mem & r & -> & Hm & Hr & Hg). destruct Hc as (HH & Hb & Hp & Hz & Lq & Lk & Lv).
  unfold m_fstep.
  destruct t as [[q k] v]. unfold mh_forward_step. rewrite Hz, Hp, Hb. cbn [negb].
  pose proof (F2_len _ _ _ Hm) as Lm. unfold hist in Lm.
  rewrite map_length, seq_length in Lm.
  destruct (heads_ok p Inv Out step_ok _ _ Hm (c_q c q) (c_k c k) (c_v c v))
    as (os & ss & E1 & E2 & E3); try (rewrite ?Lq, ?Lk, ?Lv; lia).
  pose proof (hist_snoc c (c_H c) l (q, k, v) (Lq _) (Lk _) (Lv _)) as Hs.
  cbn [fst snd] in Hs. rewrite Hs in E2, E3.
  rewrite E1. cbn [bind].
  eexists _, _, _, os. split; [reflexivity|].
  split; [|split; [exact E3|]].
  - exists ss, r. split; [reflexivity|]. split; [exact E2|]. rewrite app_length. cbn [length].
    destruct (cell_get h r <? 0)%Z eqn:Hlt.
    + rewrite set_nth_len. split; [exact Hr|]. rewrite cell_get_set by auto. lia.
    + split; [exact Hr|]. lia.
  - destruct (cell_get h r <? 0)%Z eqn:Hlt.
    + rewrite cell_get_set by auto.
      destruct (Z.ltb_spec (cell_get h r + 1) 0), (Z.ltb_spec (z0 + Z.of_nat (length l) + 1) 0); try reflexivity; lia.
    + rewrite Hlt. destruct (Z.ltb_spec (z0 + Z.of_nat (length l) + 1) 0); try reflexivity; lia.
Qed.

Definition f_out (l : list (tok K)) (o : option (list (vec K))) : Prop :=
  exists os, Forall2 Out (hist c (c_H c) l) os
    /\ o = (if (z0 + Z.of_nat (length l) <? 0)%Z then None else Some (join_heads c os)).

Lemma f_run ts : forall o l h, f_inv o l h ->
  exists outs o' h', m_run c p o ts h = Ok (outs, o', h')
    /\ length outs = length ts
    /\ f_inv o' (l ++ ts) h'
    /\ (forall n d, n < length ts -> f_out (l ++ firstn (n + 1) ts) (nth n outs d)).
Proof.
  induction ts as [|t ts IH]; intros o l h Hi.
  - exists [], o, h. cbn [m_run]. rewrite app_nil_r. repeat split; auto.
    intros; cbn in *; lia.
  - destruct (f_fstep o l h t Hi) as (out & s & h1 & os & E1 & E2 & E3 & E4).
    destruct (IH _ _ _ E2) as (outs & o' & h' & F1 & F2 & F3 & F4).
    exists (out :: outs), o', h'. cbn [m_run]. unfold m_forward_step.
    assert (Eb : match o with
                 | Some _ => (@None (mstate p), h)
                 | None => (None, h) end = (None, h)) by (destruct o; reflexivity).
    rewrite Eb, E1. cbn [bind]. rewrite F1. cbn [bind].
    split; [reflexivity|]. split; [cbn; lia|].
    split; [rewrite <- app_assoc in F3; exact F3|].
    intros [|n] d Hn.
    + cbn [nth firstn Nat.add]. exists os. rewrite app_length. cbn [length].
      split; [exact E3|]. rewrite E4. replace (z0 + Z.of_nat (length l + 1))%Z with (z0 + Z.of_nat (length l) + 1)%Z by lia. reflexivity.
    + cbn [nth Nat.add firstn]. specialize (F4 n d). cbn [length] in Hn.
      rewrite <- app_assoc in F4. apply F4. lia.
Qed.

(** Any memory of the right shape satisfies the invariant before the first token. *)
Variable shape : p_state p -> Prop.
Variable start : forall s, shape s -> Inv s [].
Variable stop : forall s l, Inv s l -> shape s.
Lemma f_start o h : holds shape (c_N c) (c_H c) o h z0 -> f_inv o [] h.
Proof.
  intros (mem & r & -> & L & F & Hr & Hz & B). exists mem, r. split; [reflexivity|].
  split; [|split; [exact Hr|]]; [|cbn [length]; lia].
  unfold hist. rewrite <- L. clear -F start. generalize 0. induction F as [|s mem Hs _ IH]; intros n; cbn [length seq map]; constructor; [apply start, Hs|apply IH].
Qed.
Lemma f_stop o l h : f_inv o l h -> (- Z.of_nat (c_N c) <= z0)%Z ->
  holds shape (c_N c) (c_H c) o h (Z.min 0 (z0 + Z.of_nat (length l))).
Proof.
  intros (mem & r & -> & F & Hr & Hz) B. exists mem, r. split; [reflexivity|].
  pose proof (F2_len _ _ _ F) as L. unfold hist in L. rewrite map_length, seq_length in L.
  split; [exact L|]. split; [|split; [exact Hr|split; [exact Hz|lia]]].
  clear -F stop. induction F; constructor; eauto.
Qed.
End Gen.

Section Single.
Context {K : Type} {NK : Num K}.

Definition so_inv2 (N Nq E : nat) (scale : K -> K) (s : so_state) (l : list (tok K)) :=
  exists gQ gK gV, length gQ = Nq /\ length gK = N /\ length gV = N /\
    s = SoS (lastn Nq (gQ ++ map (map scale) (qs_of l))) (lastn N (gK ++ ks_of l)) (lastn N (gV ++ vs_of l)).

Lemma so_step_ok2 N Nq E scale s l q k v : 0 < N -> Nq < N ->
  so_inv2 N Nq E scale s l ->
  exists o s', so_step E scale s q k v = Ok (o, s')
    /\ so_inv2 N Nq E scale s' (l ++ [(q, k, v)])
    /\ so_out N Nq E scale (l ++ [(q, k, v)]) o.
Proof.
  change (@cons (prod (prod (list K) (list K)) (list K)) (q, k, v) nil) with (@cons (tok K) (q, k, v) nil).
  intros HN HNq (gQ & gK & gV & LQ & LK & LV & ->). unfold so_step. cbn [so_Q so_K so_V].
  rewrite !roll_lastn by (rewrite ?app_length; lia).
  cbn [bind]. eexists _, _. split; [reflexivity|].
  pose proof (qs_snoc l (q, k, v)) as Sq. pose proof (ks_snoc l (q, k, v)) as Sk. pose proof (vs_snoc l (q, k, v)) as Sv.
  cbn [fst snd] in Sq, Sk, Sv. unfold so_inv2, so_out. split.
  - exists gQ, gK, gV. split; [exact LQ|]. split; [exact LK|]. split; [exact LV|].
    rewrite Sq, Sk, Sv. rewrite map_app; cbn [map]. rewrite !app_assoc.
    f_equal. destruct (Nat.eq_dec Nq 0) as [->|Hq].
    + unfold lastn. rewrite !skipn_all2 by lia. reflexivity.
    + destruct (lastn_snoc Nq (gQ ++ map (map scale) (qs_of l))
                  (map scale q) [] ltac:(lia)) as [E1 E2].
      { rewrite app_length. lia. }
      etransitivity; [|symmetry; exact E2].
      destruct (lastn Nq _); [discriminate E1|]. reflexivity.
  - rewrite Sq, Sk, Sv. rewrite map_app; cbn [map].
    rewrite app_length; cbn [length]. intros Hl. f_equal.
    assert (Lk : length (ks_of l) = length l) by apply map_length.
    assert (Lv : length (vs_of l) = length l) by apply map_length.
    assert (Lq : length (map (map scale) (qs_of l)) = length l)
      by (rewrite map_length; apply map_length).
    rewrite <- !app_assoc.
    rewrite (lastn_app N _ (ks_of l ++ [k])) by (rewrite app_length; cbn [length]; lia).
    rewrite (lastn_app N _ (vs_of l ++ [v])) by (rewrite app_length; cbn [length]; lia).
    do 4 f_equal. destruct (Nat.eq_dec Nq 0) as [->|Hq].
    + unfold lastn at 1. rewrite skipn_all2 by lia.
      rewrite app_nth2 by lia. replace (_ - _) with 0 by lia. reflexivity.
    + destruct (lastn_snoc Nq (gQ ++ map (map scale) (qs_of l))
                  (map scale q) [] ltac:(lia)) as [E1 _].
      { rewrite app_length. lia. }
      rewrite E1. rewrite app_length, Lq.
      rewrite app_nth2 by lia. rewrite app_nth1 by lia. f_equal. lia.
Qed.

Lemma so_inv2_start N Nq E scale s : so_rows N Nq s -> so_inv2 N Nq E scale s [].
Proof.
  intros (H1 & H2 & H3). exists (so_Q s), (so_K s), (so_V s). split; [exact H1|]. split; [exact H2|]. split; [exact H3|].
  cbn [qs_of ks_of vs_of map]. rewrite !app_nil_r, !lastn_short by lia. destruct s. reflexivity.
Qed.
Lemma so_inv2_rows N Nq E scale s l : so_inv2 N Nq E scale s l -> so_rows N Nq s.
Proof.
  intros (gQ & gK & gV & LQ & LK & LV & ->). unfold so_rows. cbn [so_Q so_K so_V].
  rewrite !lastn_length by (rewrite app_length; lia). auto.
Qed.

Theorem so_forgets (c : cfg K) qi o ts h z : supported c -> 0 < c_N c ->
  (- Z.of_nat (c_N c) <= qi < Z.of_nat (c_N c))%Z ->
  holds (so_rows (c_N c) (so_delay (c_N c) qi)) (c_N c) (c_H c) o h z ->
  exists outs o' h', m_run c (so_sdpa c qi) o ts h = Ok (outs, o', h')
    /\ length outs = length ts
    /\ holds (so_rows (c_N c) (so_delay (c_N c) qi)) (c_N c) (c_H c) o' h' (Z.min 0 (z + Z.of_nat (length ts)))
    /\ (forall n d, n < length ts -> nth n outs d = None <-> (z + Z.of_nat n + 1 < 0)%Z)
    /\ (forall n d, n < length ts -> c_N c <= n + 1 ->
        exists r, nth n outs d = Some r
          /\ so_forward c true qi (window (c_N c) n (qs_of ts))
               (window (c_N c) n (ks_of ts)) (window (c_N c) n (vs_of ts)) = Ok r).
Proof.
  intros Hc HN Hqi Ho. set (N := c_N c) in *. set (Nq := so_delay N qi) in *.
  assert (HNq : Nq < N) by (apply so_delay_lt; auto).
  pose proof Ho as (_ & _ & _ & _ & _ & _ & _ & Bz).
  destruct (f_run c Hc (so_sdpa c qi)
              (so_inv2 N Nq (c_E c) (c_scale c)) (so_out N Nq (c_E c) (c_scale c))
              (fun s l q k v => so_step_ok2 N Nq (c_E c) (c_scale c) s l q k v HN HNq) z ts o [] h
              (f_start c (so_sdpa c qi) _ z _ (so_inv2_start N Nq (c_E c) (c_scale c)) o h Ho))
    as (outs & o' & h' & E1 & E2 & E3 & E4).
  exists outs, o', h'. split; [exact E1|]. split; [exact E2|]. split.
  { apply (f_stop c (so_sdpa c qi) _ _ (fun s l q k v => so_step_ok2 N Nq (c_E c) (c_scale c) s l q k v HN HNq) z _ (so_inv2_rows N Nq (c_E c) (c_scale c)) _ _ _ E3). fold N. lia. }
  split.
  { intros n d Hn. destruct (E4 n d Hn) as (os & _ & ->). cbn [app]. rewrite firstn_length_le by lia.
    destruct (Z.ltb_spec (z + Z.of_nat (n + 1)) 0); split; intros; try discriminate; auto; lia. }
  intros n d Hn HN1. destruct (E4 n d Hn) as (os & F1 & F2). cbn [app] in F1, F2. rewrite firstn_length_le in F2 by lia.
  assert (X : (z + Z.of_nat (n + 1) <? 0)%Z = false) by lia. rewrite X in F2. clear X.
  assert (Lq : length (qs_of ts) = length ts) by apply map_length.
  unfold so_forward. rewrite (py_index_window N qi n (qs_of ts) [] HN Hqi ltac:(lia) HN1). fold Nq. cbn [bind].
  eexists. split; [exact F2|]. f_equal. rewrite mha_forward_attn1 by exact Hc. cbn [map].
  rewrite (Forall2_hist_map c (c_H c) (firstn (n + 1) ts)
    (so_out N Nq (c_E c) (c_scale c))
    (fun h => [wsum (c_E c) (softmax (map (dot (c_E c)
           (map (c_scale c) (nth h (c_q c (nth (n - Nq) (qs_of ts) [])) [])))
           (map (fun k => nth h (c_k c k) []) (window N n (ks_of ts)))))
           (map (fun v => nth h (c_v c v) []) (window N n (vs_of ts)))]) os); [| |exact F1].
  - rewrite join_one by apply Hc. reflexivity.
  - intros hd o1 Ho1. unfold so_out in Ho1. rewrite map_length, firstn_length_le in Ho1 by lia.
    rewrite (Ho1 HN1). f_equal.
    rewrite qs_htok, ks_htok, vs_htok, !lastn_map.
    assert (Lk : length (ks_of ts) = length ts) by apply map_length.
    assert (Lv : length (vs_of ts) = length ts) by apply map_length.
    rewrite <- (lastn_window N n (ks_of ts)), <- (lastn_window N n (vs_of ts)) by lia.
    unfold ks_of, vs_of. rewrite !firstn_map. do 4 f_equal.
    rewrite (nth_map_in _ _ _ []).
    2:{ unfold qs_of. rewrite !map_length, firstn_length_le; lia. }
    f_equal. rewrite (nth_map_in _ _ _ []).
    2:{ unfold qs_of. rewrite !map_length, firstn_length_le; lia. }
    f_equal. f_equal. unfold qs_of. rewrite <- firstn_map.
    change (map (fun t => fst (fst t)) ts) with (qs_of ts).
    set (w := qs_of ts) in *. clearbody w.
    transitivity (nth (n - Nq) (firstn (n + 1) w ++ skipn (n + 1) w) []).
    + rewrite app_nth1; [f_equal; lia|].
      rewrite firstn_length_le; lia.
    + rewrite firstn_skipn. reflexivity.
Qed.
End Single.

Section Retro.
Context {K : Type} {NK : Num K} {NL : NumLaws K}.

Definition re_inv2 (N E : nat) (scale : K -> K) (s : re_state) (l : list (tok K)) :=
  exists gK gV gd gA gQ, length gK = N /\ length gV = N
  /\ re_K s = lastn N (gK ++ ks_of l)
  /\ re_V s = lastn N (gV ++ vs_of l)
  /\ let rQ := lastn (N - 1) (map (map scale) (qs_of l)) in
       re_Q s = gQ ++ rQ
       /\ re_d s = gd ++ map (den E (re_K s)) rQ
       /\ re_AV s = gA ++ map (num E (re_K s) (re_V s)) rQ
       /\ length gd = length gQ /\ length gA = length gQ
       /\ length gQ = N - 1 - length l.

Lemma re_step_ok2 N E scale s l q k v : 2 <= N ->
  re_inv2 N E scale s l ->
  exists o s', re_step E scale s q k v = Ok (o, s')
    /\ re_inv2 N E scale s' (l ++ [(q, k, v)])
    /\ re_out N E scale (l ++ [(q, k, v)]) o.
Proof.
  change (@cons (prod (prod (list K) (list K)) (list K)) (q, k, v) nil) with (@cons (tok K) (q, k, v) nil).
  intros HN. destruct s as [sd sA sQ sK sV].
  intros (gK & gV & gd & gA & gQ & LgK & LgV & HK & HV & HQ & Hd & HA & L1 & L2 & L3).
  cbn [re_K re_V re_Q re_d re_AV] in *.
  set (qq := map (map scale) (qs_of l)) in *.
  assert (Lk : length (ks_of l) = length l) by apply map_length.
  assert (Lv : length (vs_of l) = length l) by apply map_length.
  assert (Lq : length qq = length l)
    by (unfold qq; rewrite map_length; apply map_length).
  destruct (lastn_snoc N (gK ++ ks_of l) k [] ltac:(lia)) as [K1 K2].
  { rewrite app_length; lia. }
  destruct (lastn_snoc N (gV ++ vs_of l) v [] ltac:(lia)) as [V1 V2].
  { rewrite app_length; lia. }
  rewrite <- HK in K1, K2. rewrite <- HV in V1, V2.
  assert (LK : length sK = N)
    by (rewrite HK; apply lastn_length; rewrite app_length; lia).
  assert (LV : length sV = N)
    by (rewrite HV; apply lastn_length; rewrite app_length; lia).
  destruct sK as [|ok sK]; [discriminate K1|]. destruct sV as [|ov sV]; [discriminate V1|].
  cbn [length] in LK, LV. clear K1 V1. cbn [tl] in K2, V2.
  set (rQ := lastn (N - 1) qq) in *.
  assert (LrQ : length rQ = Nat.min (N - 1) (length l)).
  { unfold rQ. destruct (Nat.le_gt_cases (N - 1) (length qq)).
    - rewrite lastn_length by lia. lia.
    - rewrite lastn_short by lia. lia. }
  unfold re_step. cbn [re_K re_V re_Q re_d re_AV first_row roll_in bind].
  assert (Hr : exists Q', roll_in sQ (map scale q) = Ok Q' /\ Q' = tl sQ ++ [map scale q]).
  { destruct sQ as [|a sQ].
    - exfalso. apply (f_equal (@length _)) in HQ. rewrite app_length in HQ.
      cbn in HQ. lia.
    - eexists; split; reflexivity. }
  destruct Hr as (Q' & -> & HQ'). cbn [bind].
  subst sQ sd sA.
  rewrite !(map_app _ gQ rQ).
  rewrite !map3_app by (rewrite ?map_length; lia).
  rewrite !map3_maps.
  rewrite (map_ext _ _ (den_snoc E ok sK k)).
  rewrite (map_ext _ _ (fun x => num_snoc E ok ov sK sV k v x ltac:(lia))).
  set (GD := map3 (fun d l0 r => kadd (ksub d l0) r) gd _ _).
  set (GA := map3 _ gA _ _).
  assert (LGD : length GD = length gQ)
    by (unfold GD; rewrite map3_length; rewrite ?map_length; lia).
  assert (LGA : length GA = length gQ)
    by (unfold GA; rewrite map3_length; rewrite ?map_length; lia).
  clearbody GD GA.
  fold (den E (sK ++ [k]) (map scale q)).
  fold (num E (sK ++ [k]) (sV ++ [v]) (map scale q)).
  rewrite <- !app_assoc.
  change [den E (sK ++ [k]) (map scale q)] with (map (den E (sK ++ [k])) [map scale q]).
  change [num E (sK ++ [k]) (sV ++ [v]) (map scale q)]
    with (map (num E (sK ++ [k]) (sV ++ [v])) [map scale q]).
  rewrite <- !map_app.
  eexists _, _. split; [reflexivity|].
  assert (EK : sK ++ [k] = lastn N (gK ++ ks_of (l ++ @cons (tok K) (q, k, v) nil))).
  { rewrite ks_snoc, app_assoc. symmetry. exact K2. }
  assert (EV : sV ++ [v] = lastn N (gV ++ vs_of (l ++ @cons (tok K) (q, k, v) nil))).
  { rewrite vs_snoc, app_assoc. symmetry. exact V2. }
  assert (Eq : map (map scale) (qs_of (l ++ @cons (tok K) (q, k, v) nil)) = qq ++ [map scale q]).
  { rewrite qs_snoc, map_app. reflexivity. }
  split.
  - unfold re_inv2. cbn [re_K re_V re_Q re_d re_AV].
    exists gK, gV. rewrite Eq. rewrite app_length; cbn [length].
    destruct gQ as [|g gQ].
    + destruct GD; [|discriminate LGD]. destruct GA; [|discriminate LGA].
      assert (Hll : N - 1 <= length qq) by (cbn in L3; lia).
      destruct (lastn_snoc (N - 1) qq (map scale q) [] ltac:(lia) Hll) as [R1 R2].
      fold rQ in R1, R2.
      exists [], [], []. cbn [app length tl] in *. rewrite R2.
      destruct rQ as [|r rQ]; [discriminate R1|].
      cbn [app map tl] in *. subst Q'. repeat split; auto; lia.
    + destruct GD as [|dd GD]; [discriminate LGD|].
      destruct GA as [|da GA]; [discriminate LGA|].
      exists GD, GA, gQ. cbn [app length tl] in *. subst Q'.
      assert (Er : lastn (N - 1) (qq ++ [map scale q]) = rQ ++ [map scale q]).
      { unfold rQ. rewrite !lastn_short; [reflexivity|lia|].
        rewrite app_length; cbn [length]; lia. }
      rewrite Er. rewrite <- app_assoc. repeat split; auto; lia.
  - unfold re_out. rewrite Eq, app_length; cbn [length]. intros Hl.
    assert (gQ = []) by (destruct gQ; [auto|cbn in L3; lia]). subst gQ.
    destruct GD; [|discriminate LGD]. destruct GA; [|discriminate LGA].
    cbn [app]. rewrite map2_maps.
    assert (Er : lastn N (qq ++ [map scale q]) = rQ ++ [map scale q]).
    { unfold rQ, lastn. rewrite app_length; cbn [length].
      replace (length qq + 1 - N) with (length qq - (N - 1)) by lia.
      rewrite skipn_app. replace (_ - (N - 1) - length qq) with 0 by lia.
      reflexivity. }
    rewrite Er. apply map_ext. intros x. rewrite mean_num_den.
    rewrite EK, EV.
    assert (length (ks_of (l ++ @cons (tok K) (q, k, v) nil)) = length l + 1)
      by (unfold ks_of; rewrite map_length, app_length; reflexivity).
    assert (length (vs_of (l ++ @cons (tok K) (q, k, v) nil)) = length l + 1)
      by (unfold vs_of; rewrite map_length, app_length; reflexivity).
    rewrite (lastn_app N _ (ks_of _)), (lastn_app N _ (vs_of _)) by lia. reflexivity.
Qed.

Lemma re_inv2_start N E scale s : re_rows N s -> re_inv2 N E scale s [].
Proof.
  intros (H1 & H2 & H3 & H4 & H5). exists (re_K s), (re_V s), (re_d s), (re_AV s), (re_Q s).
  split; [exact H4|]. split; [exact H5|]. cbn [qs_of ks_of vs_of map]. cbv zeta.
  rewrite !(app_nil_r (re_K s)), !(app_nil_r (re_V s)), !lastn_short by (cbn [length]; lia).
  cbn [map length]. rewrite !app_nil_r. repeat split; lia.
Qed.
Lemma re_inv2_rows N E scale s l : re_inv2 N E scale s l -> re_rows N s.
Proof.
  intros (gK & gV & gd & gA & gQ & LgK & LgV & HK & HV & HQ & Hd & HA & L1 & L2 & L3). unfold re_rows.
  rewrite Hd, HA, HQ, HK, HV, !app_length, !map_length.
  rewrite (lastn_length N (gK ++ _)), (lastn_length N (gV ++ _)) by (rewrite app_length; lia).
  assert (X : length (lastn (N - 1) (map (map scale) (qs_of l))) = Nat.min (N - 1) (length l)).
  { assert (Lq : length (qs_of l) = length l) by apply map_length. unfold lastn. rewrite skipn_length, !map_length, Lq. lia. }
  rewrite X. lia.
Qed.

Theorem re_forgets (c : cfg K) o ts h z : supported c -> 2 <= c_N c ->
  holds (re_rows (c_N c)) (c_N c) (c_H c) o h z ->
  exists outs o' h', m_run c (re_sdpa c) o ts h = Ok (outs, o', h')
    /\ length outs = length ts
    /\ holds (re_rows (c_N c)) (c_N c) (c_H c) o' h' (Z.min 0 (z + Z.of_nat (length ts)))
    /\ (forall n d, n < length ts -> nth n outs d = None <-> (z + Z.of_nat n + 1 < 0)%Z)
    /\ (forall n d, n < length ts -> c_N c <= n + 1 ->
        nth n outs d = Some (mha_forward c (window (c_N c) n (qs_of ts))
               (window (c_N c) n (ks_of ts)) (window (c_N c) n (vs_of ts)))).
Proof.
  intros Hc HN Ho. set (N := c_N c) in *.
  pose proof Ho as (_ & _ & _ & _ & _ & _ & _ & Bz).
  destruct (f_run c Hc (re_sdpa c)
              (re_inv2 N (c_E c) (c_scale c)) (re_out N (c_E c) (c_scale c))
              (fun s l q k v => re_step_ok2 N (c_E c) (c_scale c) s l q k v HN) z ts o [] h
              (f_start c (re_sdpa c) _ z _ (re_inv2_start N (c_E c) (c_scale c)) o h Ho))
    as (outs & o' & h' & E1 & E2 & E3 & E4).
  exists outs, o', h'. split; [exact E1|]. split; [exact E2|]. split.
  { apply (f_stop c (re_sdpa c) _ _ (fun s l q k v => re_step_ok2 N (c_E c) (c_scale c) s l q k v HN) z _ (re_inv2_rows N (c_E c) (c_scale c)) _ _ _ E3). fold N. lia. }
  split.
  { intros n d Hn. destruct (E4 n d Hn) as (os & _ & ->). cbn [app]. rewrite firstn_length_le by lia.
    destruct (Z.ltb_spec (z + Z.of_nat (n + 1)) 0); split; intros; try discriminate; auto; lia. }
  intros n d Hn HN1. destruct (E4 n d Hn) as (os & F1 & F2). cbn [app] in F1, F2. rewrite firstn_length_le in F2 by lia.
  assert (X : (z + Z.of_nat (n + 1) <? 0)%Z = false) by lia. rewrite X in F2. clear X. rewrite F2. f_equal.
  rewrite mha_forward_attention by exact Hc.
  assert (Lw : length (window N n (qs_of ts)) = N).
  { assert (Lq : length (qs_of ts) = length ts) by apply map_length.
    unfold window. apply firstn_length_le. rewrite skipn_length. lia. }
  set (G := fun h q => tab (c_E c)
        (weighted_mean (c_E c) (map (c_scale c) (nth h (c_q c q) []))
           (map (fun k => nth h (c_k c k) []) (window N n (ks_of ts)))
           (map (fun v => nth h (c_v c v) []) (window N n (vs_of ts))))).
  rewrite (Forall2_hist_map c (c_H c) (firstn (n + 1) ts)
    (re_out N (c_E c) (c_scale c))
    (fun h => map (G h) (window N n (qs_of ts))) os); [| |exact F1].
  - rewrite (join_rows c G (fun _ => window N n (qs_of ts)) N) by (auto; apply Hc).
    transitivity (map (fun i => attention c (nth i (window N n (qs_of ts)) [])
        (window N n (ks_of ts)) (window N n (vs_of ts))) (seq 0 N)).
    + apply map_ext_in. intros i Hi. apply in_seq in Hi. unfold attention. f_equal.
      apply map_ext. intros hd. rewrite (nth_map_in _ _ _ []) by lia. reflexivity.
    + rewrite <- (map_map (fun i => nth i (window N n (qs_of ts)) [])
                    (fun q => attention c q (window N n (ks_of ts)) (window N n (vs_of ts)))).
      f_equal. rewrite <- Lw at 1. generalize (window N n (qs_of ts)). intros w.
      induction w as [|a w IH]; [reflexivity|]. cbn [length seq map nth]. f_equal.
      rewrite <- seq_shift, map_map. exact IH.
  - intros hd o1 Ho1. unfold re_out in Ho1. rewrite map_length, firstn_length_le in Ho1 by lia.
    rewrite (Ho1 HN1). rewrite qs_htok, ks_htok, vs_htok, !lastn_map, map_map, map_map.
    unfold G.
    assert (Lq : length (qs_of ts) = length ts) by apply map_length.
    assert (Lk : length (ks_of ts) = length ts) by apply map_length.
    assert (Lv : length (vs_of ts) = length ts) by apply map_length.
    rewrite <- (lastn_window N n (qs_of ts)), <- (lastn_window N n (ks_of ts)),
      <- (lastn_window N n (vs_of ts)) by lia.
    unfold qs_of, ks_of, vs_of. rewrite !firstn_map. reflexivity.
Qed.
End Retro.

(** *** Retroactive attention without laws of arithmetic *)
Section Bits.
Context {K : Type} {NK : Num K}.

Definition re_inv3 (N E : nat) (scale : K -> K) (s : @re_state K) (l : list (tok K)) : Prop :=
  exists s0, re_wf N s0 /\ re_after E scale s0 l = Ok s /\ re_wf N s.
Definition re_out3 (N E : nat) (scale : K -> K) (l : list (tok K)) (o : list (vec K)) : Prop :=
  exists l0 q k v s s', l = l0 ++ @cons (tok K) (q, k, v) nil /\ re_inv3 N E scale s l0 /\ re_step E scale s q k v = Ok (o, s').

Lemma re_step_ok3 N E scale s l q k v : 2 <= N -> re_inv3 N E scale s l ->
  exists o s', re_step E scale s q k v = Ok (o, s')
    /\ re_inv3 N E scale s' (l ++ [(q, k, v)]) /\ re_out3 N E scale (l ++ [(q, k, v)]) o.
Proof.
  change (@cons (prod (prod (list K) (list K)) (list K)) (q, k, v) nil) with (@cons (tok K) (q, k, v) nil).
  intros HN (s0 & W0 & H & W). destruct (re_wf_step N E scale s q k v HN W) as (o & s' & E1 & W' & _).
  exists o, s'. split; [exact E1|]. split.
  - exists s0. split; [exact W0|]. split; [|exact W']. rewrite re_after_snoc, H. cbn [bind fst snd]. rewrite E1. reflexivity.
  - exists l, q, k, v, s, s'. split; [reflexivity|]. split; [|exact E1]. exists s0. auto.
Qed.

Lemma after_wf N E scale : 2 <= N -> forall l s0, re_wf N s0 -> exists x, re_after E scale s0 l = Ok x /\ re_wf N x.
Proof.
  intros HN l. induction l as [|t l IH]; intros s0 W; [eexists; split; [reflexivity|exact W]|].
  cbn [re_after]. destruct (re_wf_step N E scale s0 (fst (fst t)) (snd (fst t)) (snd t) HN W) as (o & s' & -> & W' & _).
  cbn [bind]. apply IH, W'.
Qed.

Lemma after_agr N E scale b s0 s0' : 2 <= N -> re_wf N s0 -> re_wf N s0' -> forall s s',
  re_after E scale s0 b = Ok s -> re_after E scale s0' b = Ok s' -> re_agr N (length b) s s'.
Proof.
  intros HN W0 W0'. induction b as [|t b IH] using rev_ind; intros s s'.
  - intros _ _. unfold re_agr. cbn [length Nat.min]. replace (0 + 1 - N) with 0 by lia.
    cbn [Nat.min]. unfold lastn. rewrite !Nat.sub_0_r, !skipn_all. repeat split.
  - rewrite !re_after_snoc, app_length. cbn [length]. rewrite Nat.add_1_r.
    destruct (after_wf N E scale HN b s0 W0) as (x & Ex & Wx), (after_wf N E scale HN b s0' W0') as (x' & Ex' & Wx').
    specialize (IH _ _ Ex Ex'). rewrite Ex, Ex'. cbn [bind].
    destruct (re_step E scale x _ _ _) as [[o s1]|] eqn:E1; cbn [bind]; [|discriminate].
    destruct (re_step E scale x' _ _ _) as [[o' s1']|] eqn:E2; cbn [bind]; [|discriminate].
    intros H H'. injection H as <-. injection H' as <-.
    exact (proj1 (re_agr_step N E scale _ _ _ _ _ _ _ _ _ _ HN Wx Wx' IH E1 E2)).
Qed.

Lemma out3_eq N E scale l o o' : 2 <= N -> 2 * N - 1 <= length l ->
  re_out3 N E scale l o -> re_out3 N E scale l o' -> o = o'.
Proof.
  intros HN Hl (l0 & q & k & v & s & s1 & E0 & (s0 & W0 & I & W) & E1) (l0' & q' & k' & v' & s' & s1' & E0' & (s0' & W0' & I' & W') & E1').
  subst l. apply snoc_eq in E0' as [<- E0']. injection E0' as <- <- <-. rewrite app_length in Hl. cbn [length] in Hl.
  pose proof (after_agr N E scale l0 s0 s0' HN W0 W0' s s' I I') as G.
  refine (proj2 (re_agr_step N E scale _ _ _ _ _ _ _ _ _ _ HN W W' G E1 E1') _). lia.
Qed.

Lemma hist3_eq c N E scale n l os os' : 2 <= N -> 2 * N - 1 <= length l ->
  Forall2 (re_out3 N E scale) (hist c n l) os -> Forall2 (re_out3 N E scale) (hist c n l) os' -> os = os'.
Proof.
  intros HN Hl. unfold hist. generalize (seq 0 n). intros hs. revert os os'.
  induction hs as [|h hs IH]; intros os os' H H'; cbn [map] in H, H'; inversion H; inversion H'; subst; [reflexivity|].
  f_equal; [|auto]. eapply out3_eq; [exact HN| |eassumption|eassumption]. rewrite map_length. exact Hl.
Qed.

Theorem re_forgets_bits (c : cfg K) o o' ts h h' z z' : supported c -> 2 <= c_N c ->
  holds (re_rows (c_N c)) (c_N c) (c_H c) o h z -> holds (re_rows (c_N c)) (c_N c) (c_H c) o' h' z' ->
  exists outs outs' o1 o1' h1 h1', m_run c (re_sdpa c) o ts h = Ok (outs, o1, h1) /\ m_run c (re_sdpa c) o' ts h' = Ok (outs', o1', h1')
    /\ length outs = length ts /\ length outs' = length ts
    /\ forall n d, n < length ts -> 2 * c_N c - 1 <= n + 1 -> nth n outs d = nth n outs' d /\ nth n outs d <> None.
Proof.
  intros Hc HN Ho Ho'. set (N := c_N c) in *.
  pose proof Ho as (_ & _ & _ & _ & _ & _ & _ & Bz). pose proof Ho' as (_ & _ & _ & _ & _ & _ & _ & Bz').
  assert (ST : forall s, re_rows N s -> re_inv3 N (c_E c) (c_scale c) s []).
  { intros s W. exists s. split; [exact W|]. split; [reflexivity|exact W]. }
  destruct (f_run c Hc (re_sdpa c) (re_inv3 N (c_E c) (c_scale c)) (re_out3 N (c_E c) (c_scale c))
              (fun s l q k v => re_step_ok3 N (c_E c) (c_scale c) s l q k v HN) z ts o [] h
              (f_start c (re_sdpa c) _ z _ ST o h Ho)) as (outs & o1 & h1 & E1 & E2 & _ & E4).
  destruct (f_run c Hc (re_sdpa c) (re_inv3 N (c_E c) (c_scale c)) (re_out3 N (c_E c) (c_scale c))
              (fun s l q k v => re_step_ok3 N (c_E c) (c_scale c) s l q k v HN) z' ts o' [] h'
              (f_start c (re_sdpa c) _ z' _ ST o' h' Ho')) as (outs' & o1' & h1' & E1' & E2' & _ & E4').
  exists outs, outs', o1, o1', h1, h1'. split; [exact E1|]. split; [exact E1'|]. split; [exact E2|]. split; [exact E2'|].
  intros n d Hn Hb. destruct (E4 n d Hn) as (os & F1 & F2), (E4' n d Hn) as (os' & F1' & F2'). cbn [app] in *.
  rewrite firstn_length_le in F2, F2' by lia.
  assert (X : (z + Z.of_nat (n + 1) <? 0)%Z = false) by lia. rewrite X in F2. clear X.
  assert (X : (z' + Z.of_nat (n + 1) <? 0)%Z = false) by lia. rewrite X in F2'. clear X.
  rewrite F2, F2'. split; [|discriminate]. do 2 f_equal.
  eapply hist3_eq; [exact HN| |exact F1|exact F1']. rewrite firstn_length_le; lia.
Qed.
End Bits.

(** *** Where such memories come from *)
Section Reach.
Context {K : Type} {NK : Num K}.

Lemma so_fresh (c : cfg K) qi t ts h : supported c -> 0 < c_N c -> (- Z.of_nat (c_N c) <= qi < Z.of_nat (c_N c))%Z ->
  exists outs o' h', m_run c (so_sdpa c qi) None (t :: ts) h = Ok (outs, o', h') /\
    holds (so_rows (c_N c) (so_delay (c_N c) qi)) (c_N c) (c_H c) o' h' (Z.min 0 (Z.of_nat (S (length ts)) - Z.of_nat (c_N c))).
Proof.
  intros Hc HN Hqi. set (N := c_N c) in *. set (Nq := so_delay N qi) in *.
  assert (HNq : Nq < N) by (apply so_delay_lt; auto).
  assert (ST : so_rows N Nq (so_default N (c_E c) qi)).
  { unfold so_rows, so_default. cbn [so_Q so_K so_V]. rewrite !repeat_length. auto. }
  destruct (m_run_ok c Hc (so_sdpa c qi)
              (so_inv2 N Nq (c_E c) (c_scale c)) (so_out N Nq (c_E c) (c_scale c))
              (fun s l q k v => so_step_ok2 N Nq (c_E c) (c_scale c) s l q k v HN HNq)
              (so_inv2_start N Nq (c_E c) (c_scale c) _ ST) (t :: ts) None [] h eq_refl)
    as (outs & o' & h' & E1 & E2 & E3 & _).
  exists outs, o', h'. split; [exact E1|]. cbn [app] in E3.
  destruct o' as [[mem r]|]; [|discriminate E3]. destruct E3 as (F & Hr & Hz). exists mem, r. split; [reflexivity|].
  pose proof (F2_len _ _ _ F) as L. unfold hist in L. rewrite map_length, seq_length in L.
  split; [exact L|]. split; [|split; [exact Hr|split; [exact Hz|cbn [length]; lia]]].
  clear -F. induction F; constructor; eauto. eapply so_inv2_rows; eauto.
Qed.

Lemma re_fresh (c : cfg K) t ts h : supported c -> 2 <= c_N c ->
  exists outs o' h', m_run c (re_sdpa c) None (t :: ts) h = Ok (outs, o', h') /\
    holds (re_rows (c_N c)) (c_N c) (c_H c) o' h' (Z.min 0 (Z.of_nat (S (length ts)) - Z.of_nat (c_N c))).
Proof.
  intros Hc HN. set (N := c_N c) in *.
  assert (ST : re_inv3 N (c_E c) (c_scale c) (re_default N (c_E c)) []).
  { exists (re_default N (c_E c)). split; [apply re_wf_default|]. split; [reflexivity|apply re_wf_default]. }
  destruct (m_run_ok c Hc (re_sdpa c) (re_inv3 N (c_E c) (c_scale c)) (re_out3 N (c_E c) (c_scale c))
              (fun s l q k v => re_step_ok3 N (c_E c) (c_scale c) s l q k v HN) ST (t :: ts) None [] h eq_refl)
    as (outs & o' & h' & E1 & E2 & E3 & _).
  exists outs, o', h'. split; [exact E1|]. cbn [app] in E3.
  destruct o' as [[mem r]|]; [|discriminate E3]. destruct E3 as (F & Hr & Hz). exists mem, r. split; [reflexivity|].
  pose proof (F2_len _ _ _ F) as L. unfold hist in L. rewrite map_length, seq_length in L.
  split; [exact L|]. split; [|split; [exact Hr|split; [exact Hz|cbn [length]; lia]]].
  clear -F. induction F as [|x y l m (s0 & _ & _ & W) _ IH]; constructor; auto.
Qed.

Lemma holds_map {S} (shape : S -> Prop) f N H o h z : (forall s, shape s -> shape (f s)) ->
  holds shape N H o h z -> holds shape N H (mem_map f o) h z.
Proof.
  intros Hf (mem & r & -> & L & F & R & Z & B). exists (map f mem), r. cbn. rewrite map_length.
  split; [reflexivity|]. split; [exact L|]. split; [|auto]. clear -F Hf. induction F; constructor; auto.
Qed.
Lemma so_rows_map N D (f : K -> K) s : so_rows N D s -> so_rows N D (so_map f s).
Proof. unfold so_rows, so_map. cbn. rewrite !map_length. auto. Qed.
Lemma re_rows_map N (f : K -> K) s : re_rows N s -> re_rows N (re_map f s).
Proof. unfold re_rows, re_map. cbn. rewrite !map_length. auto. Qed.
End Reach.
