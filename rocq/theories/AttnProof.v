(** Proofs about the attention modules. *)
From Coq Require Import List ZArith Bool Arith Lia Ring_theory Ring.
From Coq Require Import ZifyBool ZifyNat.
From Verif Require Import Base Attn AttnSpec.
Import ListNotations.

Section Proof.
Context {K : Type} {NK : Num K} {NL : NumLaws K}.

Lemma num_ring : ring_theory k0 k1 kadd kmul ksub kopp (@eq K).
Proof.
  split; intros; try reflexivity.
  - apply kadd_0.
  - apply kadd_comm.
  - apply kadd_assoc.
  - apply kmul_1.
  - apply kmul_comm.
  - apply kmul_assoc.
  - apply kdistr.
  - apply kadd_opp.
Qed.
Add Ring KR : num_ring.

(** *** Lists *)

Definition lastn {A} (n : nat) (l : list A) : list A := skipn (length l - n) l.

Lemma lastn_length {A} n (l : list A) : n <= length l -> length (lastn n l) = n.
Proof. intros; unfold lastn; rewrite skipn_length; lia. Qed.

Lemma skipn_cons_nth {A} (l : list A) i d :
  i < length l -> skipn i l = nth i l d :: skipn (S i) l.
Proof.
  revert i; induction l; intros i H; cbn in H; [lia|].
  destruct i; [reflexivity|]. cbn [skipn nth]. rewrite IHl by lia. reflexivity.
Qed.

Lemma lastn_snoc {A} n (l : list A) x d : 0 < n -> n <= length l ->
  lastn n l = nth (length l - n) l d :: tl (lastn n l)
  /\ lastn n (l ++ [x]) = tl (lastn n l) ++ [x].
Proof.
  intros Hn Hl. unfold lastn.
  rewrite (skipn_cons_nth l (length l - n) d) by lia. split; [reflexivity|].
  cbn [tl]. rewrite app_length; cbn [length].
  replace (length l + 1 - n) with (S (length l - n)) by lia.
  rewrite skipn_app. replace (S (length l - n) - length l) with 0 by lia.
  reflexivity.
Qed.

Lemma lastn_app {A} n (z l : list A) : n <= length l -> lastn n (z ++ l) = lastn n l.
Proof.
  intros H. unfold lastn. rewrite app_length, skipn_app.
  rewrite skipn_all2 by lia. cbn. f_equal. lia.
Qed.

Lemma lastn_window {A} N n (ts : list A) : n < length ts -> N <= n + 1 ->
  lastn N (firstn (n + 1) ts) = window N n ts.
Proof.
  intros H H1. unfold lastn, window. rewrite firstn_length_le by lia.
  rewrite skipn_firstn_comm. f_equal. lia.
Qed.

Lemma window_map {A B} (f : A -> B) N n l :
  window N n (map f l) = map f (window N n l).
Proof. unfold window. rewrite skipn_map, firstn_map. reflexivity. Qed.

Lemma map2_map_l {A B C D} (f : B -> C -> D) (g : A -> B) l m :
  map2 f (map g l) m = map2 (fun a c => f (g a) c) l m.
Proof. revert m; induction l; destruct m; cbn; congruence. Qed.

Lemma map3_app {A B C D} (f : A -> B -> C -> D) l m n l' m' n' :
  length l = length m -> length m = length n ->
  map3 f (l ++ l') (m ++ m') (n ++ n') = map3 f l m n ++ map3 f l' m' n'.
Proof.
  revert m n; induction l; destruct m, n; cbn; try discriminate; intros; auto.
  f_equal. apply IHl; lia.
Qed.

Lemma map3_length {A B C D} (f : A -> B -> C -> D) l m n :
  length l = length m -> length m = length n ->
  length (map3 f l m n) = length l.
Proof.
  revert m n; induction l; destruct m, n; cbn; try discriminate; intros; auto.
Qed.

Lemma map3_maps {A B C D X} (f : A -> B -> C -> D) (g1 : X -> A) g2 g3 l :
  map3 f (map g1 l) (map g2 l) (map g3 l) = map (fun x => f (g1 x) (g2 x) (g3 x)) l.
Proof. induction l; cbn; congruence. Qed.

Lemma map2_maps {A B C X} (f : A -> B -> C) (g1 : X -> A) g2 l :
  map2 f (map g1 l) (map g2 l) = map (fun x => f (g1 x) (g2 x)) l.
Proof. induction l; cbn; congruence. Qed.

Lemma map2_app {A B C} (f : A -> B -> C) l m l' m' :
  length l = length m -> map2 f (l ++ l') (m ++ m') = map2 f l m ++ map2 f l' m'.
Proof.
  revert m; induction l; destruct m; cbn; try discriminate; intros; auto.
  f_equal. apply IHl; lia.
Qed.

Lemma map2_length {A B C} (f : A -> B -> C) l m :
  length l = length m -> length (map2 f l m) = length l.
Proof. revert m; induction l; destruct m; cbn; try discriminate; auto. Qed.

Lemma ksum_app l m : ksum (l ++ m) = kadd (ksum l) (ksum m).
Proof.
  unfold ksum. induction l as [|a l IH]; cbn [app fold_right]; [ring|].
  rewrite IH. ring.
Qed.

Lemma at_tab E (f : nat -> K) e : e < E -> at_ (tab E f) e = f e.
Proof.
  intros H. unfold at_, tab.
  rewrite (nth_indep _ k0 (f 0)) by (rewrite map_length, seq_length; lia).
  rewrite map_nth, seq_nth by lia. reflexivity.
Qed.

Lemma tab_ext E (f g : nat -> K) : (forall e, e < E -> f e = g e) -> tab E f = tab E g.
Proof.
  intros H. unfold tab. apply map_ext_in. intros e He. apply in_seq in He.
  apply H. lia.
Qed.

(** *** The attention formula *)

Lemma softmax_mean E q ks vs :
  wsum E (softmax (map (dot E q) ks)) vs = tab E (weighted_mean E q ks vs).
Proof.
  unfold wsum, weighted_mean, softmax.
  replace (map kexp (map (dot E q) ks)) with (map (fun k => kexp (dot E q k)) ks)
    by (symmetry; apply map_map).
  apply tab_ext. intros e _.
  set (D := ksum (map (fun x => kexp (dot E q x)) ks)). clearbody D.
  rewrite map_map, map2_map_l, (kdiv_mul _ D). unfold ksum. revert vs.
  induction ks as [|k ks IH]; destruct vs as [|v vs]; cbn [map2 fold_right];
    try ring.
  rewrite IH, (kdiv_mul _ D). ring.
Qed.

(** *** Single output, one head *)

Definition zero (E : nat) : vec K := tab E (fun _ => k0).

(** The state after the (projected) tokens [l]. *)
Definition so_inv (N Nq E : nat) (scale : K -> K) (s : so_state) (l : list (tok K)) :=
  s = SoS (lastn Nq (repeat (zero E) Nq ++ map (map scale) (qs_of l)))
          (lastn N (repeat (zero E) N ++ ks_of l))
          (lastn N (repeat (zero E) N ++ vs_of l)).

Lemma qs_snoc l (t : tok K) : qs_of (l ++ [t]) = qs_of l ++ [fst (fst t)].
Proof. unfold qs_of. rewrite map_app. reflexivity. Qed.
Lemma ks_snoc l (t : tok K) : ks_of (l ++ [t]) = ks_of l ++ [snd (fst t)].
Proof. unfold ks_of. rewrite map_app. reflexivity. Qed.
Lemma vs_snoc l (t : tok K) : vs_of (l ++ [t]) = vs_of l ++ [snd t].
Proof. unfold vs_of. rewrite map_app. reflexivity. Qed.

Lemma roll_lastn {A} N (l : list A) x : 0 < N -> N <= length l ->
  roll_in (lastn N l) x = Ok (lastn N (l ++ [x])).
Proof.
  intros H H1. destruct (lastn_snoc N l x x H H1) as [E1 E2].
  rewrite E2. destruct (lastn N l); [discriminate E1|]. reflexivity.
Qed.

Definition so_out (N Nq E : nat) (scale : K -> K) (l : list (tok K)) (o : list (vec K)) :=
  N <= length l ->
  o = [wsum E (softmax (map (dot E (nth (length l - 1 - Nq) (map (map scale) (qs_of l)) []))
                            (lastn N (ks_of l)))) (lastn N (vs_of l))].

Lemma so_step_ok N Nq E scale s l q k v : 0 < N -> Nq < N ->
  so_inv N Nq E scale s l ->
  exists o s', so_step E scale s q k v = Ok (o, s')
    /\ so_inv N Nq E scale s' (l ++ [(q, k, v)])
    /\ so_out N Nq E scale (l ++ [(q, k, v)]) o.
Proof.
  intros HN HNq ->. unfold so_step. cbn [so_Q so_K so_V].
  rewrite !roll_lastn by (rewrite ?app_length, ?repeat_length; lia).
  cbn [bind]. eexists _, _. split; [reflexivity|].
  unfold so_inv, so_out. rewrite qs_snoc, ks_snoc, vs_snoc.
  cbn [fst snd]. rewrite map_app; cbn [map]. rewrite !app_assoc. split.
  - f_equal. destruct (Nat.eq_dec Nq 0) as [->|Hq].
    + unfold lastn. rewrite !skipn_all2 by lia. reflexivity.
    + destruct (lastn_snoc Nq (repeat (zero E) Nq ++ map (map scale) (qs_of l))
                  (map scale q) [] ltac:(lia)) as [E1 E2].
      { rewrite app_length, repeat_length. lia. }
      etransitivity; [|symmetry; exact E2].
      destruct (lastn Nq _); [discriminate E1|]. reflexivity.
  - rewrite app_length; cbn [length]. intros Hl. f_equal.
    assert (Lk : length (ks_of l) = length l) by apply map_length.
    assert (Lv : length (vs_of l) = length l) by apply map_length.
    assert (Lq : length (map (map scale) (qs_of l)) = length l)
      by (rewrite map_length; apply map_length).
    rewrite <- !app_assoc.
    rewrite (lastn_app N _ (ks_of l ++ [k])) by (rewrite app_length; cbn [length]; lia).
    rewrite (lastn_app N _ (vs_of l ++ [v])) by (rewrite app_length; cbn [length]; lia).
    do 4 f_equal. destruct (Nat.eq_dec Nq 0) as [->|Hq].
    + unfold lastn at 1. rewrite skipn_all2 by lia.
      rewrite app_nth2 by lia. replace (_ - _) with 0 by lia. reflexivity.
    + destruct (lastn_snoc Nq (repeat (zero E) Nq ++ map (map scale) (qs_of l))
                  (map scale q) [] ltac:(lia)) as [E1 _].
      { rewrite app_length, repeat_length. lia. }
      rewrite E1. rewrite app_length, repeat_length, Lq.
      rewrite app_nth2 by (rewrite repeat_length; lia).
      rewrite repeat_length. rewrite app_nth1 by lia. f_equal. lia.
Qed.

(** *** Retroactive, one head *)

Definition den (E : nat) (ks : list (vec K)) (q : vec K) : K :=
  ksum (map (fun k => kexp (dot E q k)) ks).
Definition num (E : nat) (ks vs : list (vec K)) (q : vec K) : vec K :=
  wsum E (map (fun k => kexp (dot E q k)) ks) vs.

Definition re_inv (N E : nat) (scale : K -> K) (s : re_state) (l : list (tok K)) :=
  re_K s = lastn N (repeat (zero E) N ++ ks_of l)
  /\ re_V s = lastn N (repeat (zero E) N ++ vs_of l)
  /\ exists gd gA gQ,
       let rQ := lastn (N - 1) (map (map scale) (qs_of l)) in
       re_Q s = gQ ++ rQ
       /\ re_d s = gd ++ map (den E (re_K s)) rQ
       /\ re_AV s = gA ++ map (num E (re_K s) (re_V s)) rQ
       /\ length gd = length gQ /\ length gA = length gQ
       /\ length gQ = N - 1 - length l.

Definition re_out (N E : nat) (scale : K -> K) (l : list (tok K)) (o : list (vec K)) :=
  N <= length l ->
  o = map (fun q => tab E (weighted_mean E q (lastn N (ks_of l)) (lastn N (vs_of l))))
          (lastn N (map (map scale) (qs_of l))).

Lemma den_snoc E k0' ks k q :
  kadd (ksub (den E (k0' :: ks) q) (kexp (dot E q k0'))) (kexp (dot E q k))
  = den E (ks ++ [k]) q.
Proof.
  unfold den. rewrite map_app, ksum_app. cbn [map ksum fold_right].
  unfold ksum, ksub. ring.
Qed.

Lemma num_snoc E ok ov ks vs k v q : length ks = length vs ->
  tab E (fun e =>
    kadd (ksub (at_ (num E (ok :: ks) (ov :: vs) q) e)
               (kmul (kexp (dot E q ok)) (at_ ov e)))
         (kmul (kexp (dot E q k)) (at_ v e)))
  = num E (ks ++ [k]) (vs ++ [v]) q.
Proof.
  intros H. unfold num, wsum. apply tab_ext. intros e He. rewrite at_tab by lia.
  rewrite map_app, map2_app by (rewrite map_length; auto).
  rewrite ksum_app. cbn [map map2 ksum fold_right]. unfold ksum, ksub. ring.
Qed.

Lemma mean_num_den E ks vs q :
  tab E (fun e => kdiv (at_ (num E ks vs q) e) (den E ks q))
  = tab E (weighted_mean E q ks vs).
Proof.
  apply tab_ext. intros e He. unfold num, wsum, den, weighted_mean.
  rewrite at_tab by lia. rewrite map2_map_l. reflexivity.
Qed.

Lemma lastn_short {A} n (l : list A) : length l <= n -> lastn n l = l.
Proof. intros. unfold lastn. replace (_ - _) with 0 by lia. reflexivity. Qed.

Lemma re_step_ok N E scale s l q k v : 2 <= N ->
  re_inv N E scale s l ->
  exists o s', re_step E scale s q k v = Ok (o, s')
    /\ re_inv N E scale s' (l ++ [(q, k, v)])
    /\ re_out N E scale (l ++ [(q, k, v)]) o.
Proof.
  intros HN. destruct s as [sd sA sQ sK sV].
  intros (HK & HV & gd & gA & gQ & HQ & Hd & HA & L1 & L2 & L3).
  cbn [re_K re_V re_Q re_d re_AV] in *.
  set (qq := map (map scale) (qs_of l)) in *.
  assert (Lk : length (ks_of l) = length l) by apply map_length.
  assert (Lv : length (vs_of l) = length l) by apply map_length.
  assert (Lq : length qq = length l)
    by (unfold qq; rewrite map_length; apply map_length).
  destruct (lastn_snoc N (repeat (zero E) N ++ ks_of l) k [] ltac:(lia)) as [K1 K2].
  { rewrite app_length, repeat_length; lia. }
  destruct (lastn_snoc N (repeat (zero E) N ++ vs_of l) v [] ltac:(lia)) as [V1 V2].
  { rewrite app_length, repeat_length; lia. }
  rewrite <- HK in K1, K2. rewrite <- HV in V1, V2.
  assert (LK : length sK = N)
    by (rewrite HK; apply lastn_length; rewrite app_length, repeat_length; lia).
  assert (LV : length sV = N)
    by (rewrite HV; apply lastn_length; rewrite app_length, repeat_length; lia).
  destruct sK as [|ok sK]; [discriminate K1|]. destruct sV as [|ov sV]; [discriminate V1|].
  cbn [length] in LK, LV. clear K1 V1. cbn [tl] in K2, V2.
  set (rQ := lastn (N - 1) qq) in *.
  assert (LrQ : length rQ = Nat.min (N - 1) (length l)).
  { unfold rQ. destruct (Nat.le_gt_cases (N - 1) (length qq)).
    - rewrite lastn_length by lia. lia.
    - rewrite lastn_short by lia. lia. }
  unfold re_step. cbn [re_K re_V re_Q re_d re_AV first_row roll_in bind].
  assert (Hr : exists Q', roll_in sQ (map scale q) = Ok Q' /\ Q' = tl sQ ++ [map scale q]).
  { destruct sQ as [|a sQ].
    - exfalso. apply (f_equal (@length _)) in HQ. rewrite app_length in HQ.
      cbn in HQ. lia.
    - eexists; split; reflexivity. }
  destruct Hr as (Q' & -> & HQ'). cbn [bind].
  rewrite <- (app_assoc (ks_of l)) in K2 || idtac.
  subst sQ sd sA.
  (* the row-wise parts *)
  rewrite !(map_app _ gQ rQ).
  rewrite !map3_app by (rewrite ?map_length; lia).
  rewrite !map3_maps.
  rewrite (map_ext _ _ (den_snoc E ok sK k)).
  rewrite (map_ext _ _ (fun x => num_snoc E ok ov sK sV k v x ltac:(lia))).
  set (GD := map3 (fun d l0 r => kadd (ksub d l0) r) gd _ _).
  set (GA := map3 _ gA _ _).
  assert (LGD : length GD = length gQ)
    by (unfold GD; rewrite map3_length; rewrite ?map_length; lia).
  assert (LGA : length GA = length gQ)
    by (unfold GA; rewrite map3_length; rewrite ?map_length; lia).
  clearbody GD GA.
  fold (den E (sK ++ [k]) (map scale q)).
  fold (num E (sK ++ [k]) (sV ++ [v]) (map scale q)).
  rewrite <- !app_assoc.
  change [den E (sK ++ [k]) (map scale q)] with (map (den E (sK ++ [k])) [map scale q]).
  change [num E (sK ++ [k]) (sV ++ [v]) (map scale q)]
    with (map (num E (sK ++ [k]) (sV ++ [v])) [map scale q]).
  rewrite <- !map_app.
  eexists _, _. split; [reflexivity|].
  assert (EK : sK ++ [k] = lastn N (repeat (zero E) N ++ ks_of (l ++ [(q, k, v)]))).
  { rewrite ks_snoc, app_assoc. symmetry. exact K2. }
  assert (EV : sV ++ [v] = lastn N (repeat (zero E) N ++ vs_of (l ++ [(q, k, v)]))).
  { rewrite vs_snoc, app_assoc. symmetry. exact V2. }
  assert (Eq : map (map scale) (qs_of (l ++ [(q, k, v)])) = qq ++ [map scale q]).
  { rewrite qs_snoc, map_app. reflexivity. }
  split.
  - unfold re_inv. cbn [re_K re_V re_Q re_d re_AV].
    split; [exact EK|]. split; [exact EV|]. rewrite Eq.
    rewrite app_length; cbn [length].
    destruct gQ as [|g gQ].
    + destruct GD; [|discriminate LGD]. destruct GA; [|discriminate LGA].
      assert (Hll : N - 1 <= length qq) by (cbn in L3; lia).
      destruct (lastn_snoc (N - 1) qq (map scale q) [] ltac:(lia) Hll) as [R1 R2].
      fold rQ in R1, R2.
      exists [], [], []. cbn [app length tl] in *. rewrite R2.
      destruct rQ as [|r rQ]; [discriminate R1|].
      cbn [app map tl] in *. subst Q'. repeat split; auto; lia.
    + destruct GD as [|dd GD]; [discriminate LGD|].
      destruct GA as [|da GA]; [discriminate LGA|].
      exists GD, GA, gQ. cbn [app length tl] in *. subst Q'.
      assert (Er : lastn (N - 1) (qq ++ [map scale q]) = rQ ++ [map scale q]).
      { unfold rQ. rewrite !lastn_short; [reflexivity|lia|].
        rewrite app_length; cbn [length]; lia. }
      rewrite Er. rewrite <- app_assoc. repeat split; auto; lia.
  - unfold re_out. rewrite Eq, app_length; cbn [length]. intros Hl.
    assert (gQ = []) by (destruct gQ; [auto|cbn in L3; lia]). subst gQ.
    destruct GD; [|discriminate LGD]. destruct GA; [|discriminate LGA].
    cbn [app]. rewrite map2_maps.
    assert (Er : lastn N (qq ++ [map scale q]) = rQ ++ [map scale q]).
    { unfold rQ, lastn. rewrite app_length; cbn [length].
      replace (length qq + 1 - N) with (length qq - (N - 1)) by lia.
      rewrite skipn_app. replace (_ - (N - 1) - length qq) with 0 by lia.
      reflexivity. }
    rewrite Er. apply map_ext. intros x. rewrite mean_num_den.
    rewrite EK, EV.
    assert (length (ks_of (l ++ [(q, k, v)])) = length l + 1)
      by (unfold ks_of; rewrite map_length, app_length; reflexivity).
    assert (length (vs_of (l ++ [(q, k, v)])) = length l + 1)
      by (unfold vs_of; rewrite map_length, app_length; reflexivity).
    rewrite (lastn_app N _ (ks_of _)), (lastn_app N _ (vs_of _)) by lia. reflexivity.
Qed.

End Proof.
