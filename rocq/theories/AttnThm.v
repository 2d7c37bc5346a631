(** Attention modules: heads, start-up, streams, chunks, peeking, snapshots. *)
From Coq Require Import List ZArith Bool Arith Lia.
From Coq Require Import ZifyBool ZifyNat.
From Verif Require Import Base Attn AttnSpec AttnProof.
Import ListNotations.

Section Thm.
Context {K : Type} {NK : Num K} {NL : NumLaws K}.

(** *** Heads *)

Section Heads.
Variable p : sdpa K.
Variable Inv : p_state p -> list (tok K) -> Prop.
Variable Out : list (tok K) -> list (vec K) -> Prop.
Variable step_ok : forall s l q k v, Inv s l ->
  exists o s', p_step p s q k v = Ok (o, s')
    /\ Inv s' (l ++ [(q, k, v)]) /\ Out (l ++ [(q, k, v)]) o.

Fixpoint grow (hs : list (list (tok K))) (qs ks vs : list (vec K)) :=
  match hs, qs, ks, vs with
  | l :: hs, q :: qs, k :: ks, v :: vs => (l ++ [(q, k, v)]) :: grow hs qs ks vs
  | _, _, _, _ => []
  end.

Lemma heads_ok ss hs : Forall2 Inv ss hs -> forall qs ks vs,
  length qs = length ss -> length ks = length ss -> length vs = length ss ->
  exists os ss', heads_step p ss qs ks vs = Ok (os, ss')
    /\ Forall2 Inv ss' (grow hs qs ks vs) /\ Forall2 Out (grow hs qs ks vs) os.
Proof.
  induction 1 as [|s l ss hs Hi _ IH]; intros qs ks vs Hq Hk Hv.
  - destruct qs, ks, vs; try discriminate. exists [], []. repeat split; constructor.
  - destruct qs as [|q qs], ks as [|k ks], vs as [|v vs]; try discriminate.
    cbn [length] in *. destruct (step_ok s l q k v Hi) as (o & s' & E1 & E2 & E3).
    destruct (IH qs ks vs) as (os & ss' & E4 & E5 & E6); try lia.
    exists (o :: os), (s' :: ss'). cbn [heads_step grow]. rewrite E1. cbn [bind].
    rewrite E4. cbn [bind]. repeat split; constructor; auto.
Qed.
End Heads.

(** History of head [h]. *)
Definition htok (c : cfg K) (h : nat) (t : tok K) : tok K :=
  (nth h (c_q c (fst (fst t))) [], nth h (c_k c (snd (fst t))) [],
   nth h (c_v c (snd t)) []).
Definition hist (c : cfg K) (H : nat) (l : list (tok K)) : list (list (tok K)) :=
  map (fun h => map (htok c h) l) (seq 0 H).

Lemma grow_nth hs qs ks vs : length qs = length hs -> length ks = length hs ->
  length vs = length hs ->
  grow hs qs ks vs
  = map (fun h => nth h hs [] ++ [(nth h qs [], nth h ks [], nth h vs [])])
        (seq 0 (length hs)).
Proof.
  revert qs ks vs; induction hs as [|l hs IH]; intros qs ks vs Hq Hk Hv;
    destruct qs, ks, vs; try discriminate; [reflexivity|].
  cbn [grow length seq map nth] in *. f_equal.
  rewrite <- seq_shift, map_map. rewrite IH by lia. reflexivity.
Qed.

Lemma hist_snoc c H l t : length (c_q c (fst (fst t))) = H ->
  length (c_k c (snd (fst t))) = H -> length (c_v c (snd t)) = H ->
  grow (hist c H l) (c_q c (fst (fst t))) (c_k c (snd (fst t))) (c_v c (snd t))
  = hist c H (l ++ [t]).
Proof.
  intros Hq Hk Hv. assert (L : length (hist c H l) = H)
    by (unfold hist; rewrite map_length, seq_length; reflexivity).
  rewrite grow_nth by lia. rewrite L. unfold hist. apply map_ext_in.
  intros h Hh. apply in_seq in Hh. rewrite map_app. cbn [map]. f_equal.
  rewrite nth_indep with (d' := map (htok c 0) l)
    by (rewrite map_length, seq_length; lia).
  change (map (htok c 0) l) with ((fun h => map (htok c h) l) 0).
  rewrite map_nth, seq_nth by lia. reflexivity.
Qed.

(** *** The module *)

Section Module.
Variable c : cfg K.
Variable Hc : supported c.
Variable p : sdpa K.
Variable Inv : p_state p -> list (tok K) -> Prop.
Variable Out : list (tok K) -> list (vec K) -> Prop.
Variable step_ok : forall s l q k v, Inv s l ->
  exists o s', p_step p s q k v = Ok (o, s')
    /\ Inv s' (l ++ [(q, k, v)]) /\ Out (l ++ [(q, k, v)]) o.
Variable init_ok : Inv (p_default p) [].

(** State after the tokens [l] since construction or clean_state. *)
Definition m_inv (o : option (mstate p)) (l : list (tok K)) (h : cells) : Prop :=
  match o with
  | None => l = []
  | Some (mem, r) => Forall2 Inv mem (hist c (c_H c) l)
      /\ r < length h
      /\ cell_get h r = Z.min 0 (Z.of_nat (length l) - Z.of_nat (c_N c))
  end.

Lemma cell_get_set h r z : r < length h -> cell_get (set_nth h r z) r = z.
Proof.
  revert r; induction h as [|a h IH]; intros [|r] H; cbn in *; try lia; auto.
  apply IH. lia.
Qed.

Lemma cell_get_other h r r' z : r <> r' -> cell_get (set_nth h r z) r' = cell_get h r'.
Proof.
  unfold cell_get. revert r r'; induction h as [|a h IH]; intros [|r] [|r'] H;
    cbn; try lia; auto.
Qed.

Lemma set_nth_len {A} (h : list A) r z : length (set_nth h r z) = length h.
Proof. revert r; induction h; destruct r; cbn; auto. Qed.

Lemma cell_get_app h r h' : r < length h -> cell_get (h ++ h') r = cell_get h r.
Proof. intros. unfold cell_get. apply app_nth1. auto. Qed.

Lemma Forall2_init n : Forall2 Inv (repeat (p_default p) n) (hist c n []).
Proof.
  unfold hist. generalize 0 at 1. induction n; cbn; constructor; auto.
Qed.

Lemma F2_len {A B} (R : A -> B -> Prop) l m : Forall2 R l m -> length l = length m.
Proof. induction 1; cbn; auto. Qed.

Lemma m_fstep_ok o l h t : m_inv o l h ->
  exists out s h' os, m_fstep c p t o h = Ok (out, s, h')
    /\ m_inv (Some s) (l ++ [t]) h'
    /\ Forall2 Out (hist c (c_H c) (l ++ [t])) os
    /\ out = (if length l + 1 <? c_N c then None else Some (join_heads c os)).
Proof.
  intros Hi. destruct Hc as (HH & Hb & Hp & Hz & Lq & Lk & Lv).
  unfold m_fstep.
  assert (exists mem r h1,
    match o with
    | Some s => (s, h)
    | None =>
        let '(r, h) := cell_new h (- Z.of_nat (c_N c)) in
        ((repeat (p_default p) (c_H c), r), h)
    end = ((mem, r), h1)
    /\ Forall2 Inv mem (hist c (c_H c) l) /\ r < length h1
    /\ cell_get h1 r = Z.min 0 (Z.of_nat (length l) - Z.of_nat (c_N c)))
    as (mem & r & h1 & -> & Hm & Hr & Hg).
  { destruct o as [[mem r]|].
    - exists mem, r, h. destruct Hi as (A & B & C). auto.
    - red in Hi; subst l. cbn [cell_new]. eexists _, _, _. split; [reflexivity|].
      split; [apply Forall2_init|]. split; [rewrite app_length; cbn; lia|].
      unfold cell_get. rewrite app_nth2, Nat.sub_diag by lia. cbn. lia. }
  destruct t as [[q k] v]. unfold mh_forward_step. rewrite Hz, Hp, Hb. cbn [negb].
  pose proof (F2_len _ _ _ Hm) as Lm. unfold hist in Lm.
  rewrite map_length, seq_length in Lm.
  destruct (heads_ok p Inv Out step_ok _ _ Hm (c_q c q) (c_k c k) (c_v c v))
    as (os & ss & E1 & E2 & E3); try (rewrite ?Lq, ?Lk, ?Lv; lia).
  pose proof (hist_snoc c (c_H c) l (q, k, v) (Lq _) (Lk _) (Lv _)) as Hs.
  cbn [fst snd] in Hs. rewrite Hs in E2, E3.
  rewrite E1. cbn [bind].
  eexists _, _, _, os. split; [reflexivity|].
  split; [|split; [exact E3|]].
  - cbn [m_inv]. split; [exact E2|]. rewrite app_length. cbn [length].
    destruct (cell_get h1 r <? 0)%Z eqn:Hlt.
    + rewrite set_nth_len. split; [exact Hr|]. rewrite cell_get_set by auto. lia.
    + split; [exact Hr|]. lia.
  - destruct (cell_get h1 r <? 0)%Z eqn:Hlt.
    + rewrite cell_get_set by auto.
      destruct (Z.ltb_spec (cell_get h1 r + 1) 0), (Nat.ltb_spec (length l + 1) (c_N c));
        try reflexivity; lia.
    + rewrite Hlt. destruct (Nat.ltb_spec (length l + 1) (c_N c)); try reflexivity; lia.
Qed.

(** Output of the module for the history [l], in terms of its heads. *)
Definition m_out (l : list (tok K)) (o : option (list (vec K))) : Prop :=
  exists os, Forall2 Out (hist c (c_H c) l) os
    /\ o = (if length l <? c_N c then None else Some (join_heads c os)).

Lemma m_run_ok ts : forall o l h, m_inv o l h ->
  exists outs o' h', m_run c p o ts h = Ok (outs, o', h')
    /\ length outs = length ts
    /\ m_inv o' (l ++ ts) h'
    /\ (forall n d, n < length ts -> m_out (l ++ firstn (n + 1) ts) (nth n outs d)).
Proof.
  induction ts as [|t ts IH]; intros o l h Hi.
  - exists [], o, h. cbn [m_run]. rewrite app_nil_r. repeat split; auto.
    intros; cbn in *; lia.
  - destruct (m_fstep_ok o l h t Hi) as (out & s & h1 & os & E1 & E2 & E3 & E4).
    destruct (IH _ _ _ E2) as (outs & o' & h' & F1 & F2 & F3 & F4).
    exists (out :: outs), o', h'. cbn [m_run]. unfold m_forward_step.
    assert (Eb : match o with
                 | Some _ => (@None (mstate p), h)
                 | None => (None, h) end = (None, h)) by (destruct o; reflexivity).
    rewrite Eb, E1. cbn [bind]. rewrite F1. cbn [bind].
    split; [reflexivity|]. split; [cbn; lia|].
    split; [rewrite <- app_assoc in F3; exact F3|].
    intros [|n] d Hn.
    + cbn [nth firstn Nat.add]. exists os. rewrite app_length. cbn [length]. auto.
    + cbn [nth Nat.add firstn]. specialize (F4 n d). cbn [length] in Hn.
      rewrite <- app_assoc in F4. apply F4. lia.
Qed.
End Module.

(** *** Joining the heads *)

Lemma Forall2_hist_map c H l (Out : list (tok K) -> list (vec K) -> Prop) f os :
  (forall h o, Out (map (htok c h) l) o -> o = f h) ->
  Forall2 Out (hist c H l) os -> os = map f (seq 0 H).
Proof.
  intros Hf. unfold hist. generalize (seq 0 H). intros s Hs.
  remember (map (fun h => map (htok c h) l) s) as hs eqn:E. revert s E.
  induction Hs as [|x y xs ys Ho _ IH]; intros s E; destruct s; try discriminate.
  - reflexivity.
  - cbn [map] in *. injection E as -> E. f_equal; auto.
Qed.

Lemma qs_htok c h l :
  qs_of (map (htok c h) l) = map (fun q => nth h (c_q c q) []) (qs_of l).
Proof. unfold qs_of. rewrite !map_map. reflexivity. Qed.
Lemma ks_htok c h l :
  ks_of (map (htok c h) l) = map (fun q => nth h (c_k c q) []) (ks_of l).
Proof. unfold ks_of. rewrite !map_map. reflexivity. Qed.
Lemma vs_htok c h l :
  vs_of (map (htok c h) l) = map (fun q => nth h (c_v c q) []) (vs_of l).
Proof. unfold vs_of. rewrite !map_map. reflexivity. Qed.

Lemma lastn_map {A B} (f : A -> B) n l : lastn n (map f l) = map f (lastn n l).
Proof. unfold lastn. rewrite map_length, skipn_map. reflexivity. Qed.

Lemma seq_cons n : 0 < n -> exists r, seq 0 n = 0 :: r.
Proof. destruct n; [lia|]. intros _. cbn. eauto. Qed.

(** The attention of one query in the form in which forward computes it: no law of
    arithmetic is needed to say what the steps compute in terms of it. *)
Definition attn1 (c : cfg K) (q : vec K) (ks vs : list (vec K)) : vec K :=
  c_o c (map (fun h =>
    wsum (c_E c) (softmax (map (dot (c_E c) (map (c_scale c) (nth h (c_q c q) [])))
                               (map (fun k => nth h (c_k c k) []) ks)))
         (map (fun v => nth h (c_v c v) []) vs))
    (seq 0 (c_H c))).

Lemma mha_forward_attn1 c qs ks vs : supported c ->
  mha_forward c qs ks vs = map (fun q => attn1 c q ks vs) qs.
Proof.
  intros (_ & Hb & _ & Hz & _). unfold mha_forward. apply map_ext. intros q.
  unfold attn1. f_equal. apply map_ext. intros h.
  rewrite Hb, Hz, !app_nil_r. reflexivity.
Qed.
Lemma attn1_attention c q ks vs : attn1 c q ks vs = attention c q ks vs.
Proof. unfold attn1, attention. f_equal. apply map_ext. intros h. apply softmax_mean. Qed.
Lemma mha_forward_attention c qs ks vs : supported c ->
  mha_forward c qs ks vs = map (fun q => attention c q ks vs) qs.
Proof.
  intros Hc. rewrite mha_forward_attn1 by exact Hc. apply map_ext. intros q. apply attn1_attention.
Qed.

Lemma mha_forward_ext c qs ks vs :
  mha_forward c qs ks vs = map (fun q => attention_ext c q ks vs) qs.
Proof.
  unfold mha_forward. apply map_ext. intros q.
  unfold attention_ext. f_equal. apply map_ext. intros h. apply softmax_mean.
Qed.

(** *** Single-output attention of a stream *)

Lemma so_delay_lt N qi : 0 < N -> (- Z.of_nat N <= qi < Z.of_nat N)%Z ->
  so_delay N qi < N.
Proof. unfold so_delay. intros. destruct (Z.leb_spec 0 qi); lia. Qed.

Lemma py_index_window {A} N qi n (ts : list A) d : 0 < N ->
  (- Z.of_nat N <= qi < Z.of_nat N)%Z -> n < length ts -> N <= n + 1 ->
  py_index (window N n ts) qi = Ok (nth (n - so_delay N qi) ts d).
Proof.
  intros HN Hq Hn Hw. unfold py_index.
  assert (L : length (window N n ts) = N)
    by (unfold window; rewrite firstn_length_le; rewrite ?skipn_length; lia).
  rewrite L.
  set (j := if (qi <? 0)%Z then (qi + Z.of_nat N)%Z else qi).
  assert (Hj : (0 <= j < Z.of_nat N)%Z) by (unfold j; destruct (Z.ltb_spec qi 0); lia).
  assert (Ej : Z.to_nat j + so_delay N qi = N - 1).
  { unfold so_delay, j. destruct (Z.ltb_spec qi 0), (Z.leb_spec 0 qi); lia. }
  clearbody j. destruct (Z.ltb_spec j 0); [lia|].
  rewrite nth_error_nth' with (d := d) by lia. f_equal.
  unfold window. revert Ej L. generalize (so_delay N qi). intros D Ej L.
  rewrite <- (firstn_skipn (n + 1 - N) ts) at 2.
  rewrite app_nth2 by (rewrite firstn_length_le; lia).
  rewrite firstn_length_le by lia.
  rewrite <- (firstn_skipn N (skipn (n + 1 - N) ts)) at 2.
  rewrite app_nth1; [f_equal; lia|].
  rewrite firstn_length_le; rewrite ?skipn_length; lia.
Qed.

Lemma join_one c (f : nat -> vec K) : 0 < c_H c ->
  join_heads c (map (fun h => [f h]) (seq 0 (c_H c))) = [c_o c (map f (seq 0 (c_H c)))].
Proof.
  intros H. unfold join_heads. destruct (seq_cons _ H) as [r ->]. cbn [map length seq].
  f_equal. f_equal. cbn [nth]. f_equal. rewrite map_map. reflexivity.
Qed.

Lemma join_rows c {X} (g : nat -> X -> vec K) (F : nat -> list X) m : 0 < c_H c ->
  (forall h, h < c_H c -> length (F h) = m) ->
  join_heads c (map (fun h => map (g h) (F h)) (seq 0 (c_H c)))
  = map (fun i => c_o c (map (fun h => nth i (map (g h) (F h)) []) (seq 0 (c_H c))))
        (seq 0 m).
Proof.
  intros H Hm. unfold join_heads.
  replace (match map (fun h => map (g h) (F h)) (seq 0 (c_H c)) with
           | [] => 0 | o :: _ => length o end) with m.
  - apply map_ext. intros i. rewrite map_map. reflexivity.
  - specialize (Hm 0 H). destruct (seq_cons _ H) as [r ->]. cbn [map].
    rewrite map_length. auto.
Qed.

Lemma nth_map_in {A B} (f : A -> B) l i a b :
  i < length l -> nth i (map f l) b = f (nth i l a).
Proof.
  intros H. rewrite nth_indep with (d' := f a) by (rewrite map_length; auto).
  apply map_nth.
Qed.

Lemma so_inv_init N Nq E scale : so_inv N Nq E scale
  (SoS (repeat (zero E) Nq) (repeat (zero E) N) (repeat (zero E) N)) [].
Proof.
  unfold so_inv. cbn [qs_of ks_of vs_of map]. rewrite !app_nil_r.
  rewrite !lastn_short by (rewrite repeat_length; lia). reflexivity.
Qed.

Lemma so_stream1 c qi ts h : supported c -> 0 < c_N c ->
  (- Z.of_nat (c_N c) <= qi < Z.of_nat (c_N c))%Z ->
  exists outs o' h', m_run c (so_sdpa c qi) None ts h = Ok (outs, o', h')
    /\ length outs = length ts
    /\ (forall n d, n < length ts ->
        if n + 1 <? c_N c then nth n outs d = None
        else exists q,
          py_index (window (c_N c) n (qs_of ts)) qi = Ok q
          /\ nth n outs d = Some [attn1 c q (window (c_N c) n (ks_of ts))
                                           (window (c_N c) n (vs_of ts))]).
Proof.
  intros Hc HN Hqi. set (N := c_N c) in *. set (Nq := so_delay N qi).
  assert (HNq : Nq < N) by (apply so_delay_lt; auto).
  destruct (m_run_ok c Hc (so_sdpa c qi)
              (so_inv N Nq (c_E c) (c_scale c)) (so_out N Nq (c_E c) (c_scale c))
              (fun s l q k v => so_step_ok N Nq (c_E c) (c_scale c) s l q k v HN HNq)
              (so_inv_init N Nq (c_E c) (c_scale c)) ts None [] h eq_refl)
    as (outs & o' & h' & E1 & E2 & _ & E4).
  exists outs, o', h'. split; [exact E1|]. split; [exact E2|].
  intros n d Hn. specialize (E4 n d Hn). cbn [app] in E4.
  destruct E4 as (os & F1 & F2). rewrite firstn_length_le in F2 by lia. fold N in F2.
  destruct (n + 1 <? N) eqn:Hlt; [exact F2|].
  assert (HN1 : N <= n + 1) by lia.
  assert (Lq : length (qs_of ts) = length ts) by apply map_length.
  rewrite (py_index_window N qi n (qs_of ts) [] HN Hqi ltac:(lia) HN1). fold Nq.
  eexists. split; [reflexivity|]. rewrite F2. f_equal.
  rewrite (Forall2_hist_map c (c_H c) (firstn (n + 1) ts)
    (so_out N Nq (c_E c) (c_scale c))
    (fun h => [wsum (c_E c) (softmax (map (dot (c_E c)
           (map (c_scale c) (nth h (c_q c (nth (n - Nq) (qs_of ts) [])) [])))
           (map (fun k => nth h (c_k c k) []) (window N n (ks_of ts)))))
           (map (fun v => nth h (c_v c v) []) (window N n (vs_of ts)))]) os); [| |exact F1].
  - rewrite join_one by apply Hc. reflexivity.
  - intros hd o Ho. unfold so_out in Ho. rewrite map_length, firstn_length_le in Ho by lia.
    rewrite (Ho HN1). f_equal.
    rewrite qs_htok, ks_htok, vs_htok, !lastn_map.
    assert (Lk : length (ks_of ts) = length ts) by apply map_length.
    assert (Lv : length (vs_of ts) = length ts) by apply map_length.
    rewrite <- (lastn_window N n (ks_of ts)), <- (lastn_window N n (vs_of ts)) by lia.
    unfold ks_of, vs_of. rewrite !firstn_map. do 4 f_equal.
    rewrite (nth_map_in _ _ _ []).
    2:{ unfold qs_of. rewrite !map_length, firstn_length_le; lia. }
    f_equal. rewrite (nth_map_in _ _ _ []).
    2:{ unfold qs_of. rewrite !map_length, firstn_length_le; lia. }
    f_equal. f_equal. unfold qs_of. rewrite <- firstn_map.
    change (map (fun t => fst (fst t)) ts) with (qs_of ts).
    set (w := qs_of ts) in *. clearbody w.
    transitivity (nth (n - Nq) (firstn (n + 1) w ++ skipn (n + 1) w) []).
    + rewrite app_nth1; [f_equal; lia|].
      rewrite firstn_length_le; lia.
    + rewrite firstn_skipn. reflexivity.
Qed.

Lemma so_stream c qi ts h : supported c -> 0 < c_N c ->
  (- Z.of_nat (c_N c) <= qi < Z.of_nat (c_N c))%Z ->
  exists outs o' h', m_run c (so_sdpa c qi) None ts h = Ok (outs, o', h')
    /\ length outs = length ts
    /\ (forall n d, n < length ts ->
        if n + 1 <? c_N c then nth n outs d = None
        else exists q,
          py_index (window (c_N c) n (qs_of ts)) qi = Ok q
          /\ nth n outs d = Some [attention c q (window (c_N c) n (ks_of ts))
                                               (window (c_N c) n (vs_of ts))]).
Proof.
  intros Hc HN Hqi. destruct (so_stream1 c qi ts h Hc HN Hqi) as (outs & o' & h' & E1 & E2 & E3).
  exists outs, o', h'. split; [exact E1|]. split; [exact E2|]. intros n d Hn. specialize (E3 n d Hn).
  destruct (n + 1 <? c_N c); [exact E3|]. destruct E3 as (q & A & B). exists q. split; [exact A|].
  rewrite B, attn1_attention. reflexivity.
Qed.

(** *** Retroactive attention of a stream *)

Lemma re_inv_init N E scale : re_inv N E scale (re_default N E) [].
Proof.
  unfold re_inv, re_default. cbn [re_K re_V re_Q re_d re_AV ks_of vs_of qs_of map].
  rewrite !app_nil_r. rewrite !lastn_short by (rewrite ?repeat_length; cbn; lia).
  split; [reflexivity|]. split; [reflexivity|].
  eexists _, _, _. cbn [map]. rewrite !app_nil_r.
  split; [reflexivity|]. split; [reflexivity|]. split; [reflexivity|].
  rewrite !repeat_length. cbn [length]. lia.
Qed.

Lemma re_stream c ts h : supported c -> 2 <= c_N c ->
  exists outs o' h', m_run c (re_sdpa c) None ts h = Ok (outs, o', h')
    /\ length outs = length ts
    /\ (forall n d, n < length ts ->
        nth n outs d =
        if n + 1 <? c_N c then None
        else Some (map (fun q => attention c q (window (c_N c) n (ks_of ts))
                                             (window (c_N c) n (vs_of ts)))
                       (window (c_N c) n (qs_of ts)))).
Proof.
  intros Hc HN. set (N := c_N c) in *.
  destruct (m_run_ok c Hc (re_sdpa c)
              (re_inv N (c_E c) (c_scale c)) (re_out N (c_E c) (c_scale c))
              (fun s l q k v => re_step_ok N (c_E c) (c_scale c) s l q k v HN)
              (re_inv_init N (c_E c) (c_scale c)) ts None [] h eq_refl)
    as (outs & o' & h' & E1 & E2 & _ & E4).
  exists outs, o', h'. split; [exact E1|]. split; [exact E2|].
  intros n d Hn. specialize (E4 n d Hn). cbn [app] in E4.
  destruct E4 as (os & F1 & F2). rewrite firstn_length_le in F2 by lia. fold N in F2.
  rewrite F2. destruct (n + 1 <? N) eqn:Hlt; [reflexivity|].
  assert (HN1 : N <= n + 1) by lia. f_equal.
  assert (Lw : length (window N n (qs_of ts)) = N).
  { assert (Lq : length (qs_of ts) = length ts) by apply map_length.
    unfold window. apply firstn_length_le. rewrite skipn_length. lia. }
  set (G := fun h q => tab (c_E c)
        (weighted_mean (c_E c) (map (c_scale c) (nth h (c_q c q) []))
           (map (fun k => nth h (c_k c k) []) (window N n (ks_of ts)))
           (map (fun v => nth h (c_v c v) []) (window N n (vs_of ts))))).
  rewrite (Forall2_hist_map c (c_H c) (firstn (n + 1) ts)
    (re_out N (c_E c) (c_scale c))
    (fun h => map (G h) (window N n (qs_of ts))) os); [| |exact F1].
  - rewrite (join_rows c G (fun _ => window N n (qs_of ts)) N) by (auto; apply Hc).
    transitivity (map (fun i => attention c (nth i (window N n (qs_of ts)) [])
        (window N n (ks_of ts)) (window N n (vs_of ts))) (seq 0 N)).
    + apply map_ext_in. intros i Hi. apply in_seq in Hi. unfold attention. f_equal.
      apply map_ext. intros hd. rewrite (nth_map_in _ _ _ []) by lia. reflexivity.
    + rewrite <- (map_map (fun i => nth i (window N n (qs_of ts)) [])
                    (fun q => attention c q (window N n (ks_of ts)) (window N n (vs_of ts)))).
      f_equal. rewrite <- Lw at 1. generalize (window N n (qs_of ts)). intros w.
      induction w as [|a w IH]; [reflexivity|]. cbn [length seq map nth]. f_equal.
      rewrite <- seq_shift, map_map. exact IH.
  - intros hd o Ho. unfold re_out in Ho. rewrite map_length, firstn_length_le in Ho by lia.
    rewrite (Ho HN1). rewrite qs_htok, ks_htok, vs_htok, !lastn_map, map_map, map_map.
    unfold G.
    assert (Lq : length (qs_of ts) = length ts) by apply map_length.
    assert (Lk : length (ks_of ts) = length ts) by apply map_length.
    assert (Lv : length (vs_of ts) = length ts) by apply map_length.
    rewrite <- (lastn_window N n (qs_of ts)), <- (lastn_window N n (ks_of ts)),
      <- (lastn_window N n (vs_of ts)) by lia.
    unfold qs_of, ks_of, vs_of. rewrite !firstn_map. reflexivity.
Qed.

End Thm.
