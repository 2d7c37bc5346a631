(** Proofs about masked attention: streams, weights, arguments. *)
From Coq Require Import List ZArith Bool Arith Lia.
From Verif Require Import Base Attn AttnSpec AttnProof AttnThm AttnMore Mask MaskSpec MaskProof.
Import ListNotations.

Lemma map_konst {A B} (b : B) (l : list A) : map (fun _ => b) l = repeat b (length l).
Proof. induction l; cbn; congruence. Qed.
Lemma filter_none {A} (p : A -> bool) l : (forall a, In a l -> p a = false) -> filter p l = [].
Proof. induction l as [|a l IH]; intro H; [reflexivity|]. cbn. rewrite (H a) by (now left). apply IH. intros; apply H; now right. Qed.
Lemma filter_all {A} (p : A -> bool) l : (forall a, In a l -> p a = true) -> filter p l = l.
Proof. induction l as [|a l IH]; intro H; [reflexivity|]. cbn. rewrite (H a) by (now left). f_equal. apply IH. intros; apply H; now right. Qed.
Lemma nth_firstn_skipn {A} (l : list A) d a n : a + n <= length l -> map (fun j => nth j l d) (seq a n) = firstn n (skipn a l).
Proof.
  intro H. apply nth_ext with (d := d) (d' := d).
  - rewrite map_length, seq_length, firstn_length_le; [reflexivity|]. rewrite skipn_length. lia.
  - intros j Hj. rewrite map_length, seq_length in Hj.
    rewrite nth_map_in with (a := 0) by (rewrite seq_length; lia). rewrite seq_nth by lia.
    rewrite <- (firstn_skipn a l) at 1. rewrite app_nth2; rewrite firstn_length_le by lia; [|lia].
    replace (a + j - a) with j by lia. rewrite <- (firstn_skipn n (skipn a l)) at 1.
    rewrite app_nth1; [reflexivity|]. rewrite firstn_length_le; rewrite ?skipn_length; lia.
Qed.
Lemma select_ext {A} (p q : nat -> bool) (l : list A) : (forall j, j < length l -> p j = q j) -> select p l = select q l.
Proof.
  intro H. unfold select. f_equal. apply filter_ext_in. intros [j a] I. cbn. apply H. apply in_combine_l in I. apply in_seq in I. lia.
Qed.
Lemma select_window {A} (l : list A) N n : n < length l -> N <= n + 1 ->
  select (fun j => (n <? j + N) && (j <=? n)) l = window N n l.
Proof.
  intros Hn HN. destruct l as [|d l']; [cbn in Hn; lia|]. set (l := d :: l') in *. rewrite (select_nth _ l d).
  replace (seq 0 (length l)) with (seq 0 (n + 1 - N) ++ seq (n + 1 - N) N ++ seq (n + 1) (length l - (n + 1))).
  - rewrite !filter_app, (filter_none _ (seq 0 _)), (filter_all _ (seq (n + 1 - N) N)), (filter_none _ (seq (n + 1) _)).
    + cbn [app]. rewrite app_nil_r. unfold window. apply nth_firstn_skipn. lia.
    + intros a I. apply in_seq in I. destruct (Nat.leb_spec a n); [lia|]. apply andb_false_r.
    + intros a I. apply in_seq in I. destruct (Nat.ltb_spec n (a + N)), (Nat.leb_spec a n); try lia; reflexivity.
    + intros a I. apply in_seq in I. destruct (Nat.ltb_spec n (a + N)); [lia|]. reflexivity.
  - replace (n + 1) with (n + 1 - N + N) at 3 by lia. rewrite <- seq_app.
    replace (n + 1 - N) with (0 + (n + 1 - N)) at 2 by lia. rewrite <- seq_app. f_equal. lia.
Qed.

Section Rows.
Context {K : Type} {NK : Num K}.
Notation vec := (vec K).

(** *** Rows in which nothing is hidden, without any law *)
Theorem masked_kept_row c kpm am need qs ks vs o w i :
  mha_masked c kpm am need qs ks vs = Ok (o, w) -> i < length qs ->
  (forall h j, h < c_H c -> j < length ks -> entry kpm am h i j = Keep) ->
  nth i o [] = nth i (mha_forward c qs ks vs) [].
Proof.
  intros E Hi Ke. unfold mha_masked in E.
  destruct (check_masks (c_H c) (length qs) (length ks) kpm am) as [[]|e] eqn:C; [|discriminate]. apply check_fits in C.
  cbn [bind] in E. injection E as <- _.
  rewrite nth_map_in with (a := 0) by (rewrite seq_length; assumption). rewrite seq_nth by assumption. cbn [plus].
  unfold mha_forward. rewrite nth_map_in with (a := []) by assumption.
  f_equal. apply map_ext_in. intros h Hh. apply in_seq in Hh. f_equal.
  rewrite (merge_entry _ _ _ _ _ _ _ C) by lia.
  rewrite (map_ext_in _ (fun _ => Keep) (seq 0 (length ks))) by (intros j J; apply in_seq in J; apply Ke; lia).
  rewrite map_konst, seq_length. rewrite <- repeat_app. rewrite masked_keep; [reflexivity|].
  rewrite map_length, !app_length, map_length. lia.
Qed.
Theorem masked_nothing c need qs ks vs :
  exists w, mha_masked c None None need qs ks vs = Ok (mha_forward c qs ks vs, w).
Proof.
  destruct (mha_masked c None None need qs ks vs) as [[o w]|e] eqn:E.
  - exists w. f_equal. f_equal. apply nth_ext with (d := []) (d' := []).
    + unfold mha_masked in E. cbn in E. injection E as <- _. unfold mha_forward. rewrite !map_length, seq_length. reflexivity.
    + intros i Hi. eapply masked_kept_row; [exact E| |reflexivity].
      unfold mha_masked in E. cbn in E. injection E as <- _. rewrite map_length, seq_length in Hi. exact Hi.
  - unfold mha_masked in E. cbn in E. discriminate.
Qed.

(** *** The causal mask *)
Lemma table_nth (f : nat -> nat -> mentry K) T i j : i < T -> j < T ->
  nth j (nth i (map (fun i => map (f i) (seq 0 T)) (seq 0 T)) []) Keep = f i j.
Proof.
  intros Hi Hj. rewrite nth_map_in with (a := 0) by (rewrite seq_length; assumption). rewrite seq_nth by assumption. cbn [plus].
  rewrite nth_map_in with (a := 0) by (rewrite seq_length; assumption). rewrite seq_nth by assumption. reflexivity.
Qed.
Lemma table_fit (f : nat -> nat -> mentry K) H T : masks_fit H T T None (Some (For_all (map (fun i => map (f i) (seq 0 T)) (seq 0 T)))).
Proof.
  split; [exact I|]. split; [rewrite map_length, seq_length; reflexivity|]. apply Forall_forall. intros r R.
  apply in_map_iff in R. destruct R as (i & <- & _). rewrite map_length, seq_length. reflexivity.
Qed.
Lemma table_hides (f : nat -> nat -> bool) T :
  hides_only None (Some (For_all (map (fun i => map (fun j => if f i j then Keep (K := K) else Hide) (seq 0 T)) (seq 0 T)))).
Proof.
  intros h i j. split; [|reflexivity]. unfold entry, of_head.
  destruct (Nat.lt_ge_cases i T), (Nat.lt_ge_cases j T).
  - rewrite (table_nth (fun i j => if f i j then Keep else Hide)) by assumption. destruct (f i j); auto.
  - right. apply nth_overflow. rewrite nth_map_in with (a := 0) by (rewrite seq_length; assumption). rewrite map_length, seq_length. assumption.
  - right. rewrite (nth_overflow (map _ _)) by (rewrite map_length, seq_length; assumption). destruct j; reflexivity.
  - right. rewrite (nth_overflow (map _ _)) by (rewrite map_length, seq_length; assumption). destruct j; reflexivity.
Qed.
Lemma window_len {A} N n (l : list A) : n < length l -> N <= n + 1 -> length (window N n l) = N.
Proof. intros. unfold window. rewrite firstn_length_le; rewrite ?skipn_length; lia. Qed.
Lemma masked_ok_len c kpm am need qs ks vs o w : mha_masked c kpm am need qs ks vs = Ok (o, w) -> length o = length qs.
Proof.
  unfold mha_masked. destruct (check_masks _ _ _ _ _); [|discriminate]. cbn. intro E. injection E as <- _. rewrite map_length, seq_length. reflexivity.
Qed.
Lemma masked_runs c kpm am need qs ks vs : masks_fit (c_H c) (length qs) (length ks) kpm am ->
  exists o w, mha_masked c kpm am need qs ks vs = Ok (o, w).
Proof. intro F. unfold mha_masked. rewrite (check_ok _ _ _ _ _ F). cbn. eauto. Qed.

(** A step with query_index = -1 is the last row of forward with the causal mask. *)
Theorem so_causal c need ts h : supported c -> 0 < c_N c ->
  exists outs o' h', m_run c (so_sdpa c (-1)) None ts h = Ok (outs, o', h') /\ length outs = length ts /\
    (forall n d, n < length ts ->
      if n + 1 <? c_N c then nth n outs d = None
      else exists o w,
        so_masked c false (-1) None (Some (causal (c_N c))) need (window (c_N c) n (qs_of ts))
          (window (c_N c) n (ks_of ts)) (window (c_N c) n (vs_of ts)) = Ok (o, w) /\
        nth n outs d = Some [nth (c_N c - 1) o []]).
Proof.
  intros Hc HN. destruct (so_step_forward c (-1) ts h Hc HN ltac:(lia)) as (outs & o' & h' & E1 & E2 & E3).
  exists outs, o', h'. split; [exact E1|]. split; [exact E2|]. intros n d Hn. specialize (E3 n d Hn).
  destruct (Nat.ltb_spec (n + 1) (c_N c)) as [Lt|Ge]; [exact E3|]. destruct E3 as (r & A & B).
  assert (Lq : length (window (c_N c) n (qs_of ts)) = c_N c) by (apply window_len; [unfold qs_of; rewrite map_length; exact Hn|lia]).
  assert (Lk : length (window (c_N c) n (ks_of ts)) = c_N c) by (apply window_len; [unfold ks_of; rewrite map_length; exact Hn|lia]).
  unfold so_masked. destruct (masked_runs c None (Some (causal (c_N c))) need (window (c_N c) n (qs_of ts)) (window (c_N c) n (ks_of ts)) (window (c_N c) n (vs_of ts))) as (o & w & E).
  { rewrite Lq, Lk. apply table_fit. }
  exists o, w. split; [exact E|]. rewrite A. f_equal.
  unfold so_forward in B. destruct (py_index (window (c_N c) n (qs_of ts)) (-1)) as [q|] eqn:P; [|discriminate]. cbn in B. injection B as <-.
  f_equal. rewrite (masked_kept_row _ _ _ _ _ _ _ _ _ (c_N c - 1) E); [|lia|].
  - rewrite mha_forward_attn1 by assumption. rewrite nth_map_in with (a := []) by lia.
    transitivity (attn1 c q (window (c_N c) n (ks_of ts)) (window (c_N c) n (vs_of ts))).
    { pose proof (mha_forward_attn1 c [q] (window (c_N c) n (ks_of ts)) (window (c_N c) n (vs_of ts)) Hc) as M.
      unfold mha_forward in M. cbn [map] in M. injection M as M. exact M. }
    f_equal. unfold py_index in P. rewrite Lq in P. change (-1 <? 0)%Z with true in P. cbv iota in P.
    destruct (Z.ltb_spec (-1 + Z.of_nat (c_N c)) 0); [lia|].
    replace (Z.to_nat (-1 + Z.of_nat (c_N c))) with (c_N c - 1) in P by lia.
    destruct (nth_error (window (c_N c) n (qs_of ts)) (c_N c - 1)) eqn:Ne; [|discriminate]. injection P as ->.
    symmetry. apply nth_error_nth. exact Ne.
  - intros hh j _ Hj. rewrite Lk in Hj. unfold entry, of_head, causal.
    rewrite (table_nth (fun i j => if j <=? i then Keep else Hide)) by lia.
    destruct (Nat.leb_spec j (c_N c - 1)); [reflexivity|lia].
Qed.
End Rows.

Section Laws.
Context {K : Type} {NK : Num K} {NL : NumLaws K}.
Notation vec := (vec K).
Add Ring num_mask2 : (num_ring (K := K)).

Lemma attention_ext_supported (c : cfg K) q ks vs : supported c -> attention_ext c q ks vs = attention c q ks vs.
Proof.
  intros (_ & Hb & _ & Hz & _). unfold attention_ext, attention, extras. rewrite Hb, Hz. cbn [app].
  f_equal. apply map_ext. intro h. rewrite !app_nil_r. reflexivity.
Qed.

(** *** Streams: forward on the whole stream with a banded mask *)
Theorem so_band c qi need ts h : supported c -> 0 < c_N c ->
  (- Z.of_nat (c_N c) <= qi < Z.of_nat (c_N c))%Z ->
  exists outs o' h' o w, m_run c (so_sdpa c qi) None ts h = Ok (outs, o', h') /\ length outs = length ts /\
    so_masked c false qi None (Some (band (c_N c) (so_delay (c_N c) qi) (length ts))) need (qs_of ts) (ks_of ts) (vs_of ts) = Ok (o, w) /\
    length o = length ts /\
    (forall n d, n < length ts ->
      nth n outs d = if n + 1 <? c_N c then None else Some [nth (n - so_delay (c_N c) qi) o []]).
Proof.
  intros Hc HN Hqi. destruct (so_stream c qi ts h Hc HN Hqi) as (outs & o' & h' & E1 & E2 & E3).
  assert (Lq : length (qs_of ts) = length ts) by (unfold qs_of; apply map_length).
  assert (Lk : length (ks_of ts) = length ts) by (unfold ks_of; apply map_length).
  assert (Lv : length (vs_of ts) = length ts) by (unfold vs_of; apply map_length).
  set (D := so_delay (c_N c) qi) in *. pose proof (so_delay_lt (c_N c) qi HN Hqi) as HD. fold D in HD.
  destruct (masked_left c None (Some (band (c_N c) D (length ts))) need (qs_of ts) (ks_of ts) (vs_of ts)) as [w E].
  { congruence. }
  { rewrite Lq, Lk. apply table_fit. }
  { apply (table_hides (fun i j => (i + D <? j + c_N c) && (j <=? i + D))). }
  eexists outs, o', h', _, w. split; [exact E1|]. split; [exact E2|]. split; [exact E|]. split; [rewrite map_length, seq_length; exact Lq|].
  intros n d Hn. specialize (E3 n d Hn). destruct (Nat.ltb_spec (n + 1) (c_N c)) as [Lt|Ge]; [exact E3|].
  destruct E3 as (q & A & B). rewrite B. f_equal. f_equal.
  rewrite nth_map_in with (a := 0) by (rewrite seq_length, Lq; lia). rewrite seq_nth by (rewrite Lq; lia). cbn [plus].
  rewrite attention_ext_supported by assumption.
  rewrite (py_index_window (c_N c) qi n (qs_of ts) []) in A by (rewrite ?Lq; lia). injection A as <-. fold D.
  assert (S : forall (l : list vec), length l = length ts ->
    select (fun j => shown (K := K) (entry None (Some (band (c_N c) D (length ts))) 0 (n - D) j)) l = window (c_N c) n l).
  { intros l Ll. rewrite <- select_window by lia. apply select_ext. intros j Hj. unfold entry, of_head, band.
    rewrite (table_nth (fun i j => if (i + D <? j + c_N c) && (j <=? i + D) then Keep else Hide)) by lia.
    replace (n - D + D) with n by lia. destruct ((n <? j + c_N c) && (j <=? n)); reflexivity. }
  rewrite !S by assumption. reflexivity.
Qed.

(** The newest row of a retroactive step agrees with the causal mask. *)
Theorem re_causal c need ts h : supported c -> 2 <= c_N c ->
  exists outs o' h', m_run c (re_sdpa c) None ts h = Ok (outs, o', h') /\ length outs = length ts /\
    (forall n d, n < length ts ->
      if n + 1 <? c_N c then nth n outs d = None
      else exists rows o w, nth n outs d = Some rows /\
        mha_masked c None (Some (causal (c_N c))) need (window (c_N c) n (qs_of ts))
          (window (c_N c) n (ks_of ts)) (window (c_N c) n (vs_of ts)) = Ok (o, w) /\
        nth (c_N c - 1) rows [] = nth (c_N c - 1) o []).
Proof.
  intros Hc HN. destruct (re_step_forward c ts h Hc HN) as (outs & o' & h' & E1 & E2 & E3).
  exists outs, o', h'. split; [exact E1|]. split; [exact E2|]. intros n d Hn. specialize (E3 n d Hn).
  destruct (Nat.ltb_spec (n + 1) (c_N c)) as [Lt|Ge]; [exact E3|].
  assert (Lq : length (window (c_N c) n (qs_of ts)) = c_N c) by (apply window_len; [unfold qs_of; rewrite map_length; exact Hn|lia]).
  assert (Lk : length (window (c_N c) n (ks_of ts)) = c_N c) by (apply window_len; [unfold ks_of; rewrite map_length; exact Hn|lia]).
  destruct (masked_runs c None (Some (causal (c_N c))) need (window (c_N c) n (qs_of ts)) (window (c_N c) n (ks_of ts)) (window (c_N c) n (vs_of ts))) as (o & w & E).
  { rewrite Lq, Lk. apply table_fit. }
  eexists _, o, w. split; [exact E3|]. split; [exact E|]. symmetry. eapply masked_kept_row; [exact E|lia|].
  intros hh j _ Hj. rewrite Lk in Hj. unfold entry, of_head, causal.
  rewrite (table_nth (fun i j => if j <=? i then Keep else Hide)) by lia.
  destruct (Nat.leb_spec j (c_N c - 1)); [reflexivity|lia].
Qed.

(** *** Attention weights *)
Lemma everything_total c kpm am h i q ks vs :
  ksum (map (wof (c_E c) (map (c_scale c) (nth h (c_q c q) []))) (everything c kpm am h i ks vs)) = total c kpm am h i q ks vs.
Proof.
  unfold total. rewrite <- everything_shown.
  rewrite (ksum_filter (fun x => shown (mof x)) (sof (c_E c) (map (c_scale c) (nth h (c_q c q) [])))).
  - apply ksum_ext. intros [[m k] v]. reflexivity.
  - apply w_shown.
  - apply w_hidden.
Qed.
Lemma everything_len c kpm am h i (ks vs : list vec) : length (everything c kpm am h i ks vs) = length ks + length (extras c fst h).
Proof. unfold everything. rewrite app_length, !map_length, seq_length, combine_length, <- extras_len, Nat.min_id. reflexivity. Qed.
(** Weight of key [j] in head [h]. *)
Definition wgt c kpm am h i (q : vec) (ks vs : list vec) (j : nat) : K :=
  nth j (map (fun x => kdiv (wof (c_E c) (map (c_scale c) (nth h (c_q c q) [])) x) (total c kpm am h i q ks vs)) (everything c kpm am h i ks vs)) k0.
Lemma weights_shape c kpm am qs ks vs o w :
  mha_masked c kpm am true qs ks vs = Ok (o, w) ->
  w = Some (map (fun i => tab (length ks + length (extras c fst 0))
                 (fun j => kdiv (ksum (map (fun h => wgt c kpm am h i (nth i qs []) ks vs j) (seq 0 (c_H c)))) (of_nat (c_H c))))
               (seq 0 (length qs))).
Proof.
  intro E. unfold mha_masked in E.
  destruct (check_masks (c_H c) (length qs) (length ks) kpm am) as [[]|e] eqn:C; [|discriminate]. apply check_fits in C.
  cbn [bind] in E. injection E as _ <-. f_equal. apply map_ext_in. intros i Hi. apply in_seq in Hi.
  unfold mean_heads. rewrite map_length, seq_length.
  assert (Le : length ks + length (match c_bias c with Some p => [head 0 (fst p)] | None => [] end)
                     + length (if c_zero_attn c then [tab (c_E c) (fun _ => k0)] else []) = length ks + length (extras c fst 0)).
  { unfold extras. rewrite app_length. unfold head. lia. }
  rewrite Le. apply tab_ext. intros j Hj. f_equal. f_equal. rewrite map_map. apply map_ext_in. intros h Hh. apply in_seq in Hh.
  rewrite (softmax_row c kpm am h i qs ks vs C) by lia. rewrite weights_of. unfold wgt, at_. rewrite everything_total. reflexivity.
Qed.
Lemma ksum_nth l : ksum (map (fun j => nth j l (k0 (K := K))) (seq 0 (length l))) = ksum l.
Proof. rewrite nth_seq_list. reflexivity. Qed.
Lemma ksum_swap {A B} (f : A -> B -> K) la lb :
  ksum (map (fun a => ksum (map (f a) lb)) la) = ksum (map (fun b => ksum (map (fun a => f a b) la)) lb).
Proof.
  induction la as [|a la IH]; cbn.
  - induction lb as [|b lb IHb]; cbn; [reflexivity|]. change (fold_right kadd k0) with (@ksum K NK). rewrite <- IHb. ring.
  - change (fold_right kadd k0) with (@ksum K NK). rewrite IH. clear IH.
    induction lb as [|b lb IHb]; cbn; [ring|]. change (fold_right kadd k0) with (@ksum K NK). rewrite <- IHb. ring.
Qed.
Lemma extras_len0 (c : cfg K) h : length (extras c fst h) = length (extras c fst 0).
Proof. unfold extras. rewrite !app_length. destruct (c_bias c); reflexivity. Qed.
Theorem weights_sum c kpm am qs ks vs o ws i : mha_masked c kpm am true qs ks vs = Ok (o, Some ws) -> i < length qs ->
  (forall h, h < c_H c -> invertible (total c kpm am h i (nth i qs []) ks vs)) -> invertible (of_nat (c_H c)) ->
  ksum (nth i ws []) = k1.
Proof.
  intros E Hi It Ih. apply weights_shape in E. injection E as ->.
  rewrite nth_map_in with (a := 0) by (rewrite seq_length; assumption). rewrite seq_nth by assumption. cbn [plus].
  unfold tab. rewrite ksum_div, ksum_swap.
  rewrite (map_ext_in _ (fun _ => k1)).
  - rewrite map_konst, seq_length. fold (of_nat (K := K) (c_H c)). rewrite kdiv_mul. exact Ih.
  - intros h Hh. apply in_seq in Hh. unfold wgt.
    set (l := map _ (everything c kpm am h i ks vs)).
    assert (Ll : length l = length ks + length (extras c fst 0)).
    { unfold l. rewrite map_length, everything_len, extras_len0. reflexivity. }
    rewrite <- Ll, ksum_nth. unfold l. rewrite ksum_div, everything_total, kdiv_mul. apply It. lia.
Qed.
Theorem weights_hidden c kpm am qs ks vs o ws i j : mha_masked c kpm am true qs ks vs = Ok (o, Some ws) -> i < length qs ->
  j < length ks -> (forall h, h < c_H c -> entry kpm am h i j = Hide) -> nth j (nth i ws []) k0 = k0.
Proof.
  intros E Hi Hj Hd. apply weights_shape in E. injection E as ->.
  rewrite nth_map_in with (a := 0) by (rewrite seq_length; assumption). rewrite seq_nth by assumption. cbn [plus].
  change (at_ (tab (length ks + length (extras c fst 0))
     (fun j => kdiv (ksum (map (fun h => wgt c kpm am h i (nth i qs []) ks vs j) (seq 0 (c_H c)))) (of_nat (c_H c)))) j = k0).
  rewrite at_tab by lia.
  rewrite (map_ext_in _ (fun _ => k0)).
  - replace (ksum (map (fun _ : nat => k0) (seq 0 (c_H c)))) with (k0 (K := K)); [apply kdiv_0_l|].
    induction (seq 0 (c_H c)) as [|a l IH]; [reflexivity|]. cbn. change (fold_right kadd k0) with (@ksum K NK). rewrite <- IH. ring.
  - intros h Hh. apply in_seq in Hh. unfold wgt, everything. rewrite map_app, app_nth1 by (rewrite !map_length, seq_length; assumption).
    rewrite map_map, nth_map_in with (a := 0) by (rewrite seq_length; assumption). rewrite seq_nth by assumption. cbn [plus].
    unfold wof, mof. cbn [fst]. rewrite Hd by lia. cbn. apply kdiv_0_l.
Qed.
(** With one head the output is the weighted sum of the values. *)
Theorem weights_output c kpm am qs ks vs o ws i : c_H c = 1 -> mha_masked c kpm am true qs ks vs = Ok (o, Some ws) ->
  i < length qs -> length vs = length ks -> invertible (K := K) (of_nat 1) ->
  nth i o [] = c_o c [wsum (c_E c) (nth i ws []) (map (fun v => nth 0 (c_v c v) []) vs ++ extras c snd 0)].
Proof.
  intros H1 E Hi L Iv. pose proof E as E'. apply weights_shape in E'. injection E' as ->.
  unfold mha_masked in E. destruct (check_masks (c_H c) (length qs) (length ks) kpm am) as [[]|e] eqn:C; [|discriminate]. apply check_fits in C.
  cbn [bind] in E. injection E as <- _.
  rewrite !nth_map_in with (a := 0) by (rewrite seq_length; assumption). rewrite seq_nth by assumption. cbn [plus].
  f_equal. rewrite H1. cbn [seq map]. f_equal. rewrite (softmax_row c kpm am 0 i qs ks vs C) by lia. rewrite weights_of.
  f_equal. rewrite everything_total.
  rewrite <- (everything_len c kpm am 0 i ks vs).
  set (l := map _ (everything c kpm am 0 i ks vs)).
  unfold tab. transitivity (map (fun j => nth j l k0) (seq 0 (length l))); [symmetry; apply nth_seq_list|].
  unfold l at 2. rewrite map_length. apply map_ext. intro j. unfold wgt. fold l. cbn [ksum fold_right].
  rewrite kdiv_mul. assert (I1 : kdiv k1 (of_nat 1) = k1 (K := K)).
  { unfold invertible in Iv. transitivity (kmul (of_nat 1) (kdiv k1 (of_nat 1) : K)); [unfold of_nat at 2; cbn; ring|exact Iv]. }
  rewrite I1. ring.
Qed.
End Laws.

(** *** Arguments *)
Section Args.
Context {K : Type} {NK : Num K}.

Lemma bind_pos_first (names : list pname) : forall pos : list (arg K), bind_pos true names pos = bind_pos true names (firstn (length names) pos).
Proof.
  induction names as [|n names IH]; intros [|a pos]; cbn; try reflexivity. rewrite IH. reflexivity.
Qed.
Lemma known_names (x : pname * arg K) : existsb (pname_eqb (fst x)) step_names = known x.
Proof. destruct x as [[] a]; reflexivity. Qed.
Lemma bind_kw_known kw : forall b : bound (K := K), bind_kw true step_names kw b = bind_kw true step_names (filter known kw) b.
Proof.
  induction kw as [|[n a] kw IH]; intro b; [reflexivity|]. cbn [bind_kw filter].
  rewrite <- (known_names (n, a)). cbn [fst]. destruct (existsb (pname_eqb n) step_names) eqn:E.
  - cbn [bind_kw]. rewrite E. destruct (given n b); [reflexivity|apply IH].
  - apply IH.
Qed.
Lemma bind_known (pos : list (arg K)) kw : bind_args true step_names pos kw = bind_args true step_names (firstn 4 pos) (filter known kw).
Proof.
  unfold bind_args. rewrite bind_pos_first. change (length step_names) with 4.
  destruct (bind_pos true step_names (firstn 4 pos)); [|reflexivity]. cbn. rewrite bind_kw_known. reflexivity.
Qed.
Theorem step_drops c p o (pos : list (arg K)) kw h : call_step c p o pos kw h = call_step c p o (firstn 4 pos) (filter known kw) h.
Proof. unfold call_step. rewrite bind_known. reflexivity. Qed.
Theorem steps_drop c p o (pos : list (arg K)) kw h : call_steps c p o pos kw h = call_steps c p o (firstn 4 pos) (filter known kw) h.
Proof. unfold call_steps. rewrite bind_known. reflexivity. Qed.

Definition opt_pad (p : option (list bool)) : arg K := match p with Some p => APad p | None => ANone end.
Definition opt_mask (m : option (amask K)) : arg K := match m with Some m => AMask m | None => ANone end.
Theorem forward_takes c k qs ks vs kpm am need :
  let r := match k with Single sof qi => so_masked c sof qi kpm am need qs ks vs | Retro => mha_masked c kpm am need qs ks vs end in
  call_forward c k [AClip qs; AClip ks; AClip vs] [(KeyPaddingMask, opt_pad kpm); (NeedWeights, ABool need); (AttnMask, opt_mask am)] = r /\
  call_forward c k [AClip qs; AClip ks; AClip vs; opt_pad kpm; ABool need; opt_mask am] [] = r.
Proof. cbv zeta. destruct kpm, am; split; reflexivity. Qed.
Theorem step_positional (c : cfg K) p o q k v m h :
  call_step c p o [ATok q; ATok k; ATok v; APad m] [] h =
  match m with [b] => m_forward_step c p o (q, k, v) b h | _ => Err RuntimeError end.
Proof. destruct m as [|b [|b' m]]; reflexivity. Qed.
Theorem step_positional_false (c : cfg K) p s q k v h : stored (Some s) h ->
  match call_step c p (Some s) [ATok q; ATok k; ATok v; APad [false]] [] h with
  | Ok (_, o', h') => observe o' h' = observe (Some s) h
  | Err _ => True
  end.
Proof.
  intro S. rewrite step_positional. pose proof (peek_step c p s (q, k, v) h S) as P.
  destruct (m_forward_step c p (Some s) (q, k, v) false h) as [[[a o'] h']|e]; [|exact I].
  destruct (m_forward_step c p (Some s) (q, k, v) true h) as [[[a2 o2] h2]|e2]; cbn in P; tauto.
Qed.
End Args.
