(** Lemmas for attention on whole tensors. *)
From Coq Require Import List ZArith Bool Arith Lia ZifyBool ZifyNat.
From Verif Require Import Base Attn AttnSpec AttnProof AttnThm AttnMore Frames Tensor TensorProof TConvProof TAttn TAttnSpec.
Import ListNotations.

Section P.
Context {K : Type} {NK : Num K} {NL : NumLaws K}.
Variable m : tattn K.
Notation E := (t_H m * t_D m). Notation D := (t_D m). Notation H := (t_H m).

(** *** Reading tensors *)

Lemma get_mk (s : list nat) (f : list nat -> K) ix : inr ix s -> get (mk s f) ix = f ix.
Proof. intros Hi. unfold get, mk. cbn [sh dat]. apply at_tab_in. exact Hi. Qed.

Lemma at2 R C (x : list K) r c : r < R -> c < C ->
  Tensor.at_ [R; C] x [Z.of_nat r; Z.of_nat c] = nth (r * C + c) x k0.
Proof.
  intros Hr Hc. unfold Tensor.at_. cbn [offset].
  replace (Z.leb 0 (Z.of_nat r) && Z.ltb (Z.of_nat r) (Z.of_nat R)) with true by lia.
  replace (Z.leb 0 (Z.of_nat c) && Z.ltb (Z.of_nat c) (Z.of_nat C)) with true by lia.
  cbn [option_map size fold_right]. cbn [s0 num_scal]. f_equal. lia.
Qed.
Lemma get2 R C (x : tens K) r c : sh x = [R; C] -> r < R -> c < C -> get x [r; c] = nth (r * C + c) (dat x) k0.
Proof. intros Hs Hr Hc. unfold get. rewrite Hs. apply at2; assumption. Qed.
Lemma get3 A R C (x : tens K) a r c : sh x = [A; R; C] -> a < A -> r < R -> c < C ->
  get x [a; r; c] = nth ((a * R + r) * C + c) (dat x) k0.
Proof.
  intros Hs Ha Hr Hc. unfold get. rewrite Hs. unfold Tensor.at_. cbn [map offset].
  replace (Z.leb 0 (Z.of_nat a) && Z.ltb (Z.of_nat a) (Z.of_nat A)) with true by lia.
  replace (Z.leb 0 (Z.of_nat r) && Z.ltb (Z.of_nat r) (Z.of_nat R)) with true by lia.
  replace (Z.leb 0 (Z.of_nat c) && Z.ltb (Z.of_nat c) (Z.of_nat C)) with true by lia.
  cbn [option_map size fold_right]. cbn [s0 num_scal]. f_equal. lia.
Qed.

Lemma nth_skip {A} (l : list A) n i d : nth i (skipn n l) d = nth (n + i) l d.
Proof. revert l. induction n as [|n IH]; intros [|a l]; cbn; try reflexivity; [destruct i; reflexivity|]. apply IH. Qed.
Lemma nth_first {A} (l : list A) n i d : i < n -> nth i (firstn n l) d = nth i l d.
Proof.
  revert l i. induction n as [|n IH]; intros [|a l] i Hi; try lia; cbn; [reflexivity|].
  destruct i; [reflexivity|]. apply IH. lia.
Qed.
Lemma nth_chunk i n (l : list K) d : d < n -> nth d (chunk i n l) k0 = nth (i * n + d) l k0.
Proof. intros Hd. unfold chunk. rewrite nth_first by exact Hd. apply nth_skip. Qed.
Lemma chunk_len i n (l : list K) : S i * n <= length l -> length (chunk i n l) = n.
Proof. intros Hl. unfold chunk. rewrite firstn_length_le; [reflexivity|]. rewrite skipn_length. cbn in Hl. lia. Qed.

Lemma nth_concat (l : list (list K)) n : Forall (fun a => length a = n) l -> forall r d, d < n ->
  nth (r * n + d) (concat l) k0 = nth d (nth r l []) k0.
Proof.
  induction 1 as [|a l Ha Hl IH]; intros r d Hd.
  - cbn. destruct (r * n + d), r, d; reflexivity.
  - cbn [concat]. destruct r as [|r].
    + rewrite app_nth1 by lia. reflexivity.
    + rewrite app_nth2 by lia. cbn [nth]. rewrite <- IH by exact Hd. f_equal. lia.
Qed.
Lemma nth_map_seq {A} (f : nat -> A) n i d : i < n -> nth i (map f (seq 0 n)) d = f i.
Proof. intros Hi. rewrite (nth_indep _ d (f 0)) by (rewrite map_length, seq_length; exact Hi). rewrite map_nth, seq_nth by exact Hi. reflexivity. Qed.
Lemma list_nth_seq {A} (l : list A) d : l = map (fun i => nth i l d) (seq 0 (length l)).
Proof.
  induction l as [|a l IH]; [reflexivity|]. cbn [length seq map nth]. f_equal.
  rewrite <- seq_shift, map_map. exact IH.
Qed.

(** *** Projections *)

Lemma nth_linear R I O w b (x : list K) r o : r < R -> o < O ->
  nth (r * O + o) (linear R I O w b x) k0
  = kadd (bias_of b o) (Attn.ksum (map (fun i => kmul (nth (r * I + i) x k0) (nth (o * I + i) w k0)) (seq 0 I))).
Proof.
  intros Hr Ho. unfold linear.
  rewrite <- (at2 R O _ r o Hr Ho). change [Z.of_nat r; Z.of_nat o] with (map Z.of_nat [r; o]).
  rewrite at_tab_in by (repeat constructor; assumption).
  f_equal. apply f_equal. apply map_ext_seq. intros i Hi. rewrite !at2 by lia. reflexivity.
Qed.
Lemma linear_len R I O w b (x : list K) : length (linear R I O w b x) = R * O.
Proof. unfold linear. rewrite tab_len. unfold size. cbn. lia. Qed.

Definition rowd (b : nat) (x : list K) : list K := map (fun e => nth (b * E + e) x k0) (seq 0 E).

Lemma bound2 a A c C : a < A -> c < C -> a * C + c < A * C.
Proof. intros. assert (L : S a * C <= A * C) by (apply Nat.mul_le_mono_r; lia). cbn in L. lia. Qed.

Lemma nth_in_proj i B x b o : b < B -> o < E ->
  nth (b * E + o) (in_proj m i B x) k0
  = kadd (bias_of (t_bin m) (i * E + o))
      (Attn.ksum (map (fun j => kmul (nth j (rowd b x) k0) (nth ((i * E + o) * E + j) (t_win m) k0)) (seq 0 E))).
Proof.
  intros Hb Ho. unfold in_proj. change (t_E m) with E. rewrite nth_linear by assumption. f_equal.
  - destruct (t_bin m) as [v|]; [|reflexivity]. cbn. apply nth_chunk. exact Ho.
  - apply f_equal. apply map_ext_seq. intros j Hj. f_equal.
    + unfold rowd. rewrite nth_map_seq by lia. reflexivity.
    + rewrite nth_chunk by (apply bound2; lia). f_equal. lia.
Qed.

Lemma head_proj i B x b h : b < B -> h < H ->
  nth (b * H + h) (heads m B (in_proj m i B x)) [] = head_of m i h (rowd b x).
Proof.
  intros Hb Hh. unfold heads. rewrite nth_map_seq by (apply bound2; assumption).
  assert (Hr : S (b * H + h) * D <= length (in_proj m i B x)).
  { unfold in_proj. rewrite linear_len. unfold t_E. rewrite Nat.mul_assoc. apply Nat.mul_le_mono_r.
    pose proof (bound2 b B h H Hb Hh). lia. }
  rewrite (list_nth_seq (chunk _ _ _) k0), chunk_len by exact Hr.
  unfold head_of. apply map_ext_seq. intros d Hd. cbn in Hd. rewrite nth_chunk by lia.
  rewrite <- (nth_in_proj i B x b (h * D + d) Hb) by (apply bound2; lia). f_equal. lia.
Qed.

Lemma nth_out_proj B hs b e : b < B -> e < E -> Forall (fun a => length a = D) hs ->
  nth (b * E + e) (out_proj m B hs) k0
  = kadd (bias_of (t_bout m) e)
      (Attn.ksum (map (fun j => kmul (nth (j mod D) (nth (b * H + j / D) hs []) k0) (nth (e * E + j) (t_wout m) k0)) (seq 0 E))).
Proof.
  intros Hb He Hl. unfold out_proj. change (t_E m) with E. rewrite nth_linear by assumption. f_equal.
  apply f_equal. apply map_ext_seq. intros j Hj. f_equal.
  assert (HD : D <> 0) by (intros Z; rewrite Z in He; lia).
  rewrite <- (nth_concat hs D Hl) by (apply Nat.mod_upper_bound; exact HD). f_equal.
  pose proof (Nat.div_mod j D HD). nia.
Qed.

Lemma heads_len B x : length (heads m B x) = B * H.
Proof. unfold heads. rewrite map_length, seq_length. reflexivity. Qed.

Lemma supported_acfg B : 0 < B -> 0 < H -> supported (acfg m B).
Proof.
  intros HB HH. unfold supported. cbn [acfg c_H c_bias c_packed c_zero_attn c_q c_k c_v].
  repeat split; try (intros; apply heads_len). nia.
Qed.

Lemma att_entry B q ks vs b e : b < B -> e < E ->
  nth (b * E + e) (attention (acfg m B) q ks vs) k0
  = mha_entry m (rowd b q) (map (rowd b) ks) (map (rowd b) vs) e.
Proof.
  intros Hb He. unfold attention. cbn [acfg c_o c_E c_q c_k c_v c_H c_scale].
  rewrite nth_out_proj; [|assumption|assumption|].
  2:{ apply Forall_forall. intros a Ha. apply in_map_iff in Ha as (h & <- & _). unfold Attn.tab. rewrite map_length, seq_length. reflexivity. }
  unfold mha_entry. f_equal. apply f_equal. apply map_ext_seq. intros j Hj.
  assert (HD : D <> 0) by (intros Z; rewrite Z in He; lia).
  assert (Hh : j / D < H) by (apply Nat.div_lt_upper_bound; nia).
  f_equal. rewrite nth_map_seq by (apply bound2; assumption).
  unfold Attn.tab. rewrite nth_map_seq by (apply Nat.mod_upper_bound; exact HD).
  rewrite head_proj by assumption. rewrite !map_map. f_equal.
  - apply map_ext. intros k. apply head_proj; assumption.
  - apply map_ext. intros k. apply head_proj; assumption.
Qed.
Lemma att_len B q ks vs : length (attention (acfg m B) q ks vs) = B * E.
Proof. unfold attention. cbn [acfg c_o]. unfold out_proj. apply linear_len. Qed.

(** *** Slices and layouts *)

Lemma of_rows_get B rows l b e : Forall (fun r => length r = B * E) rows -> l < length rows -> b < B -> e < E ->
  get (of_rows m B rows) [l; b; e] = nth (b * E + e) (nth l rows []) k0.
Proof.
  intros Hr Hl Hb He. rewrite (get3 (length rows) B E (of_rows m B rows) l b e eq_refl Hl Hb He).
  cbn [of_rows dat]. rewrite <- (nth_concat rows (B * E) Hr) by (apply bound2; assumption).
  f_equal. nia.
Qed.

Lemma slice_row L B (x : tens K) t b : sh x = [L; B; E] -> t < L -> b < B ->
  rowd b (dat (select 0 t x)) = map (fun e => get x [t; b; e]) (seq 0 E).
Proof.
  intros Hs Ht Hb. unfold rowd. apply map_ext_seq. intros e He. cbn in He.
  rewrite <- (get2 B E (select 0 t x) b e); [| |assumption|lia].
  - unfold select. rewrite Hs. cbn [remove_at firstn skipn app].
    rewrite get_mk by (repeat constructor; lia). reflexivity.
  - unfold select. rewrite Hs. reflexivity.
Qed.

Definition flip (x : tens K) : tens K :=
  let x := if t_eds m then permute [0; 2; 1] x else x in
  if t_bf m then transpose 1 0 x else x.
Definition unflip (x : tens K) : tens K :=
  let x := if t_bf m then transpose 1 0 x else x in
  if t_eds m then permute [0; 2; 1] x else x.

Ltac in_range := repeat constructor; assumption.

Lemma flip_ok B L x : clip_shape m B L x ->
  sh (flip x) = [L; B; E] /\ forall t b e, t < L -> b < B -> e < E -> get (flip x) [t; b; e] = get x (idx m b t e).
Proof.
  unfold clip_shape, idx, flip. destruct x as [s d]. cbn [sh]. intros ->.
  destruct (t_bf m), (t_eds m); (split; [reflexivity|]); intros t b e Ht Hb He; try reflexivity;
    unfold transpose, permute; cbn [sh map seq length nth mk Nat.eqb];
    repeat (rewrite get_mk by in_range; cbn [map seq length nth index_of Nat.eqb]); reflexivity.
Qed.
Lemma unflip_ok B L y : sh y = [L; B; E] ->
  clip_shape m B L (unflip y) /\ forall t b e, t < L -> b < B -> e < E -> get (unflip y) (idx m b t e) = get y [t; b; e].
Proof.
  unfold clip_shape, idx, unflip. destruct y as [s d]. cbn [sh]. intros ->.
  destruct (t_bf m), (t_eds m); (split; [reflexivity|]); intros t b e Ht Hb He; try reflexivity;
    unfold transpose, permute; cbn [sh map seq length nth mk Nat.eqb];
    repeat (rewrite get_mk by in_range; cbn [map seq length nth index_of Nat.eqb]); reflexivity.
Qed.

Lemma slices_len x : length (slices x) = nth 0 (sh x) 0.
Proof. unfold slices. rewrite map_length, seq_length. reflexivity. Qed.

(** Rows of the slices are the tokens. *)
Lemma slices_token B L x b : clip_shape m B L x -> b < B ->
  map (rowd b) (slices (flip x)) = map (token m x b) (seq 0 L).
Proof.
  intros Hx Hb. destruct (flip_ok B L x Hx) as [Hs Hg]. unfold slices. rewrite Hs. cbn [nth].
  rewrite map_map. apply map_ext_seq. intros t Ht. cbn in Ht. rewrite (slice_row L B _ t b Hs) by lia.
  unfold token. apply map_ext_seq. intros e He. apply Hg; lia.
Qed.

(** *** forward *)

Lemma shapes3_ok B L S q k v : sh q = [L; B; E] -> sh k = [S; B; E] -> sh v = [S; B; E] -> shapes3 m q k v = Some B.
Proof. intros Hq Hk Hv. unfold shapes3. rewrite Hq, Hk, Hv. cbn [forallb]. unfold t_E. rewrite !Nat.eqb_refl. reflexivity. Qed.

Lemma b_forward_ok B L S q k v : 0 < B -> 0 < H ->
  clip_shape m B L q -> clip_shape m B S k -> clip_shape m B S v ->
  exists y, b_forward m q k v = Ok y /\ clip_shape m B L y
    /\ forall b t e, b < B -> t < L -> e < E ->
       get y (idx m b t e) = mha_entry m (token m q b t) (map (token m k b) (seq 0 S)) (map (token m v b) (seq 0 S)) e.
Proof.
  intros HB HH Hq Hk Hv.
  destruct (flip_ok B L q Hq) as [Sq _], (flip_ok B S k Hk) as [Sk _], (flip_ok B S v Hv) as [Sv _].
  pose (rows := mha_forward (acfg m B) (slices (flip q)) (slices (flip k)) (slices (flip v))).
  assert (Er : rows = map (fun q => attention (acfg m B) q (slices (flip k)) (slices (flip v))) (slices (flip q)))
    by (apply mha_forward_attention, supported_acfg; assumption).
  assert (Lr : length rows = L) by (rewrite Er, map_length, slices_len, Sq; reflexivity).
  exists (unflip (of_rows m B rows)). split.
  - unfold b_forward, nn_forward. fold (flip q). fold (flip k). fold (flip v).
    rewrite (shapes3_ok B L S) by assumption. cbn [bind]. reflexivity.
  - destruct (unflip_ok B L (of_rows m B rows)) as [U1 U2].
    { cbn [of_rows sh]. rewrite Lr. reflexivity. }
    split; [exact U1|]. intros b t e Hb Ht He. rewrite U2 by assumption.
    assert (Fr : Forall (fun r => length r = B * E) rows).
    { rewrite Er. apply Forall_forall. intros r Hr. apply in_map_iff in Hr as (x & <- & _). apply att_len. }
    rewrite of_rows_get by (assumption || lia). rewrite Er.
    rewrite (nth_map_in _ _ t []) by (rewrite slices_len, Sq; exact Ht).
    rewrite att_entry by assumption. rewrite !(slices_token B S) by assumption. f_equal.
    rewrite <- (nth_map_in (rowd b) (slices (flip q)) t [] []) by (rewrite slices_len, Sq; exact Ht).
    rewrite (slices_token B L) by assumption. apply nth_map_seq. exact Ht.
Qed.

(** The selected query, kept as a clip of length one. *)
Definition tdim : nat := if t_bf m then if t_eds m then 2 else 1 else 0.
Lemma select_clip B L q j : clip_shape m B L q -> j < L ->
  clip_shape m B 1 (unsqueeze tdim (select tdim j q))
  /\ forall b, b < B -> token m (unsqueeze tdim (select tdim j q)) b 0 = token m q b j.
Proof.
  unfold clip_shape, idx, token, idx, tdim. destruct q as [s d]. cbn [sh]. intros ->. intros Hj.
  destruct (t_bf m), (t_eds m); (split; [reflexivity|]); intros b Hb; apply map_ext_seq; intros e He;
    cbn in He; destruct He as [_ He];
    (erewrite get3; [|reflexivity|first [exact Hb|exact He|lia]..]);
    unfold select; cbn [sh dat unsqueeze mk remove_at insert_at firstn skipn app];
    match goal with
    | |- nth _ (Tensor.tab [?A; ?C] ?f) _ = _ =>
        first
          [ transitivity (get (mk [A; C] f) [b; e]);
            [rewrite (get2 A C (mk [A; C] f) b e eq_refl) by assumption; cbn [mk dat]; f_equal; lia
            | rewrite get_mk by in_range; reflexivity]
          | transitivity (get (mk [A; C] f) [e; b]);
            [rewrite (get2 A C (mk [A; C] f) e b eq_refl) by assumption; cbn [mk dat]; f_equal; lia
            | rewrite get_mk by in_range; reflexivity] ]
    end.
Qed.
Lemma s_forward_single B L S q k v qi : 0 < B -> 0 < H ->
  clip_shape m B L q -> clip_shape m B S k -> clip_shape m B S v ->
  (- Z.of_nat L <= qi < Z.of_nat L)%Z ->
  exists y, s_forward m true qi q k v = Ok y /\ clip_shape m B 1 y
    /\ forall b e, b < B -> e < E ->
       get y (idx m b 0 e) = mha_entry m (token m q b (Z.to_nat (if Z.ltb qi 0 then qi + Z.of_nat L else qi)))
                               (map (token m k b) (seq 0 S)) (map (token m v b) (seq 0 S)) e.
Proof.
  intros HB HH Hq Hk Hv Hi.
  set (j := Z.to_nat (if Z.ltb qi 0 then qi + Z.of_nat L else qi)).
  assert (Hj : j < L) by (unfold j; destruct (Z.ltb_spec qi 0); lia).
  destruct (select_clip B L q j Hq Hj) as [S1 S2].
  destruct (b_forward_ok B 1 S _ k v HB HH S1 Hk Hv) as (y & Y1 & Y2 & Y3).
  exists y. split; [|split; [exact Y2|]].
  - rewrite <- Y1. unfold s_forward, tdim, py_select. unfold clip_shape, idx in Hq. rewrite Hq.
    destruct (t_bf m), (t_eds m); cbn [nth];
      (replace (Z.leb 0 (if Z.ltb qi 0 then qi + Z.of_nat L else qi) && Z.ltb (if Z.ltb qi 0 then qi + Z.of_nat L else qi) (Z.of_nat L))%Z
        with true by (destruct (Z.ltb_spec qi 0); lia)); cbn [bind]; reflexivity.
  - intros b e Hb He. rewrite Y3 by (assumption || lia). rewrite S2 by assumption. reflexivity.
Qed.

(** *** Steps *)

Definition toks (t : step3 K) : tok K := let '(q, k, v) := t in (dat q, dat k, dat v).
Definition view (B : nat) (rows : list (list K)) : tens K :=
  let y := of_rows m B rows in if t_bf m then transpose 1 0 y else y.

Lemma run_of (p : sdpa K) (f : option (mstate p) -> tens K -> tens K -> tens K -> bool -> cells -> res (option (tens K) * option (mstate p) * cells)) g B :
  (forall o q k v h, f o q k v true h = ('(out, o, h) <- b_forward_step m p o q k v true h ;; Ok (option_map g out, o, h))) ->
  forall ts, frames_ok m B ts -> forall o h,
  t_run f o ts h = ('(outs, o, h) <- m_run (acfg m B) p o (map toks ts) h ;;
                    Ok (map (option_map (fun r => g (view B r))) outs, o, h)).
Proof.
  intros Hf. induction ts as [|[[q k] v] ts IH]; intros Hts o h; [reflexivity|].
  apply Forall_inv in Hts as F. apply Forall_inv_tail in Hts as F4. cbn in F. destruct F as (F1 & F2 & F3).
  cbn [t_run map toks m_run]. rewrite Hf. unfold b_forward_step.
  assert (Es : shapes2 m q k v = Some B).
  { unfold shapes2. unfold frame_shape in *. rewrite F1, F2, F3. cbn [forallb]. unfold t_E. rewrite !Nat.eqb_refl. reflexivity. }
  rewrite Es. destruct (m_forward_step (acfg m B) p o (dat q, dat k, dat v) true h) as [[[out o1] h1]|]; [|reflexivity].
  cbn [bind]. rewrite IH by exact F4.
  destruct (m_run (acfg m B) p o1 (map toks ts) h1) as [[[outs o2] h2]|]; [|reflexivity].
  cbn [bind]. destruct out; reflexivity.
Qed.

Lemma window_times {A} (l : list A) d n : t_N m <= n + 1 -> n < length l ->
  window (t_N m) n l = map (fun i => nth i l d) (times m n).
Proof.
  intros HN Hn. unfold window, times.
  rewrite (list_nth_seq (firstn _ _) d).
  rewrite firstn_length_le by (rewrite skipn_length; lia).
  transitivity (map (fun i => nth i l d) (map (fun i => n + 1 - t_N m + i) (seq 0 (t_N m)))).
  - rewrite map_map. apply map_ext_seq. intros i Hi. cbn in Hi. rewrite nth_first by lia. apply nth_skip.
  - f_equal. clear. generalize (n + 1 - t_N m). intros a. revert a. induction (t_N m) as [|N IH]; intros a; [reflexivity|].
    cbn [seq map]. f_equal; [lia|]. rewrite <- seq_shift, map_map. rewrite <- (IH (S a)). apply map_ext. intros; lia.
Qed.

Lemma row_rowd B x b : frame_shape m B x -> b < B -> row m x b = rowd b (dat x).
Proof. intros Hx Hb. unfold row, rowd. apply map_ext_seq. intros e He. cbn in He. apply (get2 B E); [exact Hx|lia..]. Qed.

Lemma qpos_delay qi n : (- Z.of_nat (t_N m) <= qi < Z.of_nat (t_N m))%Z -> t_N m <= n + 1 ->
  qpos m qi n = n - so_delay (t_N m) qi.
Proof. intros Hq Hn. unfold qpos, so_delay. destruct (Z.leb_spec 0 qi); lia. Qed.


(** The tokens of one batch element in the window. *)
Definition datas (f : step3 K -> tens K) (ts : list (step3 K)) : list (list K) := map (fun t => dat (f t)) ts.
Lemma window_rows B b n (f : step3 K -> tens K) ts : Forall (fun t => frame_shape m B (f t)) ts -> b < B ->
  t_N m <= n + 1 -> n < length ts ->
  map (rowd b) (window (t_N m) n (datas f ts)) = map (fun i => nth i (map (fun t => row m (f t) b) ts) []) (times m n).
Proof.
  intros Hf Hb HN Hn.
  rewrite (window_times _ [] n HN) by (unfold datas; rewrite map_length; exact Hn).
  rewrite map_map. apply map_ext_in. intros i Hi. unfold times in Hi. apply in_seq in Hi.
  unfold datas. destruct ts as [|t0 ts]; [cbn in Hn; lia|].
  rewrite !(nth_map_in _ _ i t0) by lia. symmetry. apply (row_rowd B); [|exact Hb].
  rewrite Forall_forall in Hf. apply Hf. apply nth_In. lia.
Qed.
Lemma row_at B b i (f : step3 K -> tens K) ts : Forall (fun t => frame_shape m B (f t)) ts -> b < B -> i < length ts ->
  rowd b (nth i (datas f ts) []) = nth i (map (fun t => row m (f t) b) ts) [].
Proof.
  intros Hf Hb Hi. unfold datas. destruct ts as [|t0 ts]; [cbn in Hi; lia|].
  rewrite !(nth_map_in _ _ i t0) by exact Hi. symmetry. apply (row_rowd B); [|exact Hb].
  rewrite Forall_forall in Hf. apply Hf. apply nth_In. lia.
Qed.
Lemma frames_q B ts : frames_ok m B ts -> Forall (fun t => frame_shape m B (fst (fst t))) ts.
Proof. intros Hf. eapply Forall_impl; [|exact Hf]. intros [[q k] v] HH. apply HH. Qed.
Lemma frames_k B ts : frames_ok m B ts -> Forall (fun t => frame_shape m B (snd (fst t))) ts.
Proof. intros Hf. eapply Forall_impl; [|exact Hf]. intros [[q k] v] HH. apply HH. Qed.
Lemma frames_v B ts : frames_ok m B ts -> Forall (fun t => frame_shape m B (snd t)) ts.
Proof. intros Hf. eapply Forall_impl; [|exact Hf]. intros [[q k] v] HH. apply HH. Qed.
Lemma qs_toks ts : qs_of (map toks ts) = datas (fun t => fst (fst t)) ts.
Proof. unfold qs_of, datas. rewrite map_map. apply map_ext. intros [[q k] v]. reflexivity. Qed.
Lemma ks_toks ts : ks_of (map toks ts) = datas (fun t => snd (fst t)) ts.
Proof. unfold ks_of, datas. rewrite map_map. apply map_ext. intros [[q k] v]. reflexivity. Qed.
Lemma vs_toks ts : vs_of (map toks ts) = datas (fun t => snd t) ts.
Proof. unfold vs_of, datas. rewrite map_map. apply map_ext. intros [[q k] v]. reflexivity. Qed.

(** One output row of the step that ends the window at time [n]. *)
Definition att_at (B : nat) (ts : list (step3 K)) (i n : nat) : list K :=
  attention (acfg m B) (nth i (datas (fun t => fst (fst t)) ts) [])
    (window (t_N m) n (datas (fun t => snd (fst t)) ts)) (window (t_N m) n (datas (fun t => snd t) ts)).
Lemma att_at_entry B ts i n b e : frames_ok m B ts -> b < B -> e < E -> t_N m <= n + 1 -> n < length ts -> i < length ts ->
  nth (b * E + e) (att_at B ts i n) k0
  = mha_entry m (q_at m ts b i) (map (k_at m ts b) (times m n)) (map (v_at m ts b) (times m n)) e.
Proof.
  intros Hf Hb He HN Hn Hi. unfold att_at. rewrite att_entry by assumption. f_equal.
  - apply (row_at B b i (fun t => fst (fst t))); [apply frames_q|..]; assumption.
  - apply (window_rows B b n (fun t => snd (fst t))); [apply frames_k|..]; assumption.
  - apply (window_rows B b n (fun t => snd t)); [apply frames_v|..]; assumption.
Qed.

(** What the heads return for a stream, one list of rows per step. *)
Lemma so_rows B qi ts h : 0 < B -> 0 < H -> 0 < t_N m -> (- Z.of_nat (t_N m) <= qi < Z.of_nat (t_N m))%Z ->
  exists outs o h', m_run (acfg m B) (ts_sdpa m qi) None (map toks ts) h = Ok (outs, o, h')
    /\ length outs = length ts
    /\ forall n d, n < length ts -> nth n outs d = if n + 1 <? t_N m then None else Some [att_at B ts (qpos m qi n) n].
Proof.
  intros HB HH HN Hq.
  destruct (so_stream (acfg m B) qi (map toks ts) h (supported_acfg B HB HH) HN Hq) as (outs & o & h' & E1 & E2 & E3).
  exists outs, o, h'. split; [exact E1|]. rewrite map_length in E2, E3. split; [exact E2|].
  intros n d Hn. specialize (E3 n d Hn). cbn [acfg c_N] in E3. destruct (n + 1 <? t_N m) eqn:El; [exact E3|].
  destruct E3 as (q & F1 & F2). rewrite F2. rewrite ks_toks, vs_toks. unfold att_at.
  rewrite qs_toks in F1.
  rewrite (py_index_window _ _ _ _ [] HN Hq) in F1 by (unfold datas; rewrite ?map_length; lia).
  apply ok_inj in F1. subst q. rewrite qpos_delay by lia. reflexivity.
Qed.
Lemma re_rows B ts h : 0 < B -> 0 < H -> 2 <= t_N m ->
  exists outs o h', m_run (acfg m B) (tr_sdpa m) None (map toks ts) h = Ok (outs, o, h')
    /\ length outs = length ts
    /\ forall n d, n < length ts -> nth n outs d = if n + 1 <? t_N m then None else Some (map (fun i => att_at B ts i n) (times m n)).
Proof.
  intros HB HH HN.
  destruct (re_stream (acfg m B) (map toks ts) h (supported_acfg B HB HH) HN) as (outs & o & h' & E1 & E2 & E3).
  exists outs, o, h'. split; [exact E1|]. rewrite map_length in E2, E3. split; [exact E2|].
  intros n d Hn. rewrite (E3 n d Hn). cbn [acfg c_N]. destruct (n + 1 <? t_N m) eqn:El; [reflexivity|].
  rewrite qs_toks, ks_toks, vs_toks. f_equal.
  rewrite (window_times (datas (fun t => fst (fst t)) ts) [] n) by (unfold datas; rewrite ?map_length; lia).
  rewrite map_map. reflexivity.
Qed.


(** *** Shapes of step results *)

Lemma get4 A R C F (x : tens K) a r c f : sh x = [A; R; C; F] -> a < A -> r < R -> c < C -> f < F ->
  get x [a; r; c; f] = nth (((a * R + r) * C + c) * F + f) (dat x) k0.
Proof.
  intros Hs Ha Hr Hc Hf. unfold get. rewrite Hs. unfold Tensor.at_. cbn [map offset].
  replace (Z.leb 0 (Z.of_nat a) && Z.ltb (Z.of_nat a) (Z.of_nat A)) with true by lia.
  replace (Z.leb 0 (Z.of_nat r) && Z.ltb (Z.of_nat r) (Z.of_nat R)) with true by lia.
  replace (Z.leb 0 (Z.of_nat c) && Z.ltb (Z.of_nat c) (Z.of_nat C)) with true by lia.
  replace (Z.leb 0 (Z.of_nat f) && Z.ltb (Z.of_nat f) (Z.of_nat F)) with true by lia.
  cbn [option_map size fold_right]. cbn [s0 num_scal]. rewrite !Nat2Z.id. f_equal. lia.
Qed.

Lemma view_ok B rows : Forall (fun r => length r = B * E) rows ->
  sh (view B rows) = (if t_bf m then [B; length rows; E] else [length rows; B; E])
  /\ forall l b e, l < length rows -> b < B -> e < E ->
     get (view B rows) (if t_bf m then [b; l; e] else [l; b; e]) = nth (b * E + e) (nth l rows []) k0.
Proof.
  intros Hr. unfold view. destruct (t_bf m); (split; [reflexivity|]); intros l b e Hl Hb He.
  - unfold transpose, permute. cbn [of_rows sh map seq length nth mk Nat.eqb]. unfold t_E.
    rewrite get_mk by in_range. cbn [map seq length nth index_of Nat.eqb].
    apply (of_rows_get B rows l b e); assumption.
  - apply of_rows_get; assumption.
Qed.

Definition squeezed (y : tens K) : tens K := squeeze (if t_bf m then 1 else 0) y.
Lemma squeezed_ok B r : length r = B * E ->
  frame_shape m B (squeezed (view B [r]))
  /\ forall b e, b < B -> e < E -> get (squeezed (view B [r])) [b; e] = nth (b * E + e) r k0.
Proof.
  intros Hr. destruct (view_ok B [r]) as [V1 V2]; [repeat constructor; exact Hr|].
  unfold squeezed, frame_shape, squeeze. cbn [length] in *. specialize (fun b e => V2 0 b e Nat.lt_0_1).
  destruct (t_bf m); rewrite V1; cbn [nth Nat.eqb remove_at firstn skipn app sh]; (split; [reflexivity|]);
    intros b e Hb He; rewrite <- V2 by assumption;
    (erewrite get2; [|reflexivity|assumption..]); (erewrite get3; [|exact V1|first [assumption|lia]..]);
    cbn [dat]; f_equal; lia.
Qed.

Definition dims12 (y : tens K) : tens K := if t_eds m then transpose 1 2 y else y.
Lemma dims12_ok B rows : Forall (fun r => length r = B * E) rows ->
  clip_shape m B (length rows) (dims12 (view B rows))
  /\ forall b l e, b < B -> l < length rows -> e < E -> get (dims12 (view B rows)) (idx m b l e) = nth (b * E + e) (nth l rows []) k0.
Proof.
  intros Hr. change (dims12 (view B rows)) with (dims12 (let y := of_rows m B rows in if t_bf m then transpose 1 0 y else y)).
  assert (EQ : dims12 (let y := of_rows m B rows in if t_bf m then transpose 1 0 y else y) = unflip (of_rows m B rows)).
  { unfold dims12, unflip. destruct (t_bf m), (t_eds m); reflexivity. }
  rewrite EQ. destruct (unflip_ok B (length rows) (of_rows m B rows) eq_refl) as [U1 U2]. split; [exact U1|].
  intros b l e Hb Hl He. rewrite U2 by assumption. apply of_rows_get; assumption.
Qed.

(** *** Streams, step by step *)

Lemma s_steps_ok B qi ts h : 0 < B -> 0 < H -> 0 < t_N m -> (- Z.of_nat (t_N m) <= qi < Z.of_nat (t_N m))%Z ->
  frames_ok m B ts ->
  exists outs o h', t_run (s_forward_step m (ts_sdpa m qi)) None ts h = Ok (outs, o, h') /\ length outs = length ts
    /\ forall n d, n < length ts ->
       if n + 1 <? t_N m then nth n outs d = None
       else exists y, nth n outs d = Some y /\ frame_shape m B y /\
              forall b e, b < B -> e < E ->
              get y [b; e] = mha_entry m (q_at m ts b (qpos m qi n)) (map (k_at m ts b) (times m n)) (map (v_at m ts b) (times m n)) e.
Proof.
  intros HB HH HN Hq Hf. destruct (so_rows B qi ts h HB HH HN Hq) as (outs & o & h' & E1 & E2 & E3).
  rewrite (run_of _ _ squeezed B (fun _ _ _ _ _ => eq_refl) ts Hf). rewrite E1. cbn [bind].
  eexists _, o, h'. split; [reflexivity|]. split; [rewrite map_length; exact E2|].
  intros n d Hn. destruct (n + 1 <? t_N m) eqn:El.
  - rewrite (nth_map_in _ _ n None) by lia. rewrite E3 by exact Hn. rewrite El. reflexivity.
  - rewrite (nth_map_in _ _ n None) by lia. rewrite E3 by exact Hn. rewrite El. eexists. split; [reflexivity|].
    destruct (squeezed_ok B (att_at B ts (qpos m qi n) n)) as [S1 S2]; [apply att_len|]. split; [exact S1|].
    intros b e Hb He. rewrite S2 by assumption. apply att_at_entry; try assumption; try lia.
    rewrite qpos_delay by lia. lia.
Qed.

Lemma r_steps_ok B ts h : 0 < B -> 0 < H -> 2 <= t_N m -> frames_ok m B ts ->
  exists outs o h', t_run (r_forward_step m (tr_sdpa m)) None ts h = Ok (outs, o, h') /\ length outs = length ts
    /\ forall n d, n < length ts ->
       if n + 1 <? t_N m then nth n outs d = None
       else exists y, nth n outs d = Some y /\ clip_shape m B (t_N m) y /\
              forall b i e, b < B -> i < t_N m -> e < E ->
              get y (idx m b i e) = mha_entry m (q_at m ts b (n + 1 - t_N m + i)) (map (k_at m ts b) (times m n)) (map (v_at m ts b) (times m n)) e.
Proof.
  intros HB HH HN Hf. destruct (re_rows B ts h HB HH HN) as (outs & o & h' & E1 & E2 & E3).
  rewrite (run_of _ _ dims12 B (fun _ _ _ _ _ => eq_refl) ts Hf). rewrite E1. cbn [bind].
  eexists _, o, h'. split; [reflexivity|]. split; [rewrite map_length; exact E2|].
  intros n d Hn. destruct (n + 1 <? t_N m) eqn:El.
  - rewrite (nth_map_in _ _ n None) by lia. rewrite E3 by exact Hn. rewrite El. reflexivity.
  - rewrite (nth_map_in _ _ n None) by lia. rewrite E3 by exact Hn. rewrite El. eexists. split; [reflexivity|].
    set (rows := map (fun i => att_at B ts i n) (times m n)).
    assert (Lr : length rows = t_N m) by (unfold rows, times; rewrite map_length, seq_length; reflexivity).
    destruct (dims12_ok B rows) as [S1 S2].
    { apply Forall_forall. intros r Hr. apply in_map_iff in Hr as (x & <- & _). apply att_len. }
    rewrite Lr in S1, S2. split; [exact S1|].
    intros b i e Hb Hi He. rewrite S2 by assumption. unfold rows, times.
    rewrite (nth_map_in _ _ i 0) by (rewrite seq_length; exact Hi). rewrite seq_nth by exact Hi.
    apply att_at_entry; try assumption; lia.
Qed.

(** *** Clips by forward_steps *)

Definition clip_frames (q k v : tens K) (L : nat) : list (step3 K) :=
  map (fun t => (select 0 t (flip q), select 0 t (flip k), select 0 t (flip v))) (seq 0 L).
Lemma clip_frames_ok B L q k v : clip_shape m B L q -> clip_shape m B L k -> clip_shape m B L v ->
  frames_ok m B (clip_frames q k v L).
Proof.
  intros Hq Hk Hv. unfold frames_ok, clip_frames. apply Forall_forall. intros t Ht. apply in_map_iff in Ht as (i & <- & _).
  unfold frame_shape, select. rewrite (proj1 (flip_ok B L q Hq)), (proj1 (flip_ok B L k Hk)), (proj1 (flip_ok B L v Hv)).
  repeat split; reflexivity.
Qed.
Lemma combine_map_seq {A C} (f : nat -> A) (g : nat -> C) l : combine (map f l) (map g l) = map (fun i => (f i, g i)) l.
Proof. induction l as [|a l IH]; [reflexivity|]. cbn. f_equal. exact IH. Qed.
Lemma clip_toks B L q k v : clip_shape m B L q -> clip_shape m B L k -> clip_shape m B L v ->
  combine (combine (slices (flip q)) (slices (flip k))) (slices (flip v)) = map toks (clip_frames q k v L).
Proof.
  intros Hq Hk Hv. unfold slices, clip_frames.
  rewrite (proj1 (flip_ok B L q Hq)), (proj1 (flip_ok B L k Hk)), (proj1 (flip_ok B L v Hv)). cbn [nth].
  rewrite !combine_map_seq, map_map. reflexivity.
Qed.
Lemma clip_row B L x b t : clip_shape m B L x -> b < B -> t < L -> row m (select 0 t (flip x)) b = token m x b t.
Proof.
  intros Hx Hb Ht. destruct (flip_ok B L x Hx) as [Hs Hg].
  rewrite (row_rowd B) by (unfold frame_shape, select; rewrite ?Hs; auto).
  rewrite (slice_row L B _ t b Hs) by assumption. unfold token. apply map_ext_seq. intros e He. apply Hg; lia.
Qed.

Lemma then_q B L ts q k v b n : clip_shape m B L q -> b < B -> n < length ts + L ->
  q_at m (ts ++ clip_frames q k v L) b n = then_clip m (q_at m) ts q b n.
Proof.
  intros Hx Hb Hn. unfold q_at, then_clip. rewrite map_app. destruct (Nat.ltb_spec n (length ts)).
  - rewrite app_nth1 by (rewrite map_length; assumption). reflexivity.
  - rewrite app_nth2 by (rewrite map_length; lia). unfold clip_frames. rewrite map_map, map_length, nth_map_seq by lia.
    cbn [fst snd]. apply (clip_row B L); [assumption..|lia].
Qed.
Lemma then_k B L ts q k v b n : clip_shape m B L k -> b < B -> n < length ts + L ->
  k_at m (ts ++ clip_frames q k v L) b n = then_clip m (k_at m) ts k b n.
Proof.
  intros Hx Hb Hn. unfold k_at, then_clip. rewrite map_app. destruct (Nat.ltb_spec n (length ts)).
  - rewrite app_nth1 by (rewrite map_length; assumption). reflexivity.
  - rewrite app_nth2 by (rewrite map_length; lia). unfold clip_frames. rewrite map_map, map_length, nth_map_seq by lia.
    cbn [fst snd]. apply (clip_row B L); [assumption..|lia].
Qed.
Lemma then_v B L ts q k v b n : clip_shape m B L v -> b < B -> n < length ts + L ->
  v_at m (ts ++ clip_frames q k v L) b n = then_clip m (v_at m) ts v b n.
Proof.
  intros Hx Hb Hn. unfold v_at, then_clip. rewrite map_app. destruct (Nat.ltb_spec n (length ts)).
  - rewrite app_nth1 by (rewrite map_length; assumption). reflexivity.
  - rewrite app_nth2 by (rewrite map_length; lia). unfold clip_frames. rewrite map_map, map_length, nth_map_seq by lia.
    cbn [fst snd]. apply (clip_row B L); [assumption..|lia].
Qed.

Lemma m_steps_opt c (p : sdpa K) o ts h : ts <> [] ->
  m_forward_steps c p o ts true h
  = ('(outs, o', h') <- m_run c p o ts h ;; Ok (match somes outs with [] => None | l => Some l end, o', h')).
Proof.
  intros Hn. unfold m_forward_steps.
  replace (match o with Some _ => (@None (mstate p), h) | None => (None, h) end)
    with (@None (mstate p), h) by (destruct o; reflexivity).
  rewrite m_loop_run. destruct (m_run c p o ts h) as [[[outs o'] h']|e] eqn:Er; [|reflexivity].
  cbn [bind]. destruct (m_run_some _ _ _ _ _ _ _ _ Hn Er) as [s ->]. cbn [bind].
  destruct (somes outs) eqn:Es; [|reflexivity]. destruct ts; [congruence|]. reflexivity.
Qed.

Lemma somes_from {A} (g : nat -> A) N T a outs : length outs = T ->
  (forall n d, n < T -> nth n outs d = if a + n + 1 <? N then None else Some (g (a + n))) ->
  somes outs = map g (seq (Nat.max a (N - 1)) (a + T - Nat.max a (N - 1))).
Proof.
  revert T a. induction outs as [|x outs IH]; intros T a HT Hn; cbn in HT; subst T.
  - replace (a + 0 - _) with 0 by lia. reflexivity.
  - assert (IH' := IH (length outs) (S a) eq_refl). clear IH.
    assert (H0 := Hn 0 None ltac:(lia)). cbn [nth] in H0. rewrite Nat.add_0_r in H0.
    assert (Hs : forall n d, n < length outs -> nth n outs d = if S a + n + 1 <? N then None else Some (g (S a + n))).
    { intros n d Hl. specialize (Hn (S n) d ltac:(lia)). cbn [nth] in Hn. rewrite Hn.
      replace (a + S n) with (S a + n) by lia. reflexivity. }
    specialize (IH' Hs). subst x. destruct (Nat.ltb_spec (a + 1) N) as [Hl|Hl].
    + cbn [somes]. rewrite IH'. replace (Nat.max (S a) (N - 1)) with (Nat.max a (N - 1)) by lia. f_equal. f_equal. cbn [length]. lia.
    + cbn [somes]. rewrite IH'. replace (Nat.max (S a) (N - 1)) with (S a) by lia. replace (Nat.max a (N - 1)) with a by lia.
      cbn [length]. replace (a + S (length outs) - a) with (S (S a + length outs - S a)) by lia. reflexivity.
Qed.

(** Outputs of a clip fed after the steps [ts]: one view per complete window. *)
Lemma clip_out (p : sdpa K) g R B L ts q k v h (f : option (mstate p) -> tens K -> tens K -> tens K -> bool -> cells -> res (option (tens K) * option (mstate p) * cells)) :
  (forall o q k v h, f o q k v true h = ('(out, o, h) <- b_forward_step m p o q k v true h ;; Ok (option_map g out, o, h))) ->
  frames_ok m B ts -> clip_shape m B L q -> clip_shape m B L k -> clip_shape m B L v -> 0 < L ->
  (exists outs o h', m_run (acfg m B) p None (map toks (ts ++ clip_frames q k v L)) h = Ok (outs, o, h')
     /\ length outs = length (ts ++ clip_frames q k v L)
     /\ forall n d, n < length (ts ++ clip_frames q k v L) -> nth n outs d = if n + 1 <? t_N m then None else Some (R n)) ->
  exists outs1 o1 h1 o2 h2, t_run f None ts h = Ok (outs1, o1, h1)
    /\ b_forward_steps m p o1 q k v true h1
       = Ok (if Nat.ltb (length ts + L) (t_N m) then None
             else Some (stack (if t_bf m then 1 else 0) (map (fun n => view B (R n)) (seq (first_time m (length ts)) (length ts + L - first_time m (length ts))))), o2, h2)
    /\ left_as_steps m f B L q k v o1 h1 o2 h2.
Proof.
  intros Hf Hts Hq Hk Hv HL (outs & o & h' & E1 & E2 & E3).
  rewrite map_app, m_run_app in E1.
  destruct (m_run (acfg m B) p None (map toks ts) h) as [[[outs1 o1] h1]|] eqn:R1; [|discriminate]. cbn [bind] in E1.
  destruct (m_run (acfg m B) p o1 (map toks (clip_frames q k v L)) h1) as [[[outs2 o2] h2]|] eqn:R2; [|discriminate].
  cbn [bind] in E1. apply ok_inj in E1. inversion E1; subst outs o h'. clear E1.
  assert (Lc : length (clip_frames q k v L) = L) by (unfold clip_frames; rewrite map_length, seq_length; reflexivity).
  assert (L1 : length outs1 = length ts) by (rewrite (m_run_len _ _ _ _ _ _ _ _ R1), map_length; reflexivity).
  assert (L2 : length outs2 = L) by (rewrite (m_run_len _ _ _ _ _ _ _ _ R2), map_length; exact Lc).
  eexists _, o1, h1, o2, h2. split.
  { rewrite (run_of p f g B Hf ts Hts). rewrite R1. reflexivity. }
  pose proof (clip_frames_ok B L q k v Hq Hk Hv) as Hcf. split.
  2:{ exists (clip_frames q k v L). eexists. split; [exact Hcf|]. split; [exact Lc|]. split.
      - intros b t Hb Ht. pose proof (then_q B L [] q k v b t Hq Hb Ht) as T1. pose proof (then_k B L [] q k v b t Hk Hb Ht) as T2.
        pose proof (then_v B L [] q k v b t Hv Hb Ht) as T3. cbn [app] in *. rewrite T1, T2, T3. unfold then_clip. cbn [length Nat.ltb Nat.leb].
        rewrite Nat.sub_0_r. repeat split; reflexivity.
      - rewrite (run_of p f g B Hf _ Hcf). rewrite R2. reflexivity. }
  unfold b_forward_steps. fold (flip q). fold (flip k). fold (flip v).
  destruct (flip_ok B L q Hq) as [Sq _], (flip_ok B L k Hk) as [Sk _], (flip_ok B L v Hv) as [Sv _].
  rewrite (shapes3_ok B L L) by assumption. rewrite Sq, Sk. cbn [nth]. rewrite Nat.eqb_refl.
  rewrite (clip_toks B L) by assumption.
  rewrite m_steps_opt.
  2:{ intros Z. apply (f_equal (@length _)) in Z. rewrite map_length, Lc in Z. cbn in Z. lia. }
  rewrite R2. cbn [bind].
  assert (Es : somes outs2 = map R (seq (first_time m (length ts)) (length ts + L - first_time m (length ts)))).
  { apply somes_from; [exact L2|]. intros n d Hn. rewrite <- E3 with (d := d) by (rewrite app_length; lia).
    rewrite app_nth2 by lia. f_equal. lia. }
  rewrite Es. unfold first_time. destruct (Nat.ltb_spec (length ts + L) (t_N m)) as [Hl|Hl].
  - replace (length ts + L - Nat.max (length ts) (t_N m - 1)) with 0 by lia. reflexivity.
  - destruct (length ts + L - Nat.max (length ts) (t_N m - 1)) as [|c] eqn:Ec; [lia|].
    cbn [seq map option_map]. do 4 f_equal. rewrite map_map. unfold view.
    destruct (t_bf m); reflexivity.
Qed.


(** *** Stacks of views *)

Lemma nth_map_tot {A C} (f : A -> C) l i a x : i < length l -> nth i (map f l) x = f (nth i l a).
Proof. apply nth_map_in. Qed.

Lemma stack_views B c R ns : ns <> [] ->
  (forall n, In n ns -> length (R n) = c /\ Forall (fun r : list K => length r = B * E) (R n)) ->
  let y := stack (if t_bf m then 1 else 0) (map (fun n => view B (R n)) ns) in
  sh y = (if t_bf m then [B; length ns; c; E] else [length ns; c; B; E])
  /\ forall j l b e, j < length ns -> l < c -> b < B -> e < E ->
     get y (if t_bf m then [b; j; l; e] else [j; l; b; e]) = nth (b * E + e) (nth l (R (nth j ns 0)) []) k0.
Proof.
  intros Hn HR. cbn zeta.
  assert (V : forall n, In n ns ->
    sh (view B (R n)) = (if t_bf m then [B; c; E] else [c; B; E])
    /\ forall l b e, l < c -> b < B -> e < E -> get (view B (R n)) (if t_bf m then [b; l; e] else [l; b; e]) = nth (b * E + e) (nth l (R n) []) k0).
  { intros n Hi. destruct (HR n Hi) as [E1 E2]. destruct (view_ok B (R n) E2) as [V1 V2]. rewrite E1 in V1, V2. split; assumption. }
  assert (Hh : exists n0 r, ns = n0 :: r) by (destruct ns; [congruence|eauto]). destruct Hh as (n0 & r & En).
  assert (G : forall s f y, y = stack (if t_bf m then 1 else 0) (map (fun n => view B (R n)) ns) ->
     s = insert_at (if t_bf m then 1 else 0) (length ns) (sh (view B (R n0))) ->
     f = (fun ix => get (nth (nth (if t_bf m then 1 else 0) ix 0) (map (fun n => view B (R n)) ns) (view B (R n0))) (remove_at (if t_bf m then 1 else 0) ix)) ->
     y = mk s f).
  { intros s f y -> -> ->. rewrite En. cbn [map stack length]. rewrite map_length. reflexivity. }
  rewrite (G _ _ _ eq_refl eq_refl eq_refl). clear G.
  destruct (V n0) as [S0 _]; [rewrite En; left; reflexivity|]. rewrite S0.
  destruct (t_bf m); (split; [reflexivity|]); intros j l b e Hj Hl Hb He;
    rewrite get_mk by (cbn [insert_at firstn skipn app]; in_range);
    cbn [nth remove_at firstn skipn app]; rewrite (nth_map_in _ _ j 0) by exact Hj;
    apply (V (nth j ns 0) (nth_In _ _ Hj)); assumption.
Qed.

Lemma then_entry B L ts q k v i n b e : frames_ok m B ts ->
  clip_shape m B L q -> clip_shape m B L k -> clip_shape m B L v -> b < B -> e < E ->
  t_N m <= n + 1 -> n < length ts + L -> i < length ts + L ->
  nth (b * E + e) (att_at B (ts ++ clip_frames q k v L) i n) k0
  = mha_entry m (then_clip m (q_at m) ts q b i) (map (then_clip m (k_at m) ts k b) (times m n)) (map (then_clip m (v_at m) ts v b) (times m n)) e.
Proof.
  intros Hts Hq Hk Hv Hb He HN Hn Hi.
  assert (La : length (ts ++ clip_frames q k v L) = length ts + L)
    by (unfold clip_frames; rewrite app_length, map_length, seq_length; reflexivity).
  rewrite att_at_entry; rewrite ?La; try assumption.
  2:{ apply Forall_app. split; [exact Hts|apply clip_frames_ok; assumption]. }
  rewrite (then_q B L) by assumption. f_equal.
  - apply map_ext_in. intros t Ht. apply in_seq in Ht. apply (then_k B L); [assumption..|lia].
  - apply map_ext_in. intros t Ht. apply in_seq in Ht. apply (then_v B L); [assumption..|lia].
Qed.

(** *** forward_steps of the single-output module *)

Definition s_post (y : tens K) : tens K := let y := squeeze 2 y in if t_eds m then transpose 1 2 y else y.
Lemma s_post_ok B c y : t_bf m = true \/ B = 1 ->
  sh y = (if t_bf m then [B; c; 1; E] else [c; 1; B; E]) ->
  clip_shape m B c (s_post y)
  /\ forall b j e, b < B -> j < c -> e < E -> get (s_post y) (idx m b j e) = get y (if t_bf m then [b; j; 0; e] else [j; 0; b; e]).
Proof.
  intros HB. unfold clip_shape, idx, s_post, squeeze. destruct y as [s d]. cbn [sh]. intros ->.
  destruct (t_bf m).
  - cbn [nth Nat.eqb remove_at firstn skipn app dat].
    destruct (t_eds m); (split; [reflexivity|]); intros b j e Hb Hj He.
    + unfold transpose, permute. cbn [sh map seq length nth Nat.eqb]. rewrite get_mk by in_range.
      cbn [map seq length nth index_of Nat.eqb].
      rewrite (get3 B c E (T [B; c; E] d) b j e eq_refl) by assumption.
      rewrite (get4 B c 1 E (T [B; c; 1; E] d) b j 0 e eq_refl) by (assumption || lia). cbn [dat]. f_equal. lia.
    + rewrite (get3 B c E (T [B; c; E] d) b j e eq_refl) by assumption.
      rewrite (get4 B c 1 E (T [B; c; 1; E] d) b j 0 e eq_refl) by (assumption || lia). cbn [dat]. f_equal. lia.
  - destruct HB as [HB|HB]; [discriminate|]. subst B. cbn [nth Nat.eqb remove_at firstn skipn app dat].
    destruct (t_eds m); (split; [reflexivity|]); intros b j e Hb Hj He; assert (b = 0) by lia; subst b.
    + unfold transpose, permute. cbn [sh map seq length nth Nat.eqb]. rewrite get_mk by in_range.
      cbn [map seq length nth index_of Nat.eqb].
      rewrite (get3 c 1 E (T [c; 1; E] d) j 0 e eq_refl) by assumption.
      rewrite (get4 c 1 1 E (T [c; 1; 1; E] d) j 0 0 e eq_refl) by (assumption || lia). cbn [dat]. f_equal. lia.
    + rewrite (get3 c 1 E (T [c; 1; E] d) j 0 e eq_refl) by assumption.
      rewrite (get4 c 1 1 E (T [c; 1; 1; E] d) j 0 0 e eq_refl) by (assumption || lia). cbn [dat]. f_equal. lia.
Qed.
Lemma s_post_bad B c y : t_bf m = false -> B <> 1 -> sh y = [c; 1; B; E] ->
  sh (s_post y) = (if t_eds m then [c; B; 1; E] else [c; 1; B; E])
  /\ forall b j e, b < B -> j < c -> e < E -> get (s_post y) (if t_eds m then [j; b; 0; e] else [j; 0; b; e]) = get y [j; 0; b; e].
Proof.
  intros _ HB. unfold s_post, squeeze. destruct y as [s d]. cbn [sh]. intros ->. cbn [nth].
  destruct (Nat.eqb_spec B 1) as [|_]; [contradiction|].
  destruct (t_eds m); (split; [reflexivity|]); intros b j e Hb Hj He; [|reflexivity].
  unfold transpose, permute. cbn [sh map seq length nth Nat.eqb].
  rewrite get_mk by (repeat constructor; assumption || lia). reflexivity.
Qed.

Lemma s_clip_gen B qi ts q k v L h (good : nat -> tens K -> Prop) : 0 < B -> 0 < H -> 0 < t_N m ->
  (- Z.of_nat (t_N m) <= qi < Z.of_nat (t_N m))%Z -> frames_ok m B ts ->
  clip_shape m B L q -> clip_shape m B L k -> clip_shape m B L v -> 0 < L ->
  (forall y c, c = length ts + L - first_time m (length ts) -> sh y = (if t_bf m then [B; c; 1; E] else [c; 1; B; E]) ->
     (forall b j e, b < B -> j < c -> e < E ->
       let n := first_time m (length ts) + j in
       get y (if t_bf m then [b; j; 0; e] else [j; 0; b; e])
       = mha_entry m (then_clip m (q_at m) ts q b (qpos m qi n)) (map (then_clip m (k_at m) ts k b) (times m n)) (map (then_clip m (v_at m) ts v b) (times m n)) e) ->
     good c (s_post y)) ->
  exists outs o h1 y o2 h2, t_run (s_forward_step m (ts_sdpa m qi)) None ts h = Ok (outs, o, h1)
    /\ s_forward_steps m (ts_sdpa m qi) o q k v true h1 = Ok (y, o2, h2)
    /\ left_as_steps m (s_forward_step m (ts_sdpa m qi)) B L q k v o h1 o2 h2
    /\ clip_result m (length ts) L y good.
Proof.
  intros HB HH HN Hqi Hts Hq Hk Hv HL Hgood.
  destruct (clip_out (ts_sdpa m qi) squeezed (fun n => [att_at B (ts ++ clip_frames q k v L) (qpos m qi n) n]) B L ts q k v h
              (s_forward_step m (ts_sdpa m qi)) (fun _ _ _ _ _ => eq_refl) Hts Hq Hk Hv HL
              (so_rows B qi (ts ++ clip_frames q k v L) h HB HH HN Hqi)) as (outs & o & h1 & o2 & h2 & R1 & R2 & R3).
  exists outs, o, h1. unfold s_forward_steps. rewrite R2. cbn [bind]. eexists _, o2, h2.
  split; [exact R1|]. split; [reflexivity|]. split; [exact R3|]. unfold clip_result.
  destruct (Nat.ltb_spec (length ts + L) (t_N m)) as [Hl|Hl]; [reflexivity|].
  cbn [option_map]. eexists. split; [reflexivity|].
  set (ns := seq (first_time m (length ts)) (length ts + L - first_time m (length ts))).
  assert (Lp : 0 < length ts + L - first_time m (length ts)) by (unfold first_time; lia).
  destruct (stack_views B 1 (fun n => [att_at B (ts ++ clip_frames q k v L) (qpos m qi n) n]) ns) as [V1 V2].
  { unfold ns. destruct (length ts + L - first_time m (length ts)); [lia|discriminate]. }
  { intros n _. split; [reflexivity|]. repeat constructor. apply att_len. }
  assert (Ln : length ns = length ts + L - first_time m (length ts)) by apply seq_length.
  rewrite Ln in V1, V2. apply Hgood; [reflexivity|exact V1|].
  intros b j e Hb Hj He n. rewrite V2 by (assumption || lia). cbn [nth].
  unfold ns. rewrite seq_nth by exact Hj. fold n.
  assert (Hn : t_N m <= n + 1 /\ n < length ts + L) by (unfold n, first_time in *; lia).
  apply then_entry; try assumption; try apply Hn. rewrite qpos_delay by (assumption || apply Hn). lia.
Qed.

(** *** forward_steps of the retroactive module *)

Definition r_post (y : tens K) : tens K := if t_eds m then permute [0; 3; 1; 2] y else y.
Lemma r_post_ok B c N y : sh y = (if t_bf m then [B; c; N; E] else [c; N; B; E]) ->
  sh (r_post y) = ridx m B c N E
  /\ forall b j i e, b < B -> j < c -> i < N -> e < E ->
     get (r_post y) (ridx m b j i e) = get y (if t_bf m then [b; j; i; e] else [j; i; b; e]).
Proof.
  unfold r_post, ridx. destruct y as [s d]. cbn [sh]. intros ->.
  destruct (t_bf m), (t_eds m); (split; [reflexivity|]); intros b j i e Hb Hj Hi He; try reflexivity;
    unfold permute; cbn [sh map seq length nth]; rewrite get_mk by in_range; reflexivity.
Qed.

Lemma r_clip B ts q k v L h : 0 < B -> 0 < H -> 2 <= t_N m -> frames_ok m B ts ->
  clip_shape m B L q -> clip_shape m B L k -> clip_shape m B L v -> 0 < L ->
  exists outs o h1 y o2 h2, t_run (r_forward_step m (tr_sdpa m)) None ts h = Ok (outs, o, h1)
    /\ r_forward_steps m (tr_sdpa m) o q k v true h1 = Ok (y, o2, h2)
    /\ left_as_steps m (r_forward_step m (tr_sdpa m)) B L q k v o h1 o2 h2
    /\ clip_result m (length ts) L y (fun c y =>
         sh y = ridx m B c (t_N m) E
         /\ forall b j i e, b < B -> j < c -> i < t_N m -> e < E ->
            let n := first_time m (length ts) + j in
            get y (ridx m b j i e)
            = mha_entry m (then_clip m (q_at m) ts q b (n + 1 - t_N m + i)) (map (then_clip m (k_at m) ts k b) (times m n)) (map (then_clip m (v_at m) ts v b) (times m n)) e).
Proof.
  intros HB HH HN Hts Hq Hk Hv HL.
  set (R := fun n => map (fun i => att_at B (ts ++ clip_frames q k v L) i n) (times m n)).
  destruct (clip_out (tr_sdpa m) dims12 R B L ts q k v h
              (r_forward_step m (tr_sdpa m)) (fun _ _ _ _ _ => eq_refl) Hts Hq Hk Hv HL
              (re_rows B (ts ++ clip_frames q k v L) h HB HH HN)) as (outs & o & h1 & o2 & h2 & R1 & R2 & R3).
  exists outs, o, h1. unfold r_forward_steps. rewrite R2. cbn [bind]. eexists _, o2, h2.
  split; [exact R1|]. split; [reflexivity|]. split; [exact R3|]. unfold clip_result.
  destruct (Nat.ltb_spec (length ts + L) (t_N m)) as [Hl|Hl]; [reflexivity|].
  cbn [option_map]. eexists. split; [reflexivity|].
  set (ns := seq (first_time m (length ts)) (length ts + L - first_time m (length ts))).
  assert (Lp : 0 < length ts + L - first_time m (length ts)) by (unfold first_time; lia).
  destruct (stack_views B (t_N m) R ns) as [V1 V2].
  { unfold ns. destruct (length ts + L - first_time m (length ts)); [lia|discriminate]. }
  { intros n _. unfold R, times. split; [rewrite map_length, seq_length; reflexivity|].
    apply Forall_forall. intros r Hr. apply in_map_iff in Hr as (x & <- & _). apply att_len. }
  assert (Ln : length ns = length ts + L - first_time m (length ts)) by apply seq_length.
  rewrite Ln in V1, V2. destruct (r_post_ok B _ (t_N m) _ V1) as [P1 P2]. split; [exact P1|].
  intros b j i e Hb Hj Hi He. etransitivity; [apply P2; assumption|]. rewrite V2 by assumption.
  unfold ns. rewrite seq_nth by exact Hj. set (n := first_time m (length ts) + j).
  assert (Hn : t_N m <= n + 1 /\ n < length ts + L) by (unfold n, first_time in *; lia).
  unfold R, times. rewrite (nth_map_in _ _ i 0) by (rewrite seq_length; exact Hi). rewrite seq_nth by exact Hi.
  apply then_entry; try assumption; lia.
Qed.


(** *** Corollaries *)

Lemma s_clip B qi ts q k v L h : 0 < B -> 0 < H -> 0 < t_N m ->
  (- Z.of_nat (t_N m) <= qi < Z.of_nat (t_N m))%Z -> frames_ok m B ts ->
  clip_shape m B L q -> clip_shape m B L k -> clip_shape m B L v -> 0 < L -> t_bf m = true \/ B = 1 ->
  exists outs o h1 y o2 h2, t_run (s_forward_step m (ts_sdpa m qi)) None ts h = Ok (outs, o, h1)
    /\ s_forward_steps m (ts_sdpa m qi) o q k v true h1 = Ok (y, o2, h2)
    /\ left_as_steps m (s_forward_step m (ts_sdpa m qi)) B L q k v o h1 o2 h2
    /\ clip_result m (length ts) L y (fun c y => clip_shape m B c y
       /\ forall b j e, b < B -> j < c -> e < E ->
          let n := first_time m (length ts) + j in
          get y (idx m b j e)
          = mha_entry m (then_clip m (q_at m) ts q b (qpos m qi n)) (map (then_clip m (k_at m) ts k b) (times m n)) (map (then_clip m (v_at m) ts v b) (times m n)) e).
Proof.
  intros HB HH HN Hqi Hts Hq Hk Hv HL HX. apply (s_clip_gen B); try assumption.
  intros y c Hc Hs Hy. destruct (s_post_ok B c y HX Hs) as [P1 P2]. split; [exact P1|].
  intros b j e Hb Hj He n. rewrite P2 by assumption. apply Hy; assumption.
Qed.
Lemma s_clip_bad B qi ts q k v L h : 0 < B -> 0 < H -> 0 < t_N m ->
  (- Z.of_nat (t_N m) <= qi < Z.of_nat (t_N m))%Z -> frames_ok m B ts ->
  clip_shape m B L q -> clip_shape m B L k -> clip_shape m B L v -> 0 < L -> t_bf m = false -> B <> 1 ->
  exists outs o h1 y o2 h2, t_run (s_forward_step m (ts_sdpa m qi)) None ts h = Ok (outs, o, h1)
    /\ s_forward_steps m (ts_sdpa m qi) o q k v true h1 = Ok (y, o2, h2)
    /\ left_as_steps m (s_forward_step m (ts_sdpa m qi)) B L q k v o h1 o2 h2
    /\ clip_result m (length ts) L y (fun c y =>
       ~ clip_shape m B c y /\ sh y = (if t_eds m then [c; B; 1; E] else [c; 1; B; E])
       /\ forall b j e, b < B -> j < c -> e < E ->
          let n := first_time m (length ts) + j in
          get y (if t_eds m then [j; b; 0; e] else [j; 0; b; e])
          = mha_entry m (then_clip m (q_at m) ts q b (qpos m qi n)) (map (then_clip m (k_at m) ts k b) (times m n)) (map (then_clip m (v_at m) ts v b) (times m n)) e).
Proof.
  intros HB HH HN Hqi Hts Hq Hk Hv HL Hbf HX. apply (s_clip_gen B); try assumption.
  intros y c Hc Hs Hy. rewrite Hbf in Hs, Hy. destruct (s_post_bad B c y Hbf HX Hs) as [P1 P2]. split; [|split; [exact P1|]].
  - unfold clip_shape, idx. rewrite P1, Hbf. destruct (t_eds m); discriminate.
  - intros b j e Hb Hj He n. rewrite P2 by assumption. apply Hy; assumption.
Qed.

(** Clips that hold the window ending at time [n]. *)
Lemma window_clip B n ts x (at_time : list (step3 K) -> nat -> nat -> list K) : t_N m <= n + 1 ->
  is_window m B n (at_time ts) x -> forall b, b < B -> map (token m x b) (seq 0 (t_N m)) = map (at_time ts b) (times m n).
Proof.
  intros HN [_ Hw] b Hb. unfold times.
  transitivity (map (at_time ts b) (map (fun i => n + 1 - t_N m + i) (seq 0 (t_N m)))).
  - rewrite map_map. apply map_ext_seq. intros i Hi. apply Hw; [exact Hb|lia].
  - f_equal. clear. generalize (n + 1 - t_N m). intros a. revert a. induction (t_N m) as [|N IH]; intros a; [reflexivity|].
    cbn [seq map]. f_equal; [lia|]. rewrite <- seq_shift, map_map. rewrite <- (IH (S a)). apply map_ext. intros; lia.
Qed.

Lemma s_step_forward B qi ts h n q k v : 0 < B -> 0 < H -> 0 < t_N m -> (- Z.of_nat (t_N m) <= qi < Z.of_nat (t_N m))%Z ->
  frames_ok m B ts -> t_N m <= n + 1 -> n < length ts ->
  is_window m B n (q_at m ts) q -> is_window m B n (k_at m ts) k -> is_window m B n (v_at m ts) v ->
  exists outs o h' z y, t_run (s_forward_step m (ts_sdpa m qi)) None ts h = Ok (outs, o, h')
    /\ nth n outs None = Some z /\ frame_shape m B z
    /\ s_forward m true qi q k v = Ok y /\ clip_shape m B 1 y
    /\ forall b e, b < B -> e < E -> get z [b; e] = get y (idx m b 0 e).
Proof.
  intros HB HH HN Hqi Hf Hn1 Hn Wq Wk Wv.
  destruct (s_steps_ok B qi ts h HB HH HN Hqi Hf) as (outs & o & h' & R1 & _ & R3).
  specialize (R3 n None Hn). destruct (Nat.ltb_spec (n + 1) (t_N m)); [lia|]. destruct R3 as (z & Z1 & Z2 & Z3).
  destruct (s_forward_single B (t_N m) (t_N m) q k v qi HB HH (proj1 Wq) (proj1 Wk) (proj1 Wv) Hqi) as (y & Y1 & Y2 & Y3).
  exists outs, o, h', z, y. repeat (split; [assumption|]). intros b e Hb He. rewrite Z3, Y3 by assumption.
  rewrite (window_clip B n ts k (k_at m)), (window_clip B n ts v (v_at m)) by assumption. f_equal.
  rewrite (proj2 Wq) by (try assumption; destruct (Z.ltb_spec qi 0); lia).
  f_equal. unfold qpos. destruct (Z.ltb_spec qi 0), (Z.leb_spec 0 qi); lia.
Qed.

Lemma r_step_forward B ts h n q k v : 0 < B -> 0 < H -> 2 <= t_N m ->
  frames_ok m B ts -> t_N m <= n + 1 -> n < length ts ->
  is_window m B n (q_at m ts) q -> is_window m B n (k_at m ts) k -> is_window m B n (v_at m ts) v ->
  exists outs o h' z y, t_run (r_forward_step m (tr_sdpa m)) None ts h = Ok (outs, o, h')
    /\ nth n outs None = Some z /\ b_forward m q k v = Ok y
    /\ clip_shape m B (t_N m) z /\ clip_shape m B (t_N m) y
    /\ forall b i e, b < B -> i < t_N m -> e < E -> get z (idx m b i e) = get y (idx m b i e).
Proof.
  intros HB HH HN Hf Hn1 Hn Wq Wk Wv.
  destruct (r_steps_ok B ts h HB HH HN Hf) as (outs & o & h' & R1 & _ & R3).
  specialize (R3 n None Hn). destruct (Nat.ltb_spec (n + 1) (t_N m)); [lia|]. destruct R3 as (z & Z1 & Z2 & Z3).
  destruct (b_forward_ok B (t_N m) (t_N m) q k v HB HH (proj1 Wq) (proj1 Wk) (proj1 Wv)) as (y & Y1 & Y2 & Y3).
  exists outs, o, h', z, y. repeat (split; [assumption|]). intros b i e Hb Hi He. rewrite Z3, Y3 by assumption.
  rewrite (window_clip B n ts k (k_at m)), (window_clip B n ts v (v_at m)) by assumption. f_equal.
  rewrite (proj2 Wq) by assumption. reflexivity.
Qed.

End P.
