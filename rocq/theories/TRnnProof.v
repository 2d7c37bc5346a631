(** Lemmas for recurrent modules on whole tensors. *)
From Coq Require Import List ZArith Bool Arith Lia ZifyBool ZifyNat.
From Verif Require Import Base Attn Frames Rnn Tensor TensorProof TAttn TAttnSpec TAttnProof TRnn TRnnSpec.
Import ListNotations.

Section P.
Context {K : Type} {NK : Num K} {NL : NumLaws K}.
Variables sig tnh : K -> K.
Variable m : trnn K.
Variable W : nat -> lweights K.
Notation H := (n_H m).
Notation out := (out_size m).

(** *** Sizes and parameters *)

Lemma gates_G : gates m = G m. Proof. reflexivity. Qed.
Lemma n_out_eq : n_out m = out. Proof. unfold n_out, out_size. destruct (n_proj m); reflexivity. Qed.
Lemma dirs_eq : dirs m = ndir m. Proof. reflexivity. Qed.
Lemma layer_in_eq l : layer_in m l = in_size m l.
Proof. clear W. unfold layer_in, in_size. rewrite n_out_eq. destruct l; reflexivity. Qed.
Lemma ndir_pos : 0 < ndir m. Proof. clear W. unfold ndir. destruct (n_bidir m); lia. Qed.

Lemma tensors_len k : length (tensors_of m W k) = per m.
Proof.
  unfold tensors_of, per. rewrite !app_length. cbn [length]. destruct (n_bias m), (n_proj m); reflexivity.
Qed.
Lemma param_eq k j : has_weights m W -> k < n_L m * ndir m -> j < per m ->
  nth (k * per m + j) (n_flat m) (T [] []) = nth j (tensors_of m W k) (T [] []).
Proof.
  intros Hw Hk Hj. unfold has_weights in Hw. rewrite Hw.
  rewrite (flat_map_nth (tensors_of m W) (T [] []) (per m) tensors_len _ 0 k j Hk Hj). reflexivity.
Qed.

Lemma at_mat r c f i j : i < r -> j < c -> nth (i * c + j) (dat (mat (K:=K) r c f)) k0 = f i j.
Proof.
  intros Hi Hj. rewrite <- (get2 r c (mat r c f) i j eq_refl Hi Hj). unfold mat.
  rewrite get_mk by (repeat constructor; assumption). reflexivity.
Qed.
Lemma at_col r f i : i < r -> nth i (dat (col (K:=K) r f)) k0 = f i.
Proof.
  intros Hi. unfold col, mk. cbn [dat].
  pose proof (at_tab_in (SC := num_scal NK) [r] (fun ix => match ix with [i] => f i | _ => k0 end) [i] (Forall2_cons _ _ Hi (Forall2_nil _))) as E.
  cbn [map] in E. rewrite <- E. unfold Tensor.at_. cbn [offset].
  replace (Z.leb 0 (Z.of_nat i) && Z.ltb (Z.of_nat i) (Z.of_nat r)) with true by lia.
  cbn [option_map size fold_right s0 num_scal]. f_equal. lia.
Qed.

Section Params.
Hypothesis Hw : has_weights m W.
Variable k : nat.
Hypothesis Hk : k < n_L m * ndir m.

Lemma p_ih r c : r < G m * H -> c < in_size m (k / ndir m) ->
  nth (r * in_size m (k / ndir m) + c) (param m k 0) k0 = w_ih (W k) r c.
Proof.
  intros Hr Hc. unfold param. rewrite param_eq by (auto; unfold per; lia). cbn [tensors_of nth app].
  apply at_mat; assumption.
Qed.
Lemma p_hh r c : r < G m * H -> c < out ->
  nth (r * out + c) (param m k 1) k0 = w_hh (W k) r c.
Proof.
  intros Hr Hc. unfold param. rewrite param_eq by (auto; unfold per; lia). cbn [tensors_of nth app].
  apply at_mat; assumption.
Qed.
Lemma p_bih r : r < G m * H -> bias_of (bias_param m k 2) r = bias m (b_ih (W k)) r.
Proof.
  intros Hr. unfold bias_param, bias. destruct (n_bias m) eqn:Hb; [|reflexivity].
  unfold bias_of, param. rewrite param_eq by (auto; unfold per; rewrite Hb; lia). unfold tensors_of. rewrite Hb. cbn [nth app].
  apply at_col; assumption.
Qed.
Lemma p_bhh r : r < G m * H -> bias_of (bias_param m k 3) r = bias m (b_hh (W k)) r.
Proof.
  intros Hr. unfold bias_param, bias. destruct (n_bias m) eqn:Hb; [|reflexivity].
  unfold bias_of, param. rewrite param_eq by (auto; unfold per; rewrite Hb; lia). unfold tensors_of. rewrite Hb. cbn [nth app].
  apply at_col; assumption.
Qed.
Lemma p_hr r c : n_proj m <> 0 -> r < n_proj m -> c < H ->
  nth (r * H + c) (param m k (if n_bias m then 4 else 2)) k0 = w_hr (W k) r c.
Proof.
  intros Hp Hr Hc. unfold param. rewrite param_eq; [|auto|auto|].
  - unfold tensors_of. destruct (n_proj m) as [|p] eqn:Ep; [lia|].
    destruct (n_bias m); cbn [nth app]; apply at_mat; assumption.
  - unfold per. destruct (n_bias m), (n_proj m); cbn; lia.
Qed.
End Params.

(** *** One step of one layer *)

(** Row [b] of the data of a tensor (B, n). *)
Definition rows (n b : nat) (d : list K) (v : nat -> K) : Prop := forall i, i < n -> nth (b * n + i) d k0 = v i.
Definition srel (b : nat) (h : hid (list K)) (s : (nat -> K) * (nat -> K)) : Prop :=
  rows out b (nth 0 h []) (fst s) /\ (n_kind m = Lstm -> rows H b (nth 1 h []) (snd s)).

Lemma nth_elem B f b j : b < B -> j < H -> nth (b * H + j) (elem m B f) k0 = f b j.
Proof. clear W.
  intros Hb Hj. unfold elem. rewrite <- (at2 B H) by assumption.
  change [Z.of_nat b; Z.of_nat j] with (map Z.of_nat [b; j]). rewrite at_tab_in by (repeat constructor; assumption). reflexivity.
Qed.
Lemma elem_len B f : length (elem m B f) = B * H.
Proof. clear W. unfold elem. rewrite tab_len. cbn. lia. Qed.

Lemma linear_row B I O w b x r v (wf : nat -> K) o : r < B -> o < O -> rows I r x v ->
  (forall i, i < I -> nth (o * I + i) w k0 = wf i) ->
  nth (r * O + o) (linear B I O w b x) k0 = kadd (bias_of b o) (Attn.ksum (map (fun i => kmul (v i) (wf i)) (seq 0 I))).
Proof. clear W.
  intros Hr Ho Hx Hwf. rewrite nth_linear by assumption. f_equal. f_equal. apply map_ext_seq. intros i Hi.
  rewrite Hx by lia. rewrite Hwf by lia. reflexivity.
Qed.

Lemma lerp z n h : kadd (kmul (ksub h n) z) n = kadd (kmul (ksub k1 z) n) (kmul z h) :> K.
Proof. clear W.
  assert (N : forall a c : K, kmul (kopp a) c = kopp (kmul a c)).
  { intros a c. assert (Q : kadd (kmul (kopp a) c) (kmul a c) = k0).
    { rewrite <- kdistr, (kadd_comm (kopp a)), kadd_opp, kmul_comm. apply num_mul_0. }
    rewrite <- (kadd_0 (kopp (kmul a c))), <- Q, <- kadd_assoc, kadd_opp, kadd_comm, kadd_0. reflexivity. }
  unfold ksub. rewrite !kdistr, kmul_1, !N, (kmul_comm h z), (kmul_comm n z).
  rewrite (kadd_comm n (kopp _)), (kadd_comm (kmul z h)). rewrite <- !kadd_assoc. f_equal. apply kadd_comm.
Qed.

Lemma gate_bound g j : g < G m -> j < H -> g * H + j < G m * H.
Proof. clear W. intros. nia. Qed.

Lemma cell_row (Hp : proj_ok m) (Hw : has_weights m W) B k b h x v s : k < n_L m * ndir m -> b < B ->
  rows (in_size m (k / ndir m)) b x v -> srel b h s ->
  srel b (fst (cell sig tnh m B k h x)) (step sig tnh m W k (k / ndir m) v s) /\
  rows out b (snd (cell sig tnh m B k h x)) (fst (step sig tnh m W k (k / ndir m) v s)).
Proof.
  intros Hk Hb Hx [Hh Hc].
  assert (GI : forall g j, g < G m -> j < H ->
    Tensor.at_ [B; gates m * H] (linear B (layer_in m (k / dirs m)) (gates m * H) (param m k 0) (bias_param m k 2) x)
       [Z.of_nat b; Z.of_nat (g * H + j)] = ih m W k (k / ndir m) v g j).
  { intros g j Hg Hj. pose proof (gate_bound g j Hg Hj) as Hb2. rewrite gates_G, dirs_eq, layer_in_eq.
    rewrite at2 by assumption.
    rewrite (linear_row B _ _ _ _ _ b v (w_ih (W k) (g * H + j))) by (auto; intros; apply p_ih; auto).
    unfold ih, affine. rewrite p_bih by auto. reflexivity. }
  assert (GH : forall g j, g < G m -> j < H ->
    Tensor.at_ [B; gates m * H] (linear B (n_out m) (gates m * H) (param m k 1) (bias_param m k 3) (nth 0 h []))
       [Z.of_nat b; Z.of_nat (g * H + j)] = hh m W k (fst s) g j).
  { intros g j Hg Hj. pose proof (gate_bound g j Hg Hj) as Hb2. rewrite gates_G, n_out_eq.
    rewrite at2 by assumption.
    rewrite (linear_row B _ _ _ _ _ b (fst s) (w_hh (W k) (g * H + j))) by (auto; intros; apply p_hh; auto).
    unfold hh, affine. rewrite p_bhh by auto. reflexivity. }
  destruct s as [vh vc]. cbn [fst snd] in *.
  unfold cell. unfold proj_ok in Hp. destruct (n_kind m) eqn:Ek; cbn [fst snd].
  - assert (Ho : out = H) by (unfold out_size; rewrite Hp; reflexivity).
    assert (R : rows out b (elem m B (fun b j => n_act m (kadd (Tensor.at_ [B; gates m * H] (linear B (layer_in m (k / dirs m)) (gates m * H) (param m k 0) (bias_param m k 2) x) [Z.of_nat b; Z.of_nat (0 * H + j)])
       (Tensor.at_ [B; gates m * H] (linear B (n_out m) (gates m * H) (param m k 1) (bias_param m k 3) (nth 0 h [])) [Z.of_nat b; Z.of_nat (0 * H + j)]))))
       (fst (step sig tnh m W k (k / ndir m) v (vh, vc)))).
    { unfold step. rewrite Ek, Ho. cbn [fst]. intros i Hi. rewrite nth_elem by assumption.
      rewrite GI, GH by (auto; unfold G; rewrite Ek; lia). reflexivity. }
    split; [split|]; [exact R|rewrite Ek; discriminate|exact R].
  - assert (Ho : out = H) by (unfold out_size; rewrite Hp; reflexivity).
    match goal with |- srel b [?y] _ /\ _ => assert (R : rows out b y (fst (step sig tnh m W k (k / ndir m) v (vh, vc)))) end.
    { unfold step. rewrite Ek, Ho. cbn [fst]. intros i Hi. rewrite nth_elem by assumption.
      rewrite !GI, !GH by (auto; unfold G; rewrite Ek; lia).
      rewrite at2 by assumption. rewrite Ho in Hh. rewrite Hh by assumption. cbn zeta.
      apply lerp. }
    split; [split|]; [exact R|rewrite Ek; discriminate|exact R].
  - specialize (Hc eq_refl).
    match goal with |- srel b [?y; ?c] _ /\ _ =>
      assert (RC : rows H b c (lstm_c sig tnh m W k (k / ndir m) v vh vc)) end.
    { intros i Hi. rewrite nth_elem by assumption. rewrite !GI, !GH by (auto; unfold G; rewrite Ek; lia).
      rewrite at2 by assumption. rewrite Hc by assumption. reflexivity. }
    match goal with |- srel b [?y; ?c] _ /\ _ => set (cc := c) in *; set (yy := y) end.
    assert (RY : rows out b yy (fst (step sig tnh m W k (k / ndir m) v (vh, vc)))).
    { unfold step. rewrite Ek. cbn [fst]. unfold yy.
      match goal with |- rows _ _ (if _ then ?e else _) _ => set (y0 := e);
        assert (R0 : rows H b y0 (lstm_h sig tnh m W k (k / ndir m) v vh vc)) end.
      { intros i Hi. unfold y0. rewrite nth_elem by assumption. rewrite !GI, !GH by (auto; unfold G; rewrite Ek; lia).
        rewrite at2 by assumption. rewrite RC by assumption. reflexivity. }
      unfold out_size. destruct (n_proj m) as [|p] eqn:Ep; cbn [Nat.eqb].
      + exact R0.
      + intros i Hi. rewrite (linear_row B _ _ _ _ _ b (lstm_h sig tnh m W k (k / ndir m) v vh vc) (w_hr (W k) i)); auto.
        * apply kadd_0.
        * intros. rewrite p_hr by (auto; lia). reflexivity. }
    split; [split|]; cbn [nth]; [exact RY| |exact RY].
    intros _. unfold step. rewrite Ek. cbn [snd]. exact RC.
Qed.

Definition hlen (B : nat) (h : hid (list K)) : Prop :=
  length (nth 0 h []) = B * out /\ (n_kind m = Lstm -> length (nth 1 h []) = B * H).
Lemma cell_len B k h x : proj_ok m ->
  hlen B (fst (cell sig tnh m B k h x)) /\ length (snd (cell sig tnh m B k h x)) = B * out.
Proof. clear W.
  intros Hp. unfold cell, hlen. unfold proj_ok in Hp. destruct (n_kind m) eqn:Ek; cbn [fst snd nth].
  - rewrite elem_len. unfold out_size. rewrite Hp. repeat split; discriminate.
  - rewrite elem_len. unfold out_size. rewrite Hp. repeat split; discriminate.
  - rewrite elem_len. unfold out_size. destruct (n_proj m); cbn [Nat.eqb].
    + rewrite elem_len. auto.
    + rewrite linear_len. auto.
Qed.

(** *** One layer over a clip *)

Lemma after_shift k l x s t :
  after sig tnh m W k l (fun t => x (S t)) (step sig tnh m W k l (x 0) s) t = after sig tnh m W k l x s (S t).
Proof. induction t as [|t IH]; [reflexivity|]. cbn [after] in *. rewrite IH. reflexivity. Qed.

Lemma layer_row (Hp : proj_ok m) (Hw : has_weights m W) B k b : k < n_L m * ndir m -> b < B ->
  forall xs h X s, (forall t, t < length xs -> rows (in_size m (k / ndir m)) b (nth t xs []) (X t)) -> srel b h s ->
  let r := rnn_layer (cell sig tnh m B k) h xs in
  (forall t, t < length xs -> rows out b (nth t (fst r) []) (fst (after sig tnh m W k (k / ndir m) X s (S t)))) /\
  srel b (snd r) (after sig tnh m W k (k / ndir m) X s (length xs)).
Proof.
  intros Hk Hb. induction xs as [|x xs IH]; intros h X s Hx Hh; cbn [rnn_layer].
  - cbn. split; [intros t Ht; inversion Ht|exact Hh].
  - destruct (cell_row Hp Hw B k b h x (X 0) s Hk Hb (Hx 0 ltac:(cbn; lia)) Hh) as [C1 C2].
    destruct (cell sig tnh m B k h x) as [h1 y]. cbn [fst snd] in C1, C2.
    destruct (IH h1 (fun t => X (S t)) _ (fun t Ht => Hx (S t) ltac:(cbn; lia)) C1) as [I1 I2].
    destruct (rnn_layer (cell sig tnh m B k) h1 xs) as [ys h2]. cbn [fst snd] in *. split.
    + intros [|t] Ht; [exact C2|]. cbn [nth]. rewrite <- after_shift. apply I1. cbn in Ht. lia.
    + rewrite after_shift in I2. exact I2.
Qed.
Lemma layer_len (Hp : proj_ok m) B k : forall xs h,
  let r := rnn_layer (cell sig tnh m B k) h xs in
  length (fst r) = length xs /\ Forall (fun y => length y = B * out) (fst r) /\ (hlen B h -> hlen B (snd r)).
Proof. clear W.
  induction xs as [|x xs IH]; intros h; cbn [rnn_layer].
  - cbn. auto.
  - destruct (cell_len B k h x Hp) as [C1 C2]. destruct (cell sig tnh m B k h x) as [h1 y].
    destruct (IH h1) as (I1 & I2 & I3). destruct (rnn_layer (cell sig tnh m B k) h1 xs) as [ys h2]. cbn [fst snd length] in *.
    rewrite I1. split; [reflexivity|]. split; [constructor; assumption|intros _; apply I3; exact C1].
Qed.

(** *** All layers of a module with one direction *)

Section One.
Hypothesis Hd : n_bidir m = false.
Hypothesis Hp : proj_ok m.
Hypothesis Hw : has_weights m W.
Lemma ndir1 : ndir m = 1. Proof. unfold ndir. rewrite Hd. reflexivity. Qed.
Lemma dirs1 : dirs m = 1. Proof. unfold dirs. rewrite Hd. reflexivity. Qed.

Lemma layers_row B b x s : b < B ->
  forall n l hs xs, l + n <= n_L m -> length hs = n ->
  (forall t, t < length xs -> rows (in_size m l) b (nth t xs []) (input_of sig tnh m W l x s t)) ->
  (forall i, i < n -> srel b (nth i hs []) (s (l + i))) ->
  let r := nn_layers sig tnh m B l n hs xs in
  (forall t, t < length xs -> rows (in_size m (l + n)) b (nth t (fst r) []) (input_of sig tnh m W (l + n) x s t)) /\
  (forall i, i < n -> srel b (nth i (snd r) []) (state_at sig tnh m W (l + i) x s (length xs))).
Proof.
  intros Hb. induction n as [|n IH]; intros l hs xs Hl Hh Hx Hs; cbn [nn_layers].
  - cbn [fst snd]. rewrite Nat.add_0_r. split; [exact Hx|intros i Hi; lia].
  - destruct hs as [|h hs]; [discriminate|]. injection Hh as Hh. unfold nn_layer. rewrite Hd, dirs1. cbn [firstn skipn nth].
    pose proof (layer_row Hp Hw B l b) as LR. rewrite ndir1, Nat.div_1_r in LR.
    specialize (LR ltac:(lia) Hb xs h (input_of sig tnh m W l x s) (s l) Hx).
    specialize (LR ltac:(rewrite <- (Nat.add_0_r l); apply (Hs 0); lia)). destruct LR as [L1 L2].
    pose proof (layer_len Hp B l xs h) as (L3 & _ & _).
    destruct (rnn_layer (cell sig tnh m B l) h xs) as [ys h1]. cbn [fst snd] in *.
    specialize (IH (S l) hs ys ltac:(lia) Hh).
    assert (Hi : in_size m (S l) = out) by (cbn [in_size]; rewrite ndir1; lia).
    rewrite Hi in IH. rewrite L3 in IH. specialize (IH L1 (fun i Hi => ltac:(replace (S l + i) with (l + S i) by lia; apply (Hs (S i)); lia))).
    destruct (nn_layers sig tnh m B (S l) n hs ys) as [zs hs']. cbn [fst snd] in *. destruct IH as [I1 I2].
    replace (l + S n) with (S l + n) by lia. split; [exact I1|].
    intros [|i] Hi2; cbn [nth app].
    + rewrite Nat.add_0_r. exact L2.
    + replace (l + S i) with (S l + i) by lia. apply I2. lia.
Qed.

Lemma layers_len B : forall n l hs xs, length hs = n -> Forall (hlen B) hs ->
  let r := nn_layers sig tnh m B l n hs xs in
  length (fst r) = length xs /\ (0 < n -> Forall (fun y => length y = B * out) (fst r)) /\
  length (snd r) = n /\ Forall (hlen B) (snd r).
Proof.
  induction n as [|n IH]; intros l hs xs Hh Hf; cbn [nn_layers].
  - cbn. split; [reflexivity|]. split; [lia|]. split; [reflexivity|constructor].
  - destruct hs as [|h hs]; [discriminate|]. injection Hh as Hh. inversion Hf as [|a c F1 F2]; subst a c.
    unfold nn_layer. rewrite Hd, dirs1. cbn [firstn skipn nth].
    destruct (layer_len Hp B l xs h) as (L1 & L2 & L3).
    destruct (rnn_layer (cell sig tnh m B l) h xs) as [ys h1]. cbn [fst snd] in *.
    destruct (IH (S l) hs ys Hh F2) as (I1 & I2 & I3 & I4).
    assert (Z : n = 0 -> fst (nn_layers sig tnh m B (S l) n hs ys) = ys) by (intros ->; reflexivity).
    destruct (nn_layers sig tnh m B (S l) n hs ys) as [zs hs']. cbn [fst snd] in *.
    cbn [app length]. rewrite I1, I3. split; [exact L1|]. split; [|split; [reflexivity|constructor; auto]].
    intros _. destruct n; [rewrite Z by reflexivity; exact L2|apply I2; lia].
Qed.
End One.


(** *** States *)

Lemma shapes_eq B : state_shapes m B =
  [n_L m * ndir m; B; out] :: match n_kind m with Lstm => [[n_L m * ndir m; B; H]] | _ => [] end.
Proof. clear W. unfold state_shapes. rewrite n_out_eq, dirs_eq. reflexivity. Qed.

Lemma shape_eqb_refl s : shape_eqb s s = true.
Proof. unfold shape_eqb. destruct (list_eq_dec Nat.eq_dec s s); congruence. Qed.

Lemma rows_zeros n b N : rows n b (repeat (k0 : K) N) (fun _ => k0).
Proof. clear W. intros i _. apply nth_repeat. Qed.

Lemma select_rows A B n (x : tens K) k b : sh x = [A; B; n] -> k < A -> b < B ->
  rows n b (dat (select 0 k x)) (fun j => get x [k; b; j]).
Proof. clear W.
  intros Hs Hk Hb i Hi. rewrite <- (get2 B n (select 0 k x) b i); auto.
  - unfold select. rewrite Hs. cbn [remove_at firstn skipn app].
    rewrite get_mk by (repeat constructor; lia). reflexivity.
  - unfold select. rewrite Hs. reflexivity.
Qed.
Lemma select_len A B n (x : tens K) k : sh x = [A; B; n] -> length (dat (select 0 k x)) = B * n.
Proof. clear W. intros Hs. unfold select, mk. cbn [dat]. rewrite tab_len, Hs. cbn. lia. Qed.

Lemma get_hidden_ok B o : state_ok m B o ->
  exists hs, get_hidden m B o = Ok hs /\ length hs = n_L m * ndir m /\ Forall (hlen B) hs /\
    forall b l, b < B -> l < n_L m * ndir m -> srel b (nth l hs []) (hidden o b l).
Proof. clear W.
  intros Hs. unfold get_hidden. rewrite shapes_eq, dirs_eq. destruct o as [ts|].
  - assert (exists h r, ts = h :: r /\ sh h = [n_L m * ndir m; B; out] /\
       (r = [] /\ n_kind m <> Lstm \/ exists c, r = [c] /\ n_kind m = Lstm /\ sh c = [n_L m * ndir m; B; H])) as (h & r & -> & Sh & Hr).
    { cbn [state_ok] in Hs. destruct ts as [|h [|c [|]]]; try contradiction; destruct (n_kind m); try contradiction.
      - exists h, []. destruct Hs. split; [reflexivity|]. split; [assumption|]. left. split; [reflexivity|discriminate].
      - exists h, []. destruct Hs. split; [reflexivity|]. split; [assumption|]. left. split; [reflexivity|discriminate].
      - exists h, [c]. destruct Hs as [[? ?] [? ?]]. split; [reflexivity|]. split; [assumption|]. right. exists c. auto. }
    destruct Hr as [[-> Hk]|(c & -> & Hk & Sc)].
    + replace (match n_kind m with Lstm => [[n_L m * ndir m; B; H]] | _ => [] end) with (@nil (list nat)) by (destruct (n_kind m); congruence).
      cbn [length Nat.eqb combine forallb fst snd]. rewrite Sh, shape_eqb_refl. cbn [andb].
      eexists. split; [reflexivity|]. rewrite map_length, seq_length. split; [reflexivity|]. split.
      * apply Forall_forall. intros h0 Hin. apply in_map_iff in Hin. destruct Hin as (k & <- & _).
        split; cbn [map nth]; [apply (select_len _ _ _ _ _ Sh)|congruence].
      * intros b l Hb Hl. rewrite nth_map_seq by exact Hl. split; cbn [map nth hidden fst snd]; [|congruence].
        eapply select_rows; eassumption.
    + rewrite Hk. cbn [length Nat.eqb combine forallb fst snd]. rewrite Sh, Sc, !shape_eqb_refl. cbn [andb].
      eexists. split; [reflexivity|]. rewrite map_length, seq_length. split; [reflexivity|]. split.
      * apply Forall_forall. intros h0 Hin. apply in_map_iff in Hin. destruct Hin as (k & <- & _).
        split; cbn [map nth]; intros; [apply (select_len _ _ _ _ _ Sh)|apply (select_len _ _ _ _ _ Sc)].
      * intros b l Hb Hl. rewrite nth_map_seq by exact Hl. split; cbn [map nth hidden fst snd]; intros; eapply select_rows; eassumption.
  - eexists. split; [reflexivity|]. rewrite repeat_length. split; [reflexivity|]. split.
    + apply Forall_forall. intros h Hin. apply repeat_spec in Hin. subst h. split; cbn [map nth tl size fold_right].
      * rewrite repeat_length. lia.
      * intros ->. cbn [map nth tl size fold_right]. rewrite repeat_length. lia.
    + intros b l Hb Hl. rewrite (nth_indep _ _ (map (fun s => repeat k0 (size (tl s)))
         ([n_L m * ndir m; B; out] :: match n_kind m with Lstm => [[n_L m * ndir m; B; H]] | _ => [] end))) by (rewrite repeat_length; exact Hl).
      rewrite nth_repeat. split; cbn [map nth tl fst snd hidden].
      * apply rows_zeros.
      * intros ->. cbn [map nth]. apply rows_zeros.
Qed.

Lemma get_concat A B n (l : list (list K)) k b j : length l = A -> Forall (fun r => length r = B * n) l -> k < A -> b < B -> j < n ->
  get (T [A; B; n] (concat l)) [k; b; j] = nth (b * n + j) (nth k l []) k0.
Proof. clear W.
  intros Hl Hf Hk Hb Hj. rewrite (get3 A B n (T [A; B; n] (concat l)) k b j eq_refl Hk Hb Hj). cbn [dat].
  rewrite <- (nth_concat l (B * n) Hf) by nia. f_equal. nia.
Qed.
Lemma concat_len (l : list (list K)) n : Forall (fun r => length r = n) l -> length (concat l) = length l * n.
Proof. clear W. induction 1 as [|a l Ha Hl IH]; [reflexivity|]. cbn [concat length]. rewrite app_length, Ha, IH. cbn. lia. Qed.

Lemma put_hidden_ok B hs : length hs = n_L m * ndir m -> Forall (hlen B) hs ->
  state_ok m B (Some (put_hidden m B hs)) /\
  forall b l, b < B -> l < n_L m * ndir m ->
    (forall j, j < out -> fst (hidden (Some (put_hidden m B hs)) b l) j = nth (b * out + j) (nth 0 (nth l hs []) []) k0) /\
    (n_kind m = Lstm -> forall j, j < H -> snd (hidden (Some (put_hidden m B hs)) b l) j = nth (b * H + j) (nth 1 (nth l hs []) []) k0).
Proof. clear W.
  intros Hl Hf. unfold hid in *.
  assert (F0 : Forall (fun r => length r = B * out) (map (fun h => nth 0 h []) hs)).
  { apply Forall_forall. intros r Hr. apply in_map_iff in Hr. destruct Hr as (h & <- & Hin).
    rewrite Forall_forall in Hf. apply (Hf h Hin). }
  assert (F1 : n_kind m = Lstm -> Forall (fun r => length r = B * H) (map (fun h => nth 1 h []) hs)).
  { intros Hk. apply Forall_forall. intros r Hr. apply in_map_iff in Hr. destruct Hr as (h & <- & Hin).
    rewrite Forall_forall in Hf. apply (Hf h Hin). exact Hk. }
  assert (N : forall i l, l < length hs -> nth l (map (fun h : hid (list K) => nth i h []) hs) [] = nth i (nth l hs []) []).
  { intros i l Hi. rewrite (nth_indep _ [] (nth i [] [])) by (rewrite map_length; exact Hi). apply (map_nth (fun h => nth i h [])). }
  unfold put_hidden. rewrite shapes_eq. cbn [seq].
  destruct (n_kind m) eqn:Ek; cbn [combine map fst snd hidden].
  1,2: split; [cbn [state_ok]; rewrite Ek; split; [reflexivity|cbn [dat]; rewrite (concat_len _ _ F0), map_length, Hl; cbn [fold_right]; lia]|];
    intros b l Hb Hi; split; [|discriminate]; intros j Hj; rewrite get_concat; auto; [rewrite N by lia; reflexivity|rewrite map_length; exact Hl].
  specialize (F1 eq_refl). split.
  - cbn [state_ok]. rewrite Ek. split; (split; [reflexivity|cbn [dat]]).
    + rewrite (concat_len _ _ F0), map_length, Hl; cbn [fold_right]; lia.
    + rewrite (concat_len _ _ F1), map_length, Hl; cbn [fold_right]; lia.
  - intros b l Hb Hi. split; [|intros _]; intros j Hj; (rewrite get_concat; auto; [rewrite N by lia; reflexivity|rewrite map_length; exact Hl]).
Qed.

(** *** The whole module, one direction *)

Section Whole.
Hypothesis Hd : n_bidir m = false.
Hypothesis Hp : proj_ok m.
Hypothesis Hw : has_weights m W.
Hypothesis HL : 0 < n_L m.

Definition bflip (x : tens K) : tens K := if n_bf m then transpose 0 1 x else x.

Lemma slices_len3 (x : tens K) L B c : sh x = [L; B; c] -> length (slices x) = L.
Proof. intros Hs. unfold slices. rewrite map_length, seq_length, Hs. reflexivity. Qed.

Lemma nn_core B T x X o s : sh (bflip x) = [T; B; n_in m] ->
  (forall b t i, b < B -> t < T -> i < n_in m -> get (bflip x) [t; b; i] = X b t i) -> 0 < T -> state_ok m B o -> says m B o s ->
  exists ys hs,
    nn_forward sig tnh m x o = Ok (bflip (TAttn.T [T; B; out] (concat ys)), hs) /\
    length ys = T /\ Forall (fun y => length y = B * out) ys /\
    (forall b t, b < B -> t < T -> rows out b (nth t ys []) (out_at sig tnh m W (X b) (s b) t)) /\
    state_ok m B (Some hs) /\
    says m B (Some hs) (fun b l => state_at sig tnh m W l (X b) (s b) T).
Proof.
  intros Hx HX HT Ho Hs. destruct (get_hidden_ok B o Ho) as (hs & Eh & Lh & Fh & Rh).
  unfold nn_forward. change (if n_bf m then transpose 0 1 x else x) with (bflip x). rewrite Hx.
  destruct (Nat.eqb_spec T 0); [lia|]. rewrite Nat.eqb_refl. cbn [negb]. rewrite Eh. cbn [bind].
  pose proof (slices_len3 _ _ _ _ Hx) as Ls. rewrite (ndir1 Hd), Nat.mul_1_r in *.
  destruct (layers_len Hd Hp B (n_L m) 0 hs (slices (bflip x)) Lh Fh) as (L1 & L2 & L3 & L4).
  assert (R : forall b, b < B -> let r := nn_layers sig tnh m B 0 (n_L m) hs (slices (bflip x)) in
     (forall t, t < T -> rows out b (nth t (fst r) []) (out_at sig tnh m W (X b) (s b) t)) /\
     (forall i, i < n_L m -> srel b (nth i (snd r) []) (state_at sig tnh m W i (X b) (s b) T))).
  { intros b Hb.
    pose proof (layers_row Hd Hp Hw B b (X b) (s b) Hb (n_L m) 0 hs (slices (bflip x)) ltac:(lia) Lh) as Q.
    rewrite Ls in Q. cbn [in_size input_of Nat.add] in Q.
    assert (Hin : in_size m (n_L m) = out) by (destruct (n_L m); [lia|]; cbn [in_size]; rewrite (ndir1 Hd); lia).
    rewrite Hin in Q. apply Q.
    - intros t Ht. unfold slices. rewrite nth_map_seq by (rewrite Hx; exact Ht). intros i Hi.
      rewrite (select_rows T B (n_in m) (bflip x) t b Hx Ht Hb i Hi). apply HX; assumption.
    - intros i Hi. destruct (Rh b i Hb Hi) as [R1 R2]. split.
      + intros j Hj. rewrite R1 by exact Hj. apply (Hs b i j Hb Hi). exact Hj.
      + intros Hk j Hj. rewrite R2 by auto. apply (Hs b i j Hb Hi); assumption. }
  destruct (nn_layers sig tnh m B 0 (n_L m) hs (slices (bflip x))) as [ys hs']. cbn [fst snd] in *.
  rewrite dirs_eq, (ndir1 Hd), n_out_eq, Nat.mul_1_l.
  assert (L3' : length hs' = n_L m * ndir m) by (rewrite (ndir1 Hd); lia).
  destruct (put_hidden_ok B hs' L3' L4) as [P1 P2].
  exists ys, (put_hidden m B hs'). split; [reflexivity|]. split; [lia|]. split; [auto|].
  split; [intros b t Hb Ht; apply (R b Hb); exact Ht|]. split; [exact P1|].
  intros b l j Hb Hl. destruct (P2 b l Hb ltac:(rewrite (ndir1 Hd); lia)) as [Q1 Q2].
  destruct (R b Hb) as [_ R2]. destruct (R2 l Hl) as [S1 S2]. split.
  - intros Hj. rewrite Q1 by exact Hj. apply S1. exact Hj.
  - intros Hk Hj. rewrite Q2 by assumption. apply S2; assumption.
Qed.

(** *** Layouts of the continual module *)

Lemma transpose01 A B C (x : tens K) : sh x = [A; B; C] ->
  sh (transpose 0 1 x) = [B; A; C] /\ forall a b c, a < A -> b < B -> c < C -> get (transpose 0 1 x) [b; a; c] = get x [a; b; c].
Proof.
  intros Hs. unfold transpose, permute. rewrite Hs. split; [reflexivity|]. intros a b c Ha Hb Hc.
  cbn [sh map seq length nth mk Nat.eqb]. rewrite get_mk by (repeat constructor; assumption). reflexivity.
Qed.
Lemma transpose12 A B C (x : tens K) : sh x = [A; B; C] ->
  sh (transpose 1 2 x) = [A; C; B] /\ forall a b c, a < A -> b < B -> c < C -> get (transpose 1 2 x) [a; c; b] = get x [a; b; c].
Proof.
  intros Hs. unfold transpose, permute. rewrite Hs. split; [reflexivity|]. intros a b c Ha Hb Hc.
  cbn [sh map seq length nth mk Nat.eqb]. rewrite get_mk by (repeat constructor; assumption). reflexivity.
Qed.
Lemma transpose_len a b (x : tens K) : length (dat (transpose a b x)) = size (sh (transpose a b x)).
Proof. unfold transpose, permute, mk. cbn [dat sh]. apply tab_len. Qed.

Hypothesis Hbf : n_bf m = true.

Lemma fwd_ok B T x X o s : sh x = [B; n_in m; T] ->
  (forall b t i, b < B -> t < T -> i < n_in m -> get x [b; i; t] = X b t i) -> 0 < T ->
  state_ok m B o -> says m B o s ->
  exists y hs, r_forward sig tnh m x o = Ok (y, hs) /\ shaped [B; out; T] y /\
    (forall b j t, b < B -> j < out -> t < T -> get y [b; j; t] = out_at sig tnh m W (X b) (s b) t j) /\
    state_ok m B (Some hs) /\ says m B (Some hs) (fun b l => state_at sig tnh m W l (X b) (s b) T).
Proof.
  intros Hx HX HT Ho Hs. unfold r_forward. rewrite Hx. cbn [length Nat.ltb Nat.leb].
  destruct (transpose12 _ _ _ x Hx) as [S1 G1]. destruct (transpose01 _ _ _ _ S1) as [S2 G2].
  destruct (nn_core B T (transpose 1 2 x) X o s) as (ys & hs & E & Ly & Fy & Ry & So & Sa); auto.
  - unfold bflip. rewrite Hbf. exact S2.
  - intros b t i Hb Ht Hi. unfold bflip. rewrite Hbf. rewrite G2 by assumption. rewrite G1 by assumption. apply HX; assumption.
  - rewrite E. cbn [bind]. unfold bflip. rewrite Hbf.
    set (y0 := TAttn.T [T; B; out] (concat ys)). destruct (transpose01 T B out y0 eq_refl) as [S3 G3].
    destruct (transpose12 _ _ _ _ S3) as [S4 G4].
    exists (transpose 1 2 (transpose 0 1 y0)), hs. split; [reflexivity|]. split.
    { split; [exact S4|]. rewrite transpose_len, S4. reflexivity. }
    split; [|split; assumption]. intros b j t Hb Hj Ht. rewrite G4 by assumption. rewrite G3 by assumption.
    unfold y0. rewrite get_concat by assumption. apply Ry; assumption.
Qed.

Lemma step_ok B x X o s : shaped [B; n_in m] x ->
  (forall b i, b < B -> i < n_in m -> get x [b; i] = X b 0 i) ->
  state_ok m B o -> says m B o s ->
  exists y hs, r_fstep sig tnh m x o = Ok (y, hs) /\ shaped [B; out] y /\
    (forall b j, b < B -> j < out -> get y [b; j] = out_at sig tnh m W (X b) (s b) 0 j) /\
    state_ok m B (Some hs) /\ says m B (Some hs) (fun b l => state_at sig tnh m W l (X b) (s b) 1).
Proof.
  intros [Hx _] HX Ho Hs. unfold r_fstep.
  assert (S1 : sh (unsqueeze 1 x) = [B; 1; n_in m]) by (unfold unsqueeze; rewrite Hx; reflexivity).
  destruct (transpose01 _ _ _ _ S1) as [S2 G2].
  destruct (nn_core B 1 (unsqueeze 1 x) X o s) as (ys & hs & E & Ly & Fy & Ry & So & Sa); auto.
  - unfold bflip. rewrite Hbf. exact S2.
  - intros b t i Hb Ht Hi. unfold bflip. rewrite Hbf. rewrite G2 by assumption.
    rewrite (get3 B 1 (n_in m) _ b t i S1) by assumption. replace t with 0 by lia.
    rewrite <- HX by assumption. rewrite (get2 B (n_in m) x b i Hx) by assumption. cbn [unsqueeze dat]. f_equal. lia.
  - rewrite E. cbn [bind]. unfold bflip. rewrite Hbf.
    set (y0 := TAttn.T [1; B; out] (concat ys)). destruct (transpose01 1 B out y0 eq_refl) as [S3 G3].
    assert (S4 : sh (squeeze 1 (transpose 0 1 y0)) = [B; out]) by (unfold squeeze; rewrite S3; reflexivity).
    assert (D4 : dat (squeeze 1 (transpose 0 1 y0)) = dat (transpose 0 1 y0)) by (unfold squeeze; rewrite S3; reflexivity).
    exists (squeeze 1 (transpose 0 1 y0)), hs. split; [reflexivity|]. split.
    { split; [exact S4|]. rewrite D4, transpose_len, S3. cbn. lia. }
    split; [|split; assumption]. intros b j Hb Hj.
    rewrite (get2 B out _ b j S4 Hb Hj), D4.
    transitivity (get (transpose 0 1 y0) [b; 0; j]).
    + rewrite (get3 B 1 out _ b 0 j S3) by (assumption || lia). f_equal. lia.
    + rewrite G3 by (assumption || lia). unfold y0. rewrite get_concat by (assumption || lia). apply Ry; (assumption || lia).
Qed.

(** *** Streams *)

Lemma after_ext k l x x' s n : (forall t, t < n -> x t = x' t) ->
  after sig tnh m W k l x s n = after sig tnh m W k l x' s n.
Proof.
  induction n as [|n IH]; intros E; [reflexivity|]. cbn [after]. rewrite IH by (intros; apply E; lia). rewrite E by lia. reflexivity.
Qed.
Lemma input_ext l x x' s n : (forall t, t < n -> x t = x' t) ->
  forall t, t < n -> input_of sig tnh m W l x s t = input_of sig tnh m W l x' s t.
Proof.
  intros E. induction l as [|l IH]; intros t Ht; [apply E; exact Ht|]. cbn [input_of]. f_equal.
  apply after_ext. intros t' Ht'. apply IH. lia.
Qed.
Lemma state_ext l x x' s n : (forall t, t < n -> x t = x' t) -> state_at sig tnh m W l x s n = state_at sig tnh m W l x' s n.
Proof. intros E. unfold state_at. apply after_ext. intros t Ht. exact (input_ext l x x' s n E t Ht). Qed.
Lemma after_app k l x x' s a t : (forall t, x' t = x (a + t)) ->
  after sig tnh m W k l x' (after sig tnh m W k l x s a) t = after sig tnh m W k l x s (a + t).
Proof.
  intros E. induction t as [|t IH]; [rewrite Nat.add_0_r; reflexivity|]. rewrite Nat.add_succ_r. cbn [after]. rewrite IH, E. reflexivity.
Qed.
Lemma input_app l x s a t :
  input_of sig tnh m W l (fun t => x (a + t)) (fun l => state_at sig tnh m W l x s a) t = input_of sig tnh m W l x s (a + t).
Proof.
  revert t. induction l as [|l IH]; intros t; [reflexivity|]. cbn [input_of].
  pose proof (after_app l l (input_of sig tnh m W l x s) (input_of sig tnh m W l (fun t => x (a + t)) (fun l => state_at sig tnh m W l x s a)) (s l) a (S t) IH) as Q.
  unfold state_at at 2. rewrite Q. rewrite Nat.add_succ_r. reflexivity.
Qed.
Lemma state_app l x s a t :
  state_at sig tnh m W l (fun t => x (a + t)) (fun l => state_at sig tnh m W l x s a) t = state_at sig tnh m W l x s (a + t).
Proof. unfold state_at at 1. unfold state_at at 2. apply after_app. intros t'. apply input_app. Qed.

Lemma says_ext B o s s' : says m B o s -> (forall b l, s b l = s' b l) -> says m B o s'.
Proof. intros Hs E b l j Hb Hl. rewrite <- E. apply Hs; assumption. Qed.

Lemma calls_ok B s : forall cs past o,
  Forall (call_ok m B) cs -> state_ok m B o ->
  says m B o (fun b l => state_at sig tnh m W l (stream past b) (s b) (length past)) ->
  exists ys o', r_run sig tnh m o cs = Ok (ys, o') /\ answers sig tnh m W B s past cs ys /\ state_ok m B o' /\
    let all := past ++ taken cs in
    says m B o' (fun b l => state_at sig tnh m W l (stream all b) (s b) (length all)).
Proof.
  induction cs as [|c cs IH]; intros past o Hc Ho Hs.
  - exists [], o. cbn. rewrite app_nil_r. auto.
  - inversion Hc as [|? ? Hc1 Hc2]; subst.
    assert (Q : exists y hs, (forall u : bool,
              match c with Step x u => r_forward_step sig tnh m o x u | Steps x pe u => r_forward_steps sig tnh m o x pe u end
                = Ok (y, if updates c then Some hs else o)) /\
            answer sig tnh m W B s past c y /\ state_ok m B (Some hs) /\
            says m B (Some hs) (fun b l => state_at sig tnh m W l (stream (past ++ frames_of c) b) (s b) (length (past ++ frames_of c)))).
    { assert (Hs' : says m B o (fun b l => state_at sig tnh m W l (stream (past ++ frames_of c) b) (s b) (length past))).
      { eapply says_ext; [exact Hs|]. intros b l. apply state_ext. intros t Ht. unfold stream. rewrite app_nth1 by exact Ht. reflexivity. }
      set (X := fun b t => stream (past ++ frames_of c) b (length past + t)).
      assert (HX : forall b t i, X b t i = nth t (frames_of c) (fun _ _ => k0) b i).
      { intros b t i. unfold X, stream. rewrite app_nth2 by lia. replace (length past + t - length past) with t by lia. reflexivity. }
      destruct c as [x u|x pe u].
      - destruct (step_ok B x X o _ Hc1 (fun b i Hb Hi => eq_sym (HX b 0 i)) Ho Hs') as (y & hs & E & Sy & Gy & So & Sa).
        exists y, hs. split; [intros _; unfold r_forward_step; rewrite E; reflexivity|]. split; [|split; [exact So|]].
        + split; [exact Sy|]. intros b j Hb Hj. rewrite Gy by assumption. unfold out_at.
          pose proof (input_app (n_L m) (stream (past ++ frames_of (Step x u)) b) (s b) (length past) 0) as I.
          rewrite Nat.add_0_r in I. rewrite <- I. reflexivity.
        + eapply says_ext; [exact Sa|]. intros b l. cbn [frames_of]. rewrite app_length. cbn [length].
          rewrite <- state_app. reflexivity.
      - destruct Hc1 as (T & HT & Hx). destruct Hx as [Hx Hlx].
        assert (HX2 : forall b t i, b < B -> t < T -> i < n_in m -> get x [b; i; t] = X b t i).
        { intros b t i Hb Ht Hi. rewrite HX. cbn [frames_of]. rewrite Hx. cbn [nth]. rewrite nth_map_seq by exact Ht. reflexivity. }
        destruct (fwd_ok B T x X o _ Hx HX2 HT Ho Hs') as (y & hs & E & Sy & Gy & So & Sa).
        exists y, hs. split; [intros _; unfold r_forward_steps; rewrite E; reflexivity|]. split; [|split; [exact So|]].
        + cbn [answer]. rewrite Hx. cbn [nth]. split; [exact Sy|]. intros b j t Hb Hj Ht. rewrite Gy by assumption. unfold out_at.
          pose proof (input_app (n_L m) (stream (past ++ frames_of (Steps x pe u)) b) (s b) (length past) t) as I.
          rewrite <- I. reflexivity.
        + eapply says_ext; [exact Sa|]. intros b l. rewrite app_length.
          assert (Lf : length (frames_of (Steps x pe u)) = T) by (cbn [frames_of]; rewrite map_length, seq_length, Hx; reflexivity).
          rewrite Lf, <- state_app. reflexivity. }
    destruct Q as (y & hs & E & An & So & Sa). cbn [r_run]. rewrite (E true). cbn [bind].
    destruct (IH (if updates c then past ++ frames_of c else past) (if updates c then Some hs else o) Hc2) as (ys & o' & E2 & An2 & So2 & Sa2).
    { destruct (updates c); assumption. }
    { destruct (updates c); assumption. }
    rewrite E2. cbn [bind]. exists (y :: ys), o'. split; [reflexivity|]. split; [split; assumption|]. split; [exact So2|].
    cbn [taken filter] in *. unfold taken in *. cbn [filter]. destruct (updates c); cbn [flat_map].
    + rewrite <- app_assoc in Sa2. exact Sa2.
    + exact Sa2.
Qed.

End Whole.


(** *** A batch of another size *)

Lemma batch_change B B' o x u : state_ok m B (Some o) -> B' <> B -> n_bf m = true ->
  (sh x = [B'; n_in m] -> r_forward_step sig tnh m (Some o) x u = Err RuntimeError) /\
  (forall T pe, sh x = [B'; n_in m; T] -> r_forward_steps sig tnh m (Some o) x pe u = Err RuntimeError).
Proof. clear W.
  intros Ho Hb Hbf.
  assert (G : get_hidden m B' (Some o) = Err RuntimeError).
  { unfold get_hidden. rewrite shapes_eq. cbn [state_ok] in Ho.
    assert (Hne : forall a b n, shape_eqb [a; B; n] [b; B'; n] = false).
    { intros a b n. unfold shape_eqb. destruct (list_eq_dec Nat.eq_dec [a; B; n] [b; B'; n]) as [E|]; [congruence|reflexivity]. }
    destruct o as [|h [|c [|]]]; try contradiction; destruct (n_kind m); try contradiction.
    - destruct Ho as [E _]. cbn [combine forallb fst snd]. rewrite E, Hne. reflexivity.
    - destruct Ho as [E _]. cbn [combine forallb fst snd]. rewrite E, Hne. reflexivity.
    - destruct Ho as [[E _] _]. cbn [combine forallb fst snd]. rewrite E, Hne. reflexivity. }
  split.
  - intros Hx. unfold r_forward_step, r_fstep, nn_forward. rewrite Hbf.
    assert (S1 : sh (unsqueeze 1 x) = [B'; 1; n_in m]) by (unfold unsqueeze; rewrite Hx; reflexivity).
    destruct (transpose01 _ _ _ _ S1) as [S2 _]. rewrite S2. cbn [Nat.eqb]. rewrite Nat.eqb_refl. cbn [negb]. rewrite G. reflexivity.
  - intros T pe Hx. unfold r_forward_steps, r_forward, nn_forward. rewrite Hx. cbn [length Nat.ltb Nat.leb]. rewrite Hbf.
    destruct (transpose12 _ _ _ _ Hx) as [S1 _]. destruct (transpose01 _ _ _ _ S1) as [S2 _]. rewrite S2.
    destruct (Nat.eqb_spec T 0); [reflexivity|]. rewrite Nat.eqb_refl. cbn [negb]. rewrite G. reflexivity.
Qed.

(** *** Another number of channels *)

Lemma wrong_channels o x u B c : c <> n_in m -> n_bf m = true ->
  (sh x = [B; c] -> r_forward_step sig tnh m o x u = Err RuntimeError) /\
  (forall T pe, sh x = [B; c; T] -> r_forward sig tnh m x o = Err RuntimeError /\ r_forward_steps sig tnh m o x pe u = Err RuntimeError).
Proof. clear W.
  intros Hc Hbf. apply Nat.eqb_neq in Hc. split.
  - intros Hx. unfold r_forward_step, r_fstep, nn_forward. rewrite Hbf.
    assert (S1 : sh (unsqueeze 1 x) = [B; 1; c]) by (unfold unsqueeze; rewrite Hx; reflexivity).
    destruct (transpose01 _ _ _ _ S1) as [S2 _]. rewrite S2. cbn [Nat.eqb]. rewrite Hc. reflexivity.
  - intros T pe Hx. assert (E : r_forward sig tnh m x o = Err RuntimeError).
    { unfold r_forward, nn_forward. rewrite Hx. cbn [length Nat.ltb Nat.leb]. rewrite Hbf.
      destruct (transpose12 _ _ _ _ Hx) as [S1 _]. destruct (transpose01 _ _ _ _ S1) as [S2 _]. rewrite S2.
      destruct (Nat.eqb_spec T 0); [reflexivity|]. rewrite Hc. reflexivity. }
    split; [exact E|]. unfold r_forward_steps. rewrite E. reflexivity.
Qed.

End P.

(** *** Conversion *)

Section Build.
Context {K : Type} {NK : Num K} {NL : NumLaws K}.
Variables sig tnh : K -> K.

Lemma fits_refl s : fits_into s s = true.
Proof. induction s as [|a s IH]; [reflexivity|]. cbn. rewrite Nat.eqb_refl, IH. reflexivity. Qed.
Lemma spread_same s : forall ix, inr ix s -> spread s ix = ix.
Proof.
  unfold spread. intros ix Hi. assert (L : length ix = length s) by (induction Hi; cbn; congruence).
  rewrite L, Nat.sub_diag. cbn [skipn]. clear L. induction Hi as [|i n ix s Hin Hi IH]; [reflexivity|].
  cbn [combine map fst snd]. rewrite IH. destruct (Nat.eqb_spec n 1); [|reflexivity]. f_equal. lia.
Qed.
Lemma copy_same (a b : tens K) : sh a = sh b -> length (dat b) = size (sh b) -> copy_ a b = Ok b.
Proof.
  intros Hs Hl. unfold copy_. rewrite Hs, fits_refl. f_equal. destruct b as [s d]. cbn [sh dat] in *. unfold mk. f_equal.
  transitivity (tab s (fun ix => Tensor.at_ s d (map Z.of_nat ix))); [|exact (tab_at s d Hl)]. apply tab_ext. intros ix Hi. rewrite (spread_same s ix Hi). reflexivity.
Qed.
Lemma copy_prefix (ours theirs : list (tens K)) : forall more,
  map sh ours = map sh theirs -> Forall (fun b => length (dat b) = size (sh b)) theirs ->
  copy_all ours (theirs ++ more) = Ok theirs.
Proof.
  revert ours. induction theirs as [|b theirs IH]; intros [|a ours] more Hs Hf; try discriminate.
  - destruct more; reflexivity.
  - injection Hs as H1 H2. inversion Hf; subst. cbn [app copy_all]. rewrite copy_same by assumption. cbn [bind]. rewrite IH by assumption. reflexivity.
Qed.
Lemma copy_bad (ours theirs : list (tens K)) d : forall i, i < length ours -> i < length theirs ->
  fits_into (rev (sh (nth i theirs d))) (rev (sh (nth i ours d))) = false -> copy_all ours theirs = Err RuntimeError.
Proof.
  revert theirs. induction ours as [|a ours IH]; intros [|b theirs] i H1 H2 Hb; cbn in H1, H2; try lia.
  cbn [copy_all]. destruct i as [|i].
  - cbn [nth] in Hb. unfold copy_. rewrite Hb. reflexivity.
  - cbn [nth] in Hb. rewrite (IH theirs i) by (assumption || lia). unfold copy_. destruct (fits_into (rev (sh b)) (rev (sh a))); reflexivity.
Qed.

Definition co_of (m : trnn K) (ws : list (tens K)) : trnn K :=
  co_init (n_kind m) (n_in m) (n_H m) (n_L m) (n_bias m) (n_proj m) (n_act m) ws.

Lemma tensors_shapes (m : trnn K) W W' k : map sh (tensors_of m W k) = map sh (tensors_of m W' k).
Proof. unfold tensors_of. rewrite !map_app. destruct (n_bias m), (n_proj m); reflexivity. Qed.
Lemma tensors_full (m : trnn K) W k : Forall (fun b => length (dat b) = size (sh b)) (tensors_of m W k).
Proof.
  apply Forall_forall. intros t Ht.
  assert (M : forall s f, length (dat (mk (K:=K) s f)) = size (sh (mk s f))) by (intros; cbn; apply tab_len).
  unfold tensors_of in Ht. rewrite !in_app_iff in Ht. destruct (n_bias m), (n_proj m); cbn in Ht;
    repeat (destruct Ht as [Ht|Ht]; [try (subst t; apply M); repeat (destruct Ht as [Ht|Ht]; [subst t; apply M|]); try contradiction|]);
    repeat (destruct Ht as [Ht|Ht]; [subst t; apply M|]); contradiction.
Qed.
Lemma flat_full (m : trnn K) W l : Forall (fun b => length (dat b) = size (sh b)) (flat_map (tensors_of m W) l).
Proof. apply Forall_flat_map. apply Forall_forall. intros k _. apply tensors_full. Qed.
Lemma flat_map_sh (f g : nat -> list (tens K)) l : (forall k, In k l -> map sh (f k) = map sh (g k)) ->
  map sh (flat_map f l) = map sh (flat_map g l).
Proof.
  induction l as [|k l IH]; intros E; [reflexivity|]. cbn [flat_map]. rewrite !map_app, E by (left; reflexivity).
  rewrite IH by (intros; apply E; right; assumption). reflexivity.
Qed.

(** The continual module lists the tensors of the first [n_L] layers and directions when
    the shapes allow it. *)
Lemma tensors_co (m : trnn K) W ws k : in_size (co_of m ws) k = in_size m (k / ndir m) ->
  tensors_of (co_of m ws) W k = tensors_of m W k.
Proof.
  intros E. unfold tensors_of. change (ndir (co_of m ws)) with 1. rewrite Nat.div_1_r, E. reflexivity.
Qed.
Lemma seq_split n k : k <= n -> seq 0 n = seq 0 k ++ seq k (n - k).
Proof. intros Hk. replace n with (k + (n - k)) at 1 by lia. apply seq_app. Qed.

Lemma build_gen (m : trnn K) W W0 fresh : has_weights m W -> has_weights (co_of m fresh) W0 ->
  (forall k, k < n_L m -> in_size (co_of m []) k = in_size m (k / ndir m)) ->
  exists ws, build_from m fresh = Ok (co_of m ws) /\ has_weights (co_of m ws) W.
Proof.
  intros Hw Hf Hi. exists (flat_map (tensors_of m W) (seq 0 (n_L m))).
  assert (Hc : flat_map (tensors_of (co_of m fresh) W0) (seq 0 (n_L m)) = fresh).
  { unfold has_weights in Hf. change (n_flat (co_of m fresh)) with fresh in Hf. rewrite Hf at 2.
    change (n_L (co_of m fresh)) with (n_L m). change (ndir (co_of m fresh)) with 1. rewrite Nat.mul_1_r. reflexivity. }
  split.
  - unfold build_from. change (co_init _ _ _ _ _ _ _) with (co_of m). rewrite Hw.
    rewrite (seq_split (n_L m * ndir m) (n_L m)) by (unfold ndir; destruct (n_bidir m); lia).
    rewrite flat_map_app. rewrite copy_prefix; [reflexivity| |apply flat_full].
    rewrite <- Hc. apply flat_map_sh. intros k Hk. apply in_seq in Hk.
    rewrite (tensors_shapes _ W0 W). rewrite tensors_co; [reflexivity|]. apply Hi. lia.
  - unfold has_weights. cbn [co_of co_init n_flat n_L]. change (ndir _) with 1. rewrite Nat.mul_1_r.
    apply flat_map_ext_in. intros k Hk. apply in_seq in Hk. symmetry. apply tensors_co. apply Hi. lia.
Qed.

Lemma build_uni (m : trnn K) W W0 fresh : n_bidir m = false -> has_weights m W -> has_weights (co_of m fresh) W0 ->
  exists ws, build_from m fresh = Ok (co_of m ws) /\ has_weights (co_of m ws) W.
Proof.
  intros Hd Hw Hf. apply (build_gen m W W0 fresh Hw Hf). intros k _. unfold ndir. rewrite Hd, Nat.div_1_r.
  destruct k; [reflexivity|]. cbn [in_size]. unfold ndir. rewrite Hd. reflexivity.
Qed.

Lemma out_co (m : trnn K) ws : out_size (co_of m ws) = out_size m. Proof. reflexivity. Qed.

Lemma nth_flat (m : trnn K) W n k : k < n ->
  nth (k * per m) (flat_map (tensors_of m W) (seq 0 n)) (T [] []) = mat (G m * n_H m) (in_size m (k / ndir m)) (w_ih (W k)).
Proof.
  intros Hk. rewrite <- (Nat.add_0_r (k * per m)).
  rewrite (flat_map_nth (tensors_of m W) (T [] []) (per m) (tensors_len m W) n 0 k 0 Hk) by (unfold per; lia). reflexivity.
Qed.
Lemma build_fails (m : trnn K) W W0 fresh k : has_weights m W -> has_weights (co_of m fresh) W0 -> k < n_L m ->
  in_size m (k / ndir m) <> in_size (co_of m []) k -> in_size m (k / ndir m) <> 1 ->
  build_from m fresh = Err RuntimeError.
Proof.
  intros Hw Hf Hk Hi H1. unfold build_from. change (co_init _ _ _ _ _ _ _) with (co_of m).
  assert (Hc : fresh = flat_map (tensors_of (co_of m fresh) W0) (seq 0 (n_L m))).
  { unfold has_weights in Hf. change (n_flat (co_of m fresh)) with fresh in Hf. rewrite Hf at 1.
    change (n_L (co_of m fresh)) with (n_L m). change (ndir (co_of m fresh)) with 1. rewrite Nat.mul_1_r. reflexivity. }
  assert (Hn : k < n_L m * ndir m) by (unfold ndir; destruct (n_bidir m); lia).
  assert (P : 2 <= per m) by (unfold per; lia).
  rewrite (copy_bad fresh (n_flat m) (T [] []) (k * per m)); [reflexivity| | |].
  - rewrite Hc. rewrite (flat_map_len _ (per m)) by (intros; apply (tensors_len (co_of m fresh))). nia.
  - rewrite Hw. rewrite (flat_map_len _ (per m)) by (apply tensors_len). nia.
  - rewrite Hw, nth_flat by exact Hn. rewrite Hc. change (per m) with (per (co_of m fresh)). rewrite nth_flat by exact Hk.
    change (ndir (co_of m fresh)) with 1. rewrite Nat.div_1_r. cbn [mat mk sh rev app fits_into].
    destruct (Nat.eqb_spec (in_size m (k / ndir m)) (in_size (co_of m fresh) k)) as [E|_]; [exfalso; apply Hi; exact E|].
    destruct (Nat.eqb_spec (in_size m (k / ndir m)) 1); [contradiction|]. reflexivity.
Qed.

Lemma copy_wide r c f g : copy_ (mat (K:=K) r c f) (mat r 1 g) = Ok (mat r c (fun i _ => g i 0)).
Proof. clear sig tnh.
  unfold copy_. cbn [mat mk sh rev app fits_into]. rewrite Nat.eqb_refl, orb_true_r, Nat.eqb_refl. cbn [andb orb].
  f_equal. unfold mat, mk. f_equal. apply tab_ext. intros ix Hi. inversion Hi as [|i ? ix1 ? Hi1 Hi2]; subst. inversion Hi2 as [|j ? ix2 ? Hj1 Hj2]; subst. inversion Hj2; subst.
  unfold spread. cbn [length Nat.sub skipn combine map fst snd Nat.eqb].
  unfold get. cbn [sh dat]. rewrite at_tab_in; [|repeat constructor; destruct (Nat.eqb_spec r 1); lia].
  destruct (Nat.eqb_spec r 1); [|reflexivity]. replace i with 0 by lia. reflexivity.
Qed.
Lemma copy_app (a b c d x y : list (tens K)) : length a = length c -> copy_all a c = Ok x -> copy_all b d = Ok y -> copy_all (a ++ b) (c ++ d) = Ok (x ++ y).
Proof.
  revert c x. induction a as [|t a IH]; intros [|u c] x Hl E1 E2; try discriminate Hl.
  - cbn [copy_all] in E1. injection E1 as <-. exact E2.
  - cbn [app copy_all] in *. destruct (copy_ t u) as [z|]; [|discriminate]. cbn [bind] in *.
    destruct (copy_all a c) as [zs|] eqn:E; [|discriminate]. injection E1 as <-. injection Hl as Hl. rewrite (IH c zs Hl E E2). reflexivity.
Qed.

Definition widen (W : nat -> lweights K) (k : nat) : lweights K :=
  match k with
  | 1 => {| w_ih := fun r _ => w_ih (W 1) r 0; w_hh := w_hh (W 1); b_ih := b_ih (W 1); b_hh := b_hh (W 1); w_hr := w_hr (W 1) |}
  | _ => W k
  end.
Lemma build_wide (m : trnn K) W W0 fresh : n_bidir m = true -> n_L m = 2 -> n_in m = 1 ->
  has_weights m W -> has_weights (co_of m fresh) W0 ->
  exists ws, build_from m fresh = Ok (co_of m ws) /\ has_weights (co_of m ws) (widen W).
Proof.
  clear sig tnh. intros Hd HL Hi Hw Hf. exists (tensors_of m W 0 ++ tensors_of (co_of m []) (widen W) 1). split.
  - unfold build_from. change (co_init _ _ _ _ _ _ _) with (co_of m). rewrite Hw.
    unfold has_weights in Hf. change (n_flat (co_of m fresh)) with fresh in Hf. change (n_L (co_of m fresh)) with (n_L m) in Hf.
    change (ndir (co_of m fresh)) with 1 in Hf. rewrite HL in Hf |- *. unfold ndir at 1. rewrite Hd. cbn [Nat.mul Nat.add seq flat_map] in Hf |- *. rewrite app_nil_r in Hf.
    rewrite Hf at 1.
    assert (E0 : copy_all (tensors_of (co_of m fresh) W0 0) (tensors_of m W 0) = Ok (tensors_of m W 0)).
    { rewrite <- (app_nil_r (tensors_of m W 0)) at 1. apply copy_prefix; [|apply tensors_full].
      rewrite (tensors_shapes _ W0 W). rewrite tensors_co; [reflexivity|]. unfold ndir. rewrite Hd. reflexivity. }
    rewrite (copy_app _ _ _ _ (tensors_of m W 0) (tensors_of (co_of m []) (widen W) 1)); [reflexivity| |exact E0|].
    + rewrite (tensors_len m), (tensors_len (co_of m fresh)). reflexivity.
    + unfold tensors_of. change (ndir (co_of m fresh)) with 1. change (ndir (co_of m [])) with 1. unfold ndir. rewrite Hd. change (1 / 2) with 0. change (1 / 1) with 1.
      cbn [in_size]. rewrite Hi. change (n_bias (co_of m fresh)) with (n_bias m). change (n_proj (co_of m fresh)) with (n_proj m).
      change (n_bias (co_of m [])) with (n_bias m). change (n_proj (co_of m [])) with (n_proj m).
      assert (M : forall r c f g, copy_ (mat (K:=K) r c f) (mat r c g) = Ok (mat r c g)) by (intros; apply copy_same; [reflexivity|apply tab_len]).
      assert (V : forall r f g, copy_ (col (K:=K) r f) (col r g) = Ok (col r g)) by (intros; apply copy_same; [reflexivity|apply tab_len]).
      destruct (n_bias m), (n_proj m) as [|pr] eqn:Ep; cbn [app copy_all]; rewrite copy_wide; cbn [bind];
        unfold out_size; cbn [co_of co_init n_proj n_H G n_kind]; rewrite ?Ep; repeat (rewrite ?M, ?V; cbn [bind]); reflexivity.
  - unfold has_weights. cbn [co_of co_init n_flat n_L]. change (ndir _) with 1. rewrite HL, Nat.mul_1_r. cbn [seq flat_map]. rewrite app_nil_r. f_equal.
    symmetry. apply (tensors_co m W). unfold ndir. rewrite Hd. reflexivity.
Qed.

Lemma out_at_co (m : trnn K) W ws : n_bidir m = false -> out_at sig tnh (co_of m ws) W = out_at sig tnh m W.
Proof. destruct m as [m1 m2 m3 m4 m5 m6 m7 m8 m9 m10]. cbn [n_bidir]. intros ->. reflexivity. Qed.
Lemma state_at_co (m : trnn K) W ws : n_bidir m = false -> state_at sig tnh (co_of m ws) W = state_at sig tnh m W.
Proof. destruct m as [m1 m2 m3 m4 m5 m6 m7 m8 m9 m10]. cbn [n_bidir]. intros ->. reflexivity. Qed.
Lemma says_refl (m : trnn K) B o : says m B o (hidden o). Proof. intros b l j _ _. split; auto. Qed.

Lemma bflip_in (m : trnn K) B T c (x : tens K) : sh x = nn_idx m B T c ->
  sh (bflip m x) = [T; B; c] /\ forall t b e, t < T -> b < B -> e < c -> get (bflip m x) [t; b; e] = get x (nn_idx m b t e).
Proof.
  unfold nn_idx, bflip. intros Hs. destruct (n_bf m).
  - destruct (transpose01 _ _ _ _ Hs) as [S1 G1]. split; [exact S1|]. intros. apply G1; assumption.
  - split; [exact Hs|reflexivity].
Qed.
Lemma bflip_out (m : trnn K) B T c (y : tens K) : sh y = [T; B; c] -> length (dat y) = T * B * c ->
  shaped (nn_idx m B T c) (bflip m y) /\ forall t b e, t < T -> b < B -> e < c -> get (bflip m y) (nn_idx m b t e) = get y [t; b; e].
Proof.
  unfold nn_idx, bflip. intros Hs Hl. destruct (n_bf m).
  - destruct (transpose01 _ _ _ _ Hs) as [S1 G1]. split.
    + split; [exact S1|]. rewrite transpose_len, S1. reflexivity.
    + intros. apply G1; assumption.
  - split; [|reflexivity]. split; [exact Hs|]. rewrite Hl. cbn. nia.
Qed.

Lemma build_forward (m : trnn K) W ws B T x xn o : n_bidir m = false -> proj_ok m -> has_weights m W -> 0 < n_L m ->
  has_weights (co_of m ws) W -> same_clip m B T (n_in m) xn x -> 0 < T -> state_ok m B o ->
  exists y h y' h', nn_forward sig tnh m xn o = Ok (y, h) /\ r_forward sig tnh (co_of m ws) x o = Ok (y', h') /\
    same_clip m B T (out_size m) y y' /\ state_ok m B (Some h') /\ says m B (Some h') (hidden (Some h)).
Proof.
  intros Hd Hp Hw HL Hc ([Sn Ln] & [Sx Lx] & Hs) HT Ho.
  destruct (bflip_in m B T (n_in m) xn Sn) as [S1 G1].
  destruct (nn_core sig tnh m W Hd Hp Hw HL B T xn (fun b t i => get x [b; i; t]) o (hidden o) S1) as (ys & h & E & Ly & Fy & Ry & So & Sa); auto.
  { intros b t i Hb Ht Hi. rewrite G1 by assumption. apply Hs; assumption. }
  { apply says_refl. }
  destruct (fwd_ok sig tnh (co_of m ws) W eq_refl Hp Hc HL eq_refl B T x (fun b t i => get x [b; i; t]) o (hidden o) Sx) as (y' & h' & E' & Sy' & Ry' & So' & Sa'); auto.
  { revert Ho. destruct m as [m1 m2 m3 m4 m5 m6 m7 m8 m9 m10]. cbn [n_bidir] in Hd. subst. exact (fun H => H). }
  { apply says_refl. }
  destruct (bflip_out m B T (out_size m) (TAttn.T [T; B; out_size m] (concat ys)) eq_refl) as [S2 G2].
  { cbn [dat]. rewrite (concat_len _ _ Fy), Ly. lia. }
  exists (bflip m (TAttn.T [T; B; out_size m] (concat ys))), h, y', h'. split; [exact E|]. split; [exact E'|]. split.
  - split; [exact S2|]. split; [exact Sy'|]. intros b t e Hb Ht He. rewrite G2 by assumption.
    rewrite get_concat by assumption. rewrite Ry' by assumption. rewrite (out_at_co m W ws Hd). apply Ry; assumption.
  - split.
    { revert So'. clear -Hd. destruct m as [m1 m2 m3 m4 m5 m6 m7 m8 m9 m10]. cbn [n_bidir] in Hd. subst. exact (fun H => H). }
    intros b l j Hb Hl. destruct (Sa' b l j Hb Hl) as [A1 A2]. destruct (Sa b l j Hb Hl) as [B1 B2]. split.
    + intros Hj. rewrite B1 by exact Hj. rewrite A1 by exact Hj. rewrite (state_at_co m W ws Hd). reflexivity.
    + intros Hk Hj. rewrite B2 by assumption. rewrite A2 by assumption. rewrite (state_at_co m W ws Hd). reflexivity.
Qed.

Lemma after_co (m : trnn K) W ws x s t : after sig tnh m W 0 0 x s t = after sig tnh (co_of m ws) W 0 0 x s t.
Proof. induction t as [|t IH]; [reflexivity|]. cbn [after]. rewrite IH. reflexivity. Qed.

(** One bidirectional layer: the forward half is that of the converted module. *)
Lemma bidir_half (m : trnn K) W ws B T x xn : n_bidir m = true -> n_L m = 1 -> proj_ok m -> has_weights m W ->
  has_weights (co_of m ws) W -> same_clip m B T (n_in m) xn x -> 0 < T ->
  exists y h y' h', nn_forward sig tnh m xn None = Ok (y, h) /\ r_forward sig tnh (co_of m ws) x None = Ok (y', h') /\
    shaped (nn_idx m B T (2 * out_size m)) y /\ shaped [B; out_size m; T] y' /\
    forall b t j, b < B -> t < T -> j < out_size m -> get y (nn_idx m b t j) = get y' [b; j; t].
Proof.
  intros Hd H1 Hp Hw Hc ([Sn Ln] & [Sx Lx] & Hs) HT.
  assert (N2 : ndir m = 2) by (unfold ndir; rewrite Hd; reflexivity).
  destruct (bflip_in m B T (n_in m) xn Sn) as [S1 G1].
  assert (HL : 0 < n_L (co_of m ws)) by (change (0 < n_L m); lia).
  destruct (fwd_ok sig tnh (co_of m ws) W eq_refl Hp Hc HL eq_refl B T x (fun b t i => get x [b; i; t]) None (hidden None) Sx) as (y' & h' & E' & Sy' & Ry' & So' & Sa'); auto.
  { exact I. }
  { apply says_refl. }
  destruct (get_hidden_ok m B None I) as (hs & Eh & Lh & Fh & Rh).
  assert (Hlh : length hs = 2) by (rewrite Lh, H1, N2; reflexivity).
  unfold nn_forward. change (if n_bf m then transpose 0 1 xn else xn) with (bflip m xn). rewrite S1.
  destruct (Nat.eqb_spec T 0); [lia|]. rewrite Nat.eqb_refl. cbn [negb]. rewrite Eh. cbn [bind]. rewrite H1. cbn [nn_layers].
  rewrite dirs_eq, N2. destruct hs as [|h0 [|h1 [|]]]; try discriminate. cbn [firstn skipn].
  unfold nn_layer. rewrite Hd. cbn [nth Nat.mul Nat.add].
  pose proof (slices_len3 _ _ _ _ S1) as Ls.
  destruct (layer_len sig tnh m Hp B 0 (slices (bflip m xn)) h0) as (L1 & F1 & _).
  destruct (layer_len sig tnh m Hp B 1 (rev (slices (bflip m xn))) h1) as (L2 & F2 & _).
  assert (R1 : forall b t, b < B -> t < T -> rows (out_size m) b (nth t (fst (rnn_layer (cell sig tnh m B 0) h0 (slices (bflip m xn)))) [])
      (out_at sig tnh (co_of m ws) W (fun t i => get x [b; i; t]) (hidden None b) t)).
  { intros b t Hb Ht.
    destruct (layer_row sig tnh m W Hp Hw B 0 b ltac:(rewrite H1, N2; lia) Hb (slices (bflip m xn)) h0 (fun t i => get x [b; i; t]) (hidden None b 0)) as [Q _].
    - intros t' Ht'. rewrite Ls in Ht'. rewrite N2. change (0 / 2) with 0. cbn [in_size]. unfold slices.
      rewrite nth_map_seq by (rewrite S1; exact Ht'). intros i Hi. rewrite (select_rows T B (n_in m) (bflip m xn) t' b S1 Ht' Hb i Hi).
      rewrite G1 by assumption. apply Hs; assumption.
    - apply (Rh b 0 Hb). rewrite H1, N2. lia.
    - rewrite Ls in Q. specialize (Q t Ht). rewrite N2 in Q. change (0 / 2) with 0 in Q.
      unfold out_at. change (n_L (co_of m ws)) with (n_L m). rewrite H1. cbn [input_of]. rewrite <- after_co. exact Q. }
  destruct (rnn_layer (cell sig tnh m B 0) h0 (slices (bflip m xn))) as [ys g0].
  destruct (rnn_layer (cell sig tnh m B 1) h1 (rev (slices (bflip m xn)))) as [zs g1]. cbn [fst snd] in *.
  rewrite rev_length in L2. rewrite n_out_eq.
  set (js := map (fun p => join_cols m B (fst p) (snd p)) (combine ys (rev zs))).
  assert (Lj : length js = T) by (unfold js; rewrite map_length, combine_length, rev_length; lia).
  assert (Fj : Forall (fun r => length r = B * (2 * out_size m)) js).
  { apply Forall_forall. intros r Hr. apply in_map_iff in Hr. destruct Hr as (p & <- & _). unfold join_cols. rewrite tab_len, n_out_eq. cbn. lia. }
  destruct (bflip_out m B T (2 * out_size m) (TAttn.T [T; B; 2 * out_size m] (concat js)) eq_refl) as [S2 G2].
  { cbn [dat]. rewrite (concat_len _ _ Fj), Lj. lia. }
  exists (bflip m (TAttn.T [T; B; 2 * out_size m] (concat js))). eexists. exists y', h'.
  split; [reflexivity|]. split; [exact E'|]. split; [exact S2|]. split; [exact Sy'|].
  intros b t j Hb Ht Hj. rewrite G2 by (assumption || lia). rewrite get_concat by (assumption || lia).
  rewrite Ry' by assumption. rewrite <- R1 by assumption.
  unfold js. rewrite (nth_indep _ [] (join_cols m B (fst (@nil K, @nil K)) (snd (@nil K, @nil K)))) by (rewrite map_length, combine_length, rev_length; lia).
  rewrite (map_nth (fun p => join_cols m B (fst p) (snd p))). rewrite combine_nth by (rewrite rev_length; lia). cbn [fst snd].
  unfold join_cols. rewrite n_out_eq. rewrite <- (at2 B (2 * out_size m)) by (assumption || lia).
  change [Z.of_nat b; Z.of_nat j] with (map Z.of_nat [b; j]). rewrite at_tab_in by (repeat constructor; (assumption || lia)).
  destruct (Nat.ltb_spec j (out_size m)); [|lia]. rewrite at2 by assumption. reflexivity.
Qed.

End Build.
