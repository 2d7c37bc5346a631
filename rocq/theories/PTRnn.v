(** C62: recurrent modules on whole tensors and their conversion. *)
From Coq Require Import List ZArith Bool Arith Lia.
From Verif Require Import Base Attn Rnn TAttn TRnn TRnnSpec TRnnProof TRnnLeaf.
Import ListNotations.

(** A continual module as its constructor makes it, with weights [W]. *)
Definition continual_rnn {K} {NK : Num K} (m : trnn K) (W : nat -> lweights K) : Prop :=
  n_bidir m = false /\ n_bf m = true /\ proj_ok m /\ 0 < n_L m /\ has_weights m W.

(** [forward] on a clip (B, C, T), with or without an initial state: every entry of the
    output and of the final state is that of the recurrences in the documentation. *)
Theorem C62_forward :
  forall (K : Type) (NK : Num K) (NL : NumLaws K) (sig tnh : K -> K) (m : trnn K) W B T x o,
    continual_rnn m W -> shaped [B; n_in m; T] x -> 0 < T -> state_ok m B o ->
    exists y h, r_forward sig tnh m x o = Ok (y, h) /\ shaped [B; out_size m; T] y /\
      (forall b j t, b < B -> j < out_size m -> t < T ->
         get y [b; j; t] = out_at sig tnh m W (fun t i => get x [b; i; t]) (hidden o b) t j) /\
      state_ok m B (Some h) /\
      says m B (Some h) (fun b l => state_at sig tnh m W l (fun t i => get x [b; i; t]) (hidden o b) T).
Proof.
  intros K NK NL sig tnh m W B T x o (Hd & Hbf & Hp & HL & Hw) [Hx _] HT Ho.
  exact (fwd_ok sig tnh m W Hd Hp Hw HL Hbf B T x _ o (hidden o) Hx (fun _ _ _ _ _ _ => eq_refl) HT Ho (says_refl m B o)).
Qed.
Print Assumptions C62_forward.

(** Any sequence of forward_step and forward_steps calls, with and without update_state:
    every call succeeds and answers with the entries of the recurrences over the frames
    that updating calls have brought so far, followed by its own; the state afterwards is
    that of the recurrences over the updating frames. *)
Theorem C62_stream :
  forall (K : Type) (NK : Num K) (NL : NumLaws K) (sig tnh : K -> K) (m : trnn K) W B cs o,
    continual_rnn m W -> Forall (call_ok m B) cs -> state_ok m B o ->
    exists ys o', r_run sig tnh m o cs = Ok (ys, o') /\
      answers sig tnh m W B (hidden o) [] cs ys /\ state_ok m B o' /\
      says m B o' (fun b l => state_at sig tnh m W l (stream (taken cs) b) (hidden o b) (length (taken cs))).
Proof.
  intros K NK NL sig tnh m W B cs o (Hd & Hbf & Hp & HL & Hw) Hc Ho.
  exact (calls_ok sig tnh m W Hd Hp Hw HL Hbf B (hidden o) cs [] o Hc Ho (says_refl m B o)).
Qed.
Print Assumptions C62_stream.

(** [set_state] with a state of the documented shapes stores it, so C62_stream starts from
    it and C62_forward takes it as [hx]. *)
Theorem C62_set_state :
  forall (K : Type) (NK : Num K) (m : trnn K) B ts,
    state_ok m B (Some ts) -> r_set_state m ts = Ok (Some ts).
Proof.
  intros K NK m B ts Hs. cbn [state_ok] in Hs. unfold r_set_state.
  destruct ts as [|h [|c [|]]]; destruct (n_kind m); try contradiction; reflexivity.
Qed.
Print Assumptions C62_set_state.

(** A batch of another size than that of the state raises, whatever it contains. *)
Theorem C62_batch_change_raises :
  forall (K : Type) (NK : Num K) (sig tnh : K -> K) (m : trnn K) B B' o x u,
    state_ok m B (Some o) -> B' <> B -> n_bf m = true ->
    (sh x = [B'; n_in m] -> r_forward_step sig tnh m (Some o) x u = Err RuntimeError) /\
    (forall T pe, sh x = [B'; n_in m; T] -> r_forward_steps sig tnh m (Some o) x pe u = Err RuntimeError).
Proof. exact @batch_change. Qed.
Print Assumptions C62_batch_change_raises.

(** So does another number of channels, in [forward] too. *)
Theorem C62_wrong_channels_raise :
  forall (K : Type) (NK : Num K) (sig tnh : K -> K) (m : trnn K) o x u B c,
    c <> n_in m -> n_bf m = true ->
    (sh x = [B; c] -> r_forward_step sig tnh m o x u = Err RuntimeError) /\
    (forall T pe, sh x = [B; c; T] -> r_forward sig tnh m x o = Err RuntimeError /\ r_forward_steps sig tnh m o x pe u = Err RuntimeError).
Proof. exact @wrong_channels. Qed.
Print Assumptions C62_wrong_channels_raise.

(** The modules are recurrent leaves of networks: what is proved about networks holds for
    networks that contain them. *)
Theorem C62_leaf_step :
  forall (K : Type) (NK : Num K) (sig tnh : K -> K) (m : trnn K) W B o x u,
    continual_rnn m W -> state_ok m B o -> shaped [B; n_in m] x ->
    exists y o', r_forward_step sig tnh m o x u = Ok (y, o') /\
      rnn_forward_step (leaf sig tnh m B) (leaf_state m o) (dat x) u = Ok (Some (dat y), leaf_state m o').
Proof.
  intros K NK sig tnh m W B o x u (Hd & Hbf & Hp & HL & _) Ho Hx. exact (step_leaf sig tnh m Hd Hp HL Hbf B o x u Ho Hx).
Qed.
Print Assumptions C62_leaf_step.
Theorem C62_leaf_steps :
  forall (K : Type) (NK : Num K) (sig tnh : K -> K) (m : trnn K) W B T o x pe u,
    continual_rnn m W -> state_ok m B o -> shaped [B; n_in m; T] x -> 0 < T ->
    exists y o', r_forward_steps sig tnh m o x pe u = Ok (y, o') /\
      rnn_forward_steps (leaf sig tnh m B) (leaf_state m o) (clip_frames x) pe u = Ok (Some (clip_frames y), leaf_state m o').
Proof.
  intros K NK sig tnh m W B T o x pe u (Hd & Hbf & Hp & HL & _) Ho Hx HT. exact (clip_leaf sig tnh m Hd Hp HL Hbf B T o x pe u Ho Hx HT).
Qed.
Print Assumptions C62_leaf_steps.

(** [build_from] of a unidirectional torch module, batch_first or not: the continual
    module has the same weights, and its [forward] is that of the torch module up to the
    layout, also for a given state. *)
Theorem C62_build_from :
  forall (K : Type) (NK : Num K) (NL : NumLaws K) (sig tnh : K -> K) (m : trnn K) W W0 fresh,
    n_bidir m = false -> proj_ok m -> 0 < n_L m -> has_weights m W ->
    has_weights (co_init (n_kind m) (n_in m) (n_H m) (n_L m) (n_bias m) (n_proj m) (n_act m) fresh) W0 ->
    exists m', build_from m fresh = Ok m' /\ continual_rnn m' W /\
      n_in m' = n_in m /\ out_size m' = out_size m /\
      forall B T x xn o, same_clip m B T (n_in m) xn x -> 0 < T -> state_ok m B o ->
        exists y h y' h', nn_forward sig tnh m xn o = Ok (y, h) /\ r_forward sig tnh m' x o = Ok (y', h') /\
          same_clip m B T (out_size m) y y' /\ state_ok m B (Some h') /\ says m B (Some h') (hidden (Some h)).
Proof.
  intros K NK NL sig tnh m W W0 fresh Hd Hp HL Hw Hf.
  destruct (build_uni m W W0 fresh Hd Hw Hf) as (ws & E & Hc). exists (co_of m ws). split; [exact E|].
  split; [exact (conj eq_refl (conj eq_refl (conj Hp (conj HL Hc))))|]. split; [reflexivity|]. split; [reflexivity|].
  intros B T x xn o Hx HT Ho. exact (build_forward sig tnh m W ws B T x xn o Hd Hp Hw HL Hc Hx HT Ho).
Qed.
Print Assumptions C62_build_from.

(** Of a bidirectional module with one layer: the forward direction is kept. *)
Theorem C62_build_bidirectional_one_layer :
  forall (K : Type) (NK : Num K) (NL : NumLaws K) (sig tnh : K -> K) (m : trnn K) W W0 fresh,
    n_bidir m = true -> n_L m = 1 -> proj_ok m -> has_weights m W ->
    has_weights (co_init (n_kind m) (n_in m) (n_H m) (n_L m) (n_bias m) (n_proj m) (n_act m) fresh) W0 ->
    exists m', build_from m fresh = Ok m' /\ continual_rnn m' W /\
      forall B T x xn, same_clip m B T (n_in m) xn x -> 0 < T ->
        exists y h y' h', nn_forward sig tnh m xn None = Ok (y, h) /\ r_forward sig tnh m' x None = Ok (y', h') /\
          shaped (nn_idx m B T (2 * out_size m)) y /\ shaped [B; out_size m; T] y' /\
          forall b t j, b < B -> t < T -> j < out_size m -> get y (nn_idx m b t j) = get y' [b; j; t].
Proof.
  intros K NK NL sig tnh m W W0 fresh Hd H1 Hp Hw Hf.
  destruct (build_gen m W W0 fresh Hw Hf) as (ws & E & Hc).
  { intros k Hk. assert (k = 0) by lia. subst k. unfold ndir. rewrite Hd. reflexivity. }
  exists (co_of m ws). split; [exact E|].
  split; [exact (conj eq_refl (conj eq_refl (conj Hp (conj (eq_ind_r (fun n => 0 < n) Nat.lt_0_1 H1) Hc))))|].
  intros B T x xn Hx HT. exact (bidir_half sig tnh m W ws B T x xn Hd H1 Hp Hw Hc Hx HT).
Qed.
Print Assumptions C62_build_bidirectional_one_layer.

(** With more layers it raises, except for two layers whose input and output sizes are
    equal (or whose input size is 1). *)
Theorem C62_build_bidirectional_raises :
  forall (K : Type) (NK : Num K) (m : trnn K) W W0 fresh,
    n_bidir m = true -> 0 < out_size m -> has_weights m W ->
    has_weights (co_init (n_kind m) (n_in m) (n_H m) (n_L m) (n_bias m) (n_proj m) (n_act m) fresh) W0 ->
    3 <= n_L m \/ n_L m = 2 /\ n_in m <> out_size m /\ n_in m <> 1 ->
    build_from m fresh = Err RuntimeError.
Proof.
  intros K NK m W W0 fresh Hd Ho Hw Hf [HL|(HL & Hi & H1)].
  - apply (build_fails m W W0 fresh 2 Hw Hf HL); unfold ndir; rewrite Hd; change (2 / 2) with 1; cbn [in_size]; unfold ndir; rewrite Hd.
    + cbn [n_bidir co_of co_init]. change (out_size (co_of m [])) with (out_size m). lia.
    + lia.
  - apply (build_fails m W W0 fresh 1 Hw Hf); [lia| |]; unfold ndir; rewrite Hd; change (1 / 2) with 0; cbn [in_size].
    + change (n_in m <> 1 * out_size m). lia.
    + exact H1.
Qed.
Print Assumptions C62_build_bidirectional_raises.

(** With two layers and equal input and output sizes the conversion succeeds, but the
    second layer of the result has the weights of the reverse direction of the first. *)
Theorem C62_build_bidirectional_two_layers :
  forall (K : Type) (NK : Num K) (m : trnn K) W W0 fresh,
    n_bidir m = true -> n_L m = 2 -> n_in m = out_size m -> proj_ok m -> has_weights m W ->
    has_weights (co_init (n_kind m) (n_in m) (n_H m) (n_L m) (n_bias m) (n_proj m) (n_act m) fresh) W0 ->
    exists m', build_from m fresh = Ok m' /\ continual_rnn m' W.
Proof.
  intros K NK m W W0 fresh Hd HL Hi Hp Hw Hf. destruct (build_gen m W W0 fresh Hw Hf) as (ws & E & Hc).
  { intros k Hk. unfold ndir. rewrite Hd. destruct k as [|[|]]; [reflexivity| |lia]. change (1 / 2) with 0. cbn [in_size].
    change (1 * out_size m = n_in m). lia. }
  exists (co_of m ws). split; [exact E|].
  exact (conj eq_refl (conj eq_refl (conj Hp (conj (eq_ind_r (fun n => 0 < n) Nat.lt_0_2 HL) Hc)))).
Qed.
Print Assumptions C62_build_bidirectional_two_layers.

(** With two layers and input size 1 the single input column of the reverse direction is
    copied to all columns of the second layer. *)
Theorem C62_build_bidirectional_broadcast :
  forall (K : Type) (NK : Num K) (m : trnn K) W W0 fresh,
    n_bidir m = true -> n_L m = 2 -> n_in m = 1 -> proj_ok m -> has_weights m W ->
    has_weights (co_init (n_kind m) (n_in m) (n_H m) (n_L m) (n_bias m) (n_proj m) (n_act m) fresh) W0 ->
    exists m', build_from m fresh = Ok m' /\
      continual_rnn m' (fun k => match k with
        | 1 => {| w_ih := fun r _ => w_ih (W 1) r 0; w_hh := w_hh (W 1); b_ih := b_ih (W 1); b_hh := b_hh (W 1); w_hr := w_hr (W 1) |}
        | _ => W k
        end).
Proof.
  intros K NK m W W0 fresh Hd HL Hi Hp Hw Hf. destruct (build_wide m W W0 fresh Hd HL Hi Hw Hf) as (ws & E & Hc).
  exists (co_of m ws). split; [exact E|].
  exact (conj eq_refl (conj eq_refl (conj Hp (conj (eq_ind_r (fun n => 0 < n) Nat.lt_0_2 HL) Hc)))).
Qed.
Print Assumptions C62_build_bidirectional_broadcast.

(* ------------------------------------------------------------------ *)
(** ** Examples over the integers, with stand-ins for the sigmoid and tanh *)

#[local] Instance NumZ : Num Z := {|
  k0 := 0%Z; k1 := 1%Z; kadd := Z.add; kopp := Z.opp; kmul := Z.mul; kdiv := Z.mul; kexp := fun x => x
|}.
#[local] Instance NumZLaws : NumLaws Z.
Proof. split; intros; unfold k0, k1, kadd, kopp, kmul, kdiv, NumZ; ring. Qed.
Definition zs (x : Z) : Z := Z.modulo x 5.
Definition zt (x : Z) : Z := (Z.modulo x 7 - 3)%Z.

Definition ex_W (k : nat) : lweights Z := {|
  w_ih := fun r c => Z.of_nat (r + 2 * c + k) - 3; w_hh := fun r c => 2 - Z.of_nat (r * c + k);
  b_ih := fun r => Z.of_nat r; b_hh := fun r => Z.of_nat (r * r) - 1; w_hr := fun r c => Z.of_nat (r + c + k) - 1 |}%Z.
Definition shell (kd : kind) (inp H L : nat) (b : bool) (p : nat) (bd bf : bool) (ws : list (tens Z)) : trnn Z :=
  {| n_kind := kd; n_in := inp; n_H := H; n_L := L; n_bias := b; n_proj := p; n_bidir := bd; n_bf := bf; n_act := zt; n_flat := ws |}.
Definition ex_m (kd : kind) (inp H L : nat) (b : bool) (p : nat) (bd bf : bool) : trnn Z :=
  let m0 := shell kd inp H L b p bd bf [] in
  shell kd inp H L b p bd bf (flat_map (tensors_of m0 ex_W) (seq 0 (L * ndir m0))).

Lemma ex_has kd inp H L b p bd bf : has_weights (ex_m kd inp H L b p bd bf) ex_W.
Proof. reflexivity. Qed.

Definition ex_lstm := ex_m Lstm 2 3 2 true 1 false true.
Definition ex_gru := ex_m Gru 2 2 2 false 0 false true.
Definition ex_x : tens Z := T [2; 2; 3] [1; 0; 2; -1; 3; 1; 2; 2; -2; 0; 1; 4]%Z.
Definition ex_f : tens Z := T [2; 2] [3; -1; 0; 2]%Z.

Example ex_lstm_ok : continual_rnn ex_lstm ex_W /\ shaped [2; n_in ex_lstm; 3] ex_x /\ state_ok ex_lstm 2 None.
Proof. repeat split. cbn. lia. Qed.
Example ex_calls_ok : Forall (call_ok ex_gru 2) [Steps ex_x false true; Step ex_f false; Step ex_f true; Steps ex_x true false].
Proof. repeat constructor; try (exists 3; repeat split; lia). Qed.

(** Three frames at once or one by one: the same output, and a peek in between does not
    matter. *)
Example ex_lstm_stream :
  match r_forward zs zt ex_lstm ex_x None, r_run zs zt ex_lstm None
    [Step (select 2 0 ex_x) true; Step ex_f false; Step (select 2 1 ex_x) true; Step (select 2 2 ex_x) true] with
  | Ok (y, h), Ok ([y0; _; y1; y2], o) =>
      sh y = [2; 1; 3] /\ y = stack 2 [y0; y1; y2] /\ o = Some h /\ dat y <> repeat 0%Z 6
  | _, _ => False
  end.
Proof. vm_compute. repeat split; discriminate. Qed.
Example ex_gru_stream :
  match r_forward zs zt ex_gru ex_x None, r_run zs zt ex_gru None
    [Step (select 2 0 ex_x) true; Step ex_f false; Step (select 2 1 ex_x) true; Step (select 2 2 ex_x) true] with
  | Ok (y, h), Ok ([y0; _; y1; y2], o) =>
      sh y = [2; 2; 3] /\ y = stack 2 [y0; y1; y2] /\ o = Some h /\ dat y <> repeat 0%Z 12
  | _, _ => False
  end.
Proof. vm_compute. repeat split; discriminate. Qed.

(** Conversion of a two-layer GRU without batch_first. *)
Example ex_build :
  let m := ex_m Gru 2 2 2 true 0 false false in
  let fresh := map (fun t => T (sh t) (map (fun _ => 9%Z) (dat t))) (n_flat m) in
  match build_from m fresh, nn_forward zs zt m (permute [2; 0; 1] ex_x) None with
  | Ok m', Ok (y, h) => r_forward zs zt m' ex_x None = Ok (permute [1; 2; 0] y, h) /\ fresh <> n_flat m'
  | _, _ => False
  end.
Proof. vm_compute. split; [reflexivity|discriminate]. Qed.

(** Two bidirectional layers with equal sizes: converted without an error, but not even the
    forward half of the output is kept. *)
Theorem C62_build_bidirectional_refuted :
  exists (m : trnn Z) fresh m' xn x y h y' h',
    n_bidir m = true /\ has_weights m ex_W /\
    build_from m fresh = Ok m' /\ same_clip m 1 2 (n_in m) xn x /\
    nn_forward zs zt m xn None = Ok (y, h) /\ r_forward zs zt m' x None = Ok (y', h') /\
    get y (nn_idx m 0 0 0) <> get y' [0; 0; 0].
Proof.
  pose (m := ex_m Elman 1 1 2 true 0 true false).
  pose (fresh := flat_map (tensors_of (shell Elman 1 1 2 true 0 false true []) (fun _ => ex_W 5)) (seq 0 2)).
  assert (B : exists m', build_from m fresh = Ok m').
  { eexists. vm_compute. reflexivity. }
  destruct B as [m' B].
  assert (Em : m' = shell Elman 1 1 2 true 0 false true (flat_map (tensors_of (shell Elman 1 1 2 true 0 false true []) ex_W) (seq 0 2))).
  { vm_compute in B. injection B as <-. reflexivity. }
  exists m, fresh, m', (T [2; 1; 1] [2; 4]%Z), (T [1; 1; 2] [2; 4]%Z).
  destruct (nn_forward zs zt m (T [2; 1; 1] [2; 4]%Z) None) as [[y h]|] eqn:E1; [|vm_compute in E1; discriminate].
  destruct (r_forward zs zt m' (T [1; 1; 2] [2; 4]%Z) None) as [[y' h']|] eqn:E2; [|rewrite Em in E2; vm_compute in E2; discriminate].
  exists y, h, y', h'. split; [reflexivity|]. split; [apply ex_has|]. split; [exact B|]. split.
  { split; [split; reflexivity|]. split; [split; reflexivity|]. intros b t e Hb Ht He.
    change (n_in m) with 1 in He. assert (b = 0) by lia. assert (e = 0) by lia. subst b e. destruct t as [|[|]]; [reflexivity|reflexivity|lia]. }
  split; [reflexivity|]. split; [reflexivity|].
  rewrite Em in E2. vm_compute in E1, E2. injection E1 as <- _. injection E2 as <- _. vm_compute. discriminate.
Qed.
Print Assumptions C62_build_bidirectional_refuted.

Example ex_build_broadcast :
  let m := ex_m Gru 1 2 2 true 0 true false in
  let fresh := flat_map (tensors_of (shell Gru 1 2 2 true 0 false true []) (fun _ => ex_W 0)) (seq 0 2) in
  match build_from m fresh with
  | Ok m' => nth 4 (n_flat m') ex_f = T [6; 2] (map (fun i => Z.of_nat (i / 2) - 2)%Z (seq 0 12)) /\ sh (nth 4 (n_flat m) ex_f) = [6; 1]
  | Err _ => False
  end.
Proof. vm_compute. repeat split. Qed.
