(** The recurrent modules on tensors are recurrent leaves of [Net.v]. *)
From Coq Require Import List ZArith Bool Arith Lia ZifyBool ZifyNat.
From Verif Require Import Base Attn Frames Rnn Tensor TensorProof TAttn TAttnSpec TAttnProof TRnn TRnnSpec TRnnProof.
Import ListNotations.

Section Leaf.
Context {K : Type} {NK : Num K} {NL : NumLaws K}.
Variables sig tnh : K -> K.
Variable m : trnn K.
Notation out := (out_size m).

(** The leaf for batches of size [B]: frames are the data of tensors (B, C). *)
Definition leaf (B : nat) : rnn_cfg (list K) :=
  {| r_cells := map (cell sig tnh m B) (seq 0 (n_L m));
     r_h0 := map (fun s => repeat k0 (size (tl s))) (state_shapes m B) |}.
Definition leaf_state (o : option (list (tens K))) : option (list (hid (list K))) :=
  option_map (fun ts => map (fun l => map (fun t => dat (select 0 l t)) ts) (seq 0 (n_L m))) o.
Definition clip_frames (x : tens K) : list (list K) := map (fun t => dat (select 2 t x)) (seq 0 (nth 2 (sh x) 0)).

Hypothesis Hd : n_bidir m = false.
Hypothesis Hp : proj_ok m.
Hypothesis HL : 0 < n_L m.
Hypothesis Hbf : n_bf m = true.

Lemma nn_layers_eq B : forall n l hs xs, length hs = n ->
  nn_layers sig tnh m B l n hs xs = rnn_layers (map (cell sig tnh m B) (seq l n)) hs xs.
Proof.
  induction n as [|n IH]; intros l [|h hs] xs Hl; try discriminate; [reflexivity|]. injection Hl as Hl.
  cbn [nn_layers seq map rnn_layers]. unfold nn_layer. rewrite Hd, (dirs1 m Hd). cbn [firstn skipn nth].
  destruct (rnn_layer (cell sig tnh m B l) h xs) as [ys h1]. rewrite (IH (S l) hs ys Hl).
  destruct (rnn_layers _ hs ys). reflexivity.
Qed.

Lemma tab2 B n (d : list K) f : length d = B * n -> (forall b j, b < B -> j < n -> f [b; j] = nth (b * n + j) d k0) -> tab [B; n] f = d.
Proof.
  intros Hl Hf. transitivity (tab [B; n] (fun ix => Tensor.at_ [B; n] d (map Z.of_nat ix))).
  - apply tab_ext. intros ix Hi. inversion Hi as [|b n0 ix1 s1 Hb Hi1]; subst. inversion Hi1 as [|j n1 ix2 s2 Hj Hi2]; subst.
    inversion Hi2; subst. rewrite Hf by assumption. symmetry. apply at2; assumption.
  - apply tab_at. rewrite Hl. cbn. lia.
Qed.

Definition nst : nat := match n_kind m with Lstm => 2 | _ => 1 end.
Lemma cell_n B k h x : length (fst (cell sig tnh m B k h x)) = nst.
Proof. unfold cell, nst. destruct (n_kind m); reflexivity. Qed.
Lemma layer_n B k : forall xs h, length h = nst -> length (snd (rnn_layer (cell sig tnh m B k) h xs)) = nst.
Proof.
  induction xs as [|x xs IH]; intros h Hh; [exact Hh|]. cbn [rnn_layer]. pose proof (cell_n B k h x) as C.
  destruct (cell sig tnh m B k h x) as [h1 y]. specialize (IH h1 C). destruct (rnn_layer _ h1 xs). exact IH.
Qed.
Lemma layers_n B : forall n l hs xs, length hs = n -> Forall (fun h => length h = nst) hs ->
  Forall (fun h => length h = nst) (snd (nn_layers sig tnh m B l n hs xs)).
Proof.
  induction n as [|n IH]; intros l [|h hs] xs Hl Hf; try discriminate; [constructor|]. injection Hl as Hl.
  inversion Hf as [|? ? F1 F2]; subst. cbn [nn_layers]. unfold nn_layer. rewrite Hd, (dirs1 m Hd). cbn [firstn skipn nth].
  pose proof (layer_n B l xs h F1) as N. destruct (rnn_layer (cell sig tnh m B l) h xs) as [ys h1]. cbn [snd] in N.
  specialize (IH (S l) hs ys eq_refl F2). destruct (nn_layers _ _ _ _ _ _ hs ys). constructor; assumption.
Qed.

Lemma get_hidden_leaf B o hs : state_ok m B o -> get_hidden m B o = Ok hs ->
  hs = match leaf_state o with Some h => h | None => repeat (r_h0 (leaf B)) (n_L m) end /\ Forall (fun h => length h = nst) hs.
Proof.
  intros Ho E. unfold get_hidden in E. rewrite (dirs1 m Hd), Nat.mul_1_r in E. destruct o as [ts|].
  - destruct (_ && _) in E; [|discriminate]. injection E as <-. split; [reflexivity|].
    apply Forall_forall. intros h Hin. apply in_map_iff in Hin. destruct Hin as (k & <- & _). rewrite map_length.
    cbn [state_ok] in Ho. unfold nst. destruct ts as [|a [|b [|]]]; try contradiction; destruct (n_kind m); try contradiction; reflexivity.
  - injection E as <-. split; [reflexivity|]. apply Forall_forall. intros h Hin. apply repeat_spec in Hin. subst h.
    unfold hid; rewrite ?map_length. unfold state_shapes, nst. destruct (n_kind m); reflexivity.
Qed.
Lemma put_hidden_leaf B hs : length hs = n_L m -> Forall (hlen m B) hs -> Forall (fun h => length h = nst) hs ->
  leaf_state (Some (put_hidden m B hs)) = Some hs.
Proof.
  intros Hl Hf Hn. cbn [leaf_state option_map]. f_equal. unfold hid in *.
  transitivity (map (fun l => nth l hs []) (seq 0 (n_L m))); [|rewrite <- Hl; symmetry; apply list_nth_seq].
  apply map_ext_seq. intros l Hi. cbn in Hi.
  assert (Hin : In (nth l hs []) hs) by (apply nth_In; lia).
  rewrite Forall_forall in Hf, Hn. pose proof (Hn _ Hin) as N.
  assert (N0 : forall i, nth l (map (fun h : hid (list K) => nth i h []) hs) [] = nth i (nth l hs []) []).
  { intros i. rewrite (nth_indep _ [] (nth i [] [])) by (unfold hid; rewrite map_length; lia). apply (map_nth (fun h => nth i h [])). }
  assert (SEL : forall i n, (forall h, In h hs -> length (nth i h []) = B * n) ->
    dat (select 0 l (T [n_L m; B; n] (concat (map (fun h => nth i h []) hs)))) = nth i (nth l hs []) []).
  { intros i n Hlen. unfold select, mk. cbn [dat sh remove_at firstn skipn app]. apply tab2; [apply Hlen; exact Hin|].
    intros b j Hb Hj. cbn [insert_at firstn skipn app]. rewrite get_concat; auto; [rewrite N0; reflexivity|rewrite map_length; exact Hl| |lia].
    apply Forall_forall. intros r Hr. apply in_map_iff in Hr. destruct Hr as (h & <- & Hh). apply Hlen. exact Hh. }
  unfold put_hidden. rewrite (shapes_eq m B), (ndir1 m Hd), Nat.mul_1_r. unfold nst in N. cbn [seq].
  destruct (n_kind m) eqn:Ek; cbn [combine map fst snd].
  1,2: rewrite SEL by (intros h Hh; apply (Hf h Hh)); destruct (nth l hs []) as [|a [|]]; try discriminate; reflexivity.
  rewrite !SEL by (intros h Hh; apply (Hf h Hh); exact Ek). destruct (nth l hs []) as [|a [|c [|]]]; try discriminate; reflexivity.
Qed.

(** Both calls in terms of the leaf. *)
Lemma nn_leaf B T x o : sh (bflip m x) = [T; B; n_in m] -> 0 < T -> state_ok m B o ->
  exists ys hs h, nn_forward sig tnh m x o = Ok (bflip m (TAttn.T [T; B; out] (concat ys)), h) /\
    length ys = T /\ Forall (fun y => length y = B * out) ys /\
    torch_rnn (leaf B) (slices (bflip m x)) (leaf_state o) = Ok (ys, hs) /\ leaf_state (Some h) = Some hs.
Proof.
  intros Hx HT Ho. destruct (get_hidden_ok m B o Ho) as (hs & Eh & Lh & Fh & _).
  destruct (get_hidden_leaf B o hs Ho Eh) as [El Fn]. rewrite (ndir1 m Hd), Nat.mul_1_r in Lh.
  unfold nn_forward. change (if n_bf m then transpose 0 1 x else x) with (bflip m x). rewrite Hx.
  destruct (Nat.eqb_spec T 0); [lia|]. rewrite Nat.eqb_refl. cbn [negb]. rewrite Eh. cbn [bind].
  pose proof (slices_len3 _ _ _ _ Hx) as Ls.
  destruct (layers_len sig tnh m Hd Hp B (n_L m) 0 hs (slices (bflip m x)) Lh Fh) as (L1 & L2 & L3 & L4).
  pose proof (layers_n B (n_L m) 0 hs (slices (bflip m x)) Lh Fn) as L5.
  assert (TR : torch_rnn (leaf B) (slices (bflip m x)) (leaf_state o) = Ok (nn_layers sig tnh m B 0 (n_L m) hs (slices (bflip m x)))).
  { unfold torch_rnn. cbn [leaf r_cells]. rewrite map_length, seq_length. rewrite <- El, Lh, Nat.eqb_refl.
    rewrite nn_layers_eq by exact Lh. destruct (slices (bflip m x)); [cbn in Ls; lia|reflexivity]. }
  destruct (nn_layers sig tnh m B 0 (n_L m) hs (slices (bflip m x))) as [ys hs']. cbn [fst snd] in *.
  rewrite dirs_eq, (ndir1 m Hd), n_out_eq, Nat.mul_1_l. exists ys, hs', (put_hidden m B hs').
  split; [reflexivity|]. split; [lia|]. split; [auto|]. split; [exact TR|]. apply put_hidden_leaf; assumption.
Qed.

Lemma slice_dat A B n (x : tens K) d k : sh x = [A; B; n] -> length d = B * n ->
  (forall b j, b < B -> j < n -> get x [k; b; j] = nth (b * n + j) d k0) -> dat (select 0 k x) = d.
Proof.
  intros Hs Hl Hg. unfold select, mk. rewrite Hs. cbn [dat sh remove_at firstn skipn app]. apply tab2; [exact Hl|].
  intros b j Hb Hj. apply Hg; assumption.
Qed.

Lemma step_leaf B o x u : state_ok m B o -> shaped [B; n_in m] x ->
  exists y o', r_forward_step sig tnh m o x u = Ok (y, o') /\
    rnn_forward_step (leaf B) (leaf_state o) (dat x) u = Ok (Some (dat y), leaf_state o').
Proof.
  intros Ho [Hx Lx].
  assert (S1 : sh (unsqueeze 1 x) = [B; 1; n_in m]) by (unfold unsqueeze; rewrite Hx; reflexivity).
  destruct (transpose01 _ _ _ _ S1) as [S2 G2].
  assert (S2' : sh (bflip m (unsqueeze 1 x)) = [1; B; n_in m]) by (unfold bflip; rewrite Hbf; exact S2).
  destruct (nn_leaf B 1 (unsqueeze 1 x) o S2' ltac:(lia) Ho) as (ys & hs & h & E & Ly & Fy & ET & EL).
  assert (SL : slices (bflip m (unsqueeze 1 x)) = [dat x]).
  { unfold slices. rewrite S2'. cbn [nth seq map]. f_equal. apply (slice_dat _ _ _ _ _ _ S2').
    - rewrite Lx. cbn. lia.
    - intros b j Hb Hj. unfold bflip. rewrite Hbf. rewrite G2 by (assumption || lia). rewrite (get3 _ _ _ _ _ _ _ S1) by (assumption || lia).
      cbn [unsqueeze dat]. f_equal. lia. }
  rewrite SL in ET. destruct ys as [|y0 [|]]; try discriminate. inversion Fy as [|? ? F0 _]; subst.
  unfold r_forward_step, r_fstep. rewrite E. cbn [bind]. eexists. eexists. split; [reflexivity|].
  unfold rnn_forward_step, rnn_fstep. rewrite ET. cbn [bind getz nth_error Z.ltb Z.compare Z.to_nat].
  f_equal. f_equal.
  - f_equal. unfold bflip. rewrite Hbf. set (t := TAttn.T [1; B; out] (concat [y0])).
    destruct (transpose01 1 B out t eq_refl) as [S3 G3].
    assert (D : dat (squeeze 1 (transpose 0 1 t)) = dat (transpose 0 1 t)) by (unfold squeeze; rewrite S3; reflexivity).
    rewrite D. apply (nth_ext _ _ k0 k0).
    + rewrite transpose_len, S3, F0. cbn. lia.
    + rewrite F0. intros i Hi.
      assert (Ho' : out <> 0) by (intros Z; rewrite Z in Hi; lia).
      pose proof (Nat.div_mod i out Ho') as DM. pose proof (Nat.mod_upper_bound i out Ho') as MB.
      assert (DB : i / out < B) by (apply Nat.div_lt_upper_bound; lia).
      transitivity (get (transpose 0 1 t) [i / out; 0; i mod out]).
      * rewrite G3 by (assumption || lia). unfold t. rewrite get_concat; cbn [length nth]; auto. f_equal. lia.
      * rewrite (get3 _ _ _ _ _ _ _ S3) by (assumption || lia). f_equal. lia.
  - destruct u; [symmetry; exact EL|reflexivity].
Qed.

Lemma clip_leaf B T o x pe u : state_ok m B o -> shaped [B; n_in m; T] x -> 0 < T ->
  exists y o', r_forward_steps sig tnh m o x pe u = Ok (y, o') /\
    rnn_forward_steps (leaf B) (leaf_state o) (clip_frames x) pe u = Ok (Some (clip_frames y), leaf_state o').
Proof.
  intros Ho [Hx Lx] HT. destruct (transpose12 _ _ _ x Hx) as [S1 G1]. destruct (transpose01 _ _ _ _ S1) as [S2 G2].
  assert (S2' : sh (bflip m (transpose 1 2 x)) = [T; B; n_in m]) by (unfold bflip; rewrite Hbf; exact S2).
  destruct (nn_leaf B T (transpose 1 2 x) o S2' HT Ho) as (ys & hs & h & E & Ly & Fy & ET & EL).
  assert (SL : slices (bflip m (transpose 1 2 x)) = clip_frames x).
  { unfold slices, clip_frames. rewrite S2', Hx. cbn [nth]. apply map_ext_seq. intros t Ht. cbn in Ht.
    assert (S5 : sh (select 2 t x) = [B; n_in m]) by (unfold select; rewrite Hx; reflexivity).
    apply (slice_dat _ _ _ _ _ _ S2').
    - unfold select, mk. cbn [dat]. rewrite tab_len, Hx. cbn. lia.
    - intros b j Hb Hj. rewrite <- (get2 _ _ _ _ _ S5 Hb Hj). unfold bflip. rewrite Hbf. rewrite G2 by (assumption || lia). rewrite G1 by (assumption || lia).
      unfold select. rewrite Hx. cbn [remove_at firstn skipn app]. rewrite get_mk by (repeat constructor; assumption). reflexivity. }
  rewrite SL in ET. unfold r_forward_steps, r_forward. rewrite Hx. cbn [length Nat.ltb Nat.leb]. rewrite E. cbn [bind].
  eexists. eexists. split; [reflexivity|]. unfold rnn_forward_steps. rewrite ET. cbn [bind]. f_equal. f_equal.
  - f_equal. unfold bflip. rewrite Hbf. set (y := TAttn.T [T; B; out] (concat ys)).
    destruct (transpose01 T B out y eq_refl) as [S3 G3]. destruct (transpose12 _ _ _ _ S3) as [S4 G4].
    unfold clip_frames. rewrite S4. cbn [nth]. rewrite (list_nth_seq ys []) at 1. rewrite Ly. apply map_ext_seq. intros t Ht. cbn in Ht.
    symmetry. unfold select, mk. rewrite S4. cbn [dat sh remove_at firstn skipn app]. apply tab2.
    + rewrite Forall_forall in Fy. apply Fy. apply nth_In. lia.
    + intros b j Hb Hj. cbn [insert_at firstn skipn app]. rewrite G4 by (assumption || lia). rewrite G3 by (assumption || lia).
      unfold y. apply get_concat; (assumption || lia).
  - destruct u; [symmetry; exact EL|reflexivity].
Qed.

End Leaf.
