(** The exported function of a network continues the stream of the object. *)
From Coq Require Import List ZArith Bool Arith Lia ZifyBool ZifyNat.
From Verif Require Import Base Frames CoMod Leaf Rnn Net Spec LeafSpec LeafProof NetSpec Calls NetDef NetOk NetCore NetFun NetFwd NetProps NetShift NetThm.
From Verif Require Import OnnxNet OnnxNetSpec.
From Verif Require Onnx OnnxSpec OnnxProof.
Import Onnx (Leaf, OLeaf, OPure, OSeq, OPar, OBR, OCond, ONone, OX, OL, ostep, l_n, l_dyn).
Import OnnxSpec (tensors, full, exportable, steady, orun, wrun).
Import ListNotations.

Section Proof.
Context {F : Type} {FA : Frames F} {FL : FrameLaws F}.
Notation md := (md F).
Notation val := (val F).

Fixpoint val_ind' (P : val -> Prop) (HN : P VNone) (HT : forall x, P (VT x)) (HS : forall xs, P (VS xs))
    (HL : forall l, Forall P l -> P (VL l)) (v : val) : P v :=
  match v with
  | VNone => HN
  | VT x => HT x
  | VS xs => HS xs
  | VL l => HL l ((fix go l : Forall P l :=
                     match l with [] => Forall_nil P | v :: t => Forall_cons v (val_ind' P HN HT HS HL v) (go t) end) l)
  end.

Lemma of_to (v : val) : of_o (to_o v) = v.
Proof.
  induction v as [| | |l IH] using val_ind'; auto. cbn [to_o of_o]. f_equal. rewrite map_map.
  induction IH as [|v t Hv _ IH]; cbn [map]; congruence.
Qed.
Lemma map_of_to (l : list val) : map of_o (map to_o l) = l.
Proof. rewrite map_map. induction l; cbn [map]; rewrite ?of_to; congruence. Qed.

Lemma no_out_to (v : val) : Onnx.no_out (to_o v) = is_none v.
Proof. destruct v; reflexivity. Qed.
Lemma tensor_to (l : list val) : forallb Onnx.tensor (map to_o l) = forallb is_tensor l.
Proof. induction l as [|v l IH]; auto. cbn [map forallb]. rewrite IH. now destruct v. Qed.

(** What an object satisfies between calls. *)
Fixpoint wf (m : md) : Prop :=
  match m with
  | MDelay d _ _ o => o_str o = 0%Z
  | MConv c _ => 2 <= ck c \/ conv_stateless c = true
  | MRnn c o =>
      Forall (fun cell => forall h x, length h = length (r_h0 c) ->
                            length (fst (cell h x)) = length (r_h0 c)) (r_cells c) /\
      match o with
      | Some hs => length hs = length (r_cells c) /\ Forall (fun h => length h = length (r_h0 c)) hs
      | None => True
      end
  | MSeq ms | MPar ms | MBR ms _ => allP wf ms
  | MCond _ _ _ a b => wf a /\ b = None
  | _ => True
  end.

Definition esim (m : md) : Prop := wf m -> forall v,
  match step m v true with
  | Ok (w, m') => ostep (emb m) (to_o v) = Ok (to_o w, emb m') /\ wf m'
  | Err e => ostep (emb m) (to_o v) = Err e
  end.

Lemma dec_enc_delay (s : obj F) : o_str s = 0%Z -> dec_delay (enc_delay s) = Ok s.
Proof. destruct s; cbn. intros ->. reflexivity. Qed.
Lemma dec_enc_conv (s : obj (list F)) : dec_conv (enc_conv s) = Ok s.
Proof. destruct s; reflexivity. Qed.
Lemma dec_enc_pool (s : obj F) : dec_pool (enc_pool s) = Ok s.
Proof. destruct s; reflexivity. Qed.

Lemma hids_enc n (hs : list (hid F)) : hids (enc_rnn n hs) = Ok (map (fun j => map (fun h => nth j h f0) hs) (seq 0 n)).
Proof.
  unfold enc_rnn. induction (seq 0 n) as [|j l IH]; auto. cbn [map hids]. rewrite IH. reflexivity.
Qed.
Lemma seq_nth_map {A} (l : list A) d : map (fun i => nth i l d) (seq 0 (length l)) = l.
Proof.
  induction l as [|a l IH]; auto. cbn [length seq map nth]. f_equal. rewrite <- seq_shift, map_map. exact IH.
Qed.
Lemma dec_enc_rnn n L (hs : list (hid F)) : length hs = L -> Forall (fun h => length h = n) hs ->
  dec_rnn L (enc_rnn n hs) = Ok hs.
Proof.
  intros HL Hn. unfold dec_rnn. rewrite hids_enc. cbn [bind]. f_equal. subst L.
  transitivity (map (fun i => nth i hs []) (seq 0 (length hs))); [|apply seq_nth_map].
  apply map_ext_in. intros i Hi. apply in_seq in Hi. rewrite map_map.
  assert (Hl : length (nth i hs []) = n).
  { rewrite Forall_forall in Hn. apply Hn, nth_In. lia. }
  rewrite <- Hl. transitivity (map (fun j => nth j (nth i hs []) f0) (seq 0 (length (nth i hs [])))); [|apply seq_nth_map].
  apply map_ext. intros j. transitivity (nth i (map (fun h => nth j h f0) hs) (nth j [] f0)); [|apply (map_nth (fun h => nth j h f0))].
  apply nth_indep. rewrite map_length. destruct Hi. assumption.
Qed.

(** A leaf whose step keeps a state, seen through tuples. *)
Lemma on_tuple_eq {S} (dec : list (ten F) -> res S) enc f x s :
  (forall s0, s = Some s0 -> dec (enc s0) = Ok s0) ->
  on_tuple dec enc f (FF x) (option_map enc s) =
  ('(y, s') <- f x s ;; match s' with Some s' => Ok (option_map FF y, enc s') | None => Err TypeError end).
Proof. intros H. unfold on_tuple. destruct s as [s|]; cbn [option_map bind]; [|reflexivity]. rewrite (H s eq_refl). reflexivity. Qed.

Lemma of_opt_to (y : option F) : Onnx.of_o (option_map FF y) = to_o (of_opt y).
Proof. destruct y; reflexivity. Qed.

Lemma esim_delay d f sh o : esim (MDelay d f sh o).
Proof.
  intros W v. cbn [wf] in W. cbn [step emb]. unfold delay_forward_step. destruct (Nat.eqb_spec d 0) as [->|Hd].
  - destruct v; cbn; auto.
  - destruct v as [|x|xs|l]; try reflexivity. cbn [to_o ostep Onnx.l_step].
    rewrite co_sim, on_tuple_eq.
    2:{ intros s E. apply dec_enc_delay. unfold obj_get in E. destruct (o_buf o); [discriminate|]. now injection E as <-. }
    destruct (delay_fstep d f sh x (obj_get o)) as [[y s]|] eqn:Ef; cbn [bind fst snd]; [|reflexivity].
    destruct (delay_keeps _ _ _ _ _ _ _ Hd Ef) as (o' & -> & Hb). cbn [bind].
    assert (Ho : o_str o' = 0%Z).
    { unfold delay_fstep in Ef. replace (d =? 0) with false in Ef by lia.
      match type of Ef with bind ?r _ = _ => destruct r; [|discriminate] end. cbn [bind] in Ef.
      match type of Ef with bind ?r _ = _ => destruct r; [|discriminate] end. cbn [bind] in Ef.
      injection Ef as _ <-. cbn [o_str]. unfold obj_get. destruct (o_buf o); [reflexivity|exact W]. }
    split; [|exact Ho]. unfold obj_set. rewrite of_opt_to. cbn [emb]. replace (d =? 0) with false by lia.
    rewrite obj_get_ne by auto. reflexivity.
Qed.

Lemma esim_skip n i : esim (MSkip n i).
Proof.
  intros _ v. destruct v as [|x|xs|l]; try reflexivity. cbn [step emb to_o ostep Onnx.l_step].
  unfold skip_forward_step. rewrite co_sim. unfold skip_get, skip_set, skip_fstep, on_tuple.
  cbn [dec_skip enc_skip bind]. destruct (Z.leb 0 i); cbn; auto.
Qed.

Lemma esim_conv c o : esim (MConv c o).
Proof.
  intros W v. cbn [step emb]. unfold conv_forward_step. destruct (conv_stateless c) eqn:Es.
  - destruct v as [|x|xs|l]; try reflexivity. rewrite co_sim. unfold conv_fstep. rewrite Es. cbn [pure ostep of_o to_o].
    destruct (conv_forward c [x]) as [ys|]; cbn [bind]; [|reflexivity]. destruct (getz ys 0); cbn [bind fst snd]; [|reflexivity].
    split; [|now right]. cbn [emb]. rewrite Es. reflexivity.
  - destruct v as [|x|xs|l]; try reflexivity. cbn [to_o ostep Onnx.l_step].
    rewrite co_sim, on_tuple_eq by (intros; apply dec_enc_conv).
    destruct (conv_fstep c x (obj_get o)) as [[y s]|] eqn:Ef; cbn [bind fst snd]; [|reflexivity].
    destruct (conv_keeps _ _ _ _ _ W Ef) as [[Hs _]|(o' & -> & Hb)]; [congruence|]. cbn [bind].
    split; [|exact W]. unfold obj_set. rewrite of_opt_to. cbn [emb]. rewrite Es, obj_get_ne by auto. reflexivity.
Qed.

Lemma pool_keeps (c : pool_cfg F) x p y s : pool_fstep c x p = Ok (y, s) -> exists o : obj F, s = Some o /\ o_buf o <> [].
Proof.
  intros Ef. unfold pool_fstep in Ef. match type of Ef with bind ?r _ = _ => destruct r eqn:Eb; [|discriminate] end. cbn [bind] in Ef.
  match type of Ef with bind ?r _ = _ => destruct r; [|discriminate] end. cbn [bind] in Ef. injection Ef as <- <-.
  eexists. split; [reflexivity|]. eapply setz_ne; eauto.
Qed.

Lemma esim_pool c o : esim (MPool c o).
Proof.
  intros _ v. destruct v as [|x|xs|l]; try reflexivity. cbn [step emb to_o ostep Onnx.l_step].
  unfold pool_forward_step. rewrite co_sim, on_tuple_eq by (intros; apply dec_enc_pool).
  destruct (pool_fstep c x (obj_get o)) as [[y s]|] eqn:Ef; cbn [bind fst snd]; [|reflexivity].
  destruct (pool_keeps _ _ _ _ _ Ef) as (o' & -> & Hb). cbn [bind].
  split; [|exact I]. unfold obj_set. rewrite of_opt_to. cbn [emb]. rewrite obj_get_ne by auto. reflexivity.
Qed.

Lemma rnn_layer_keep n cell : (forall h x, length h = n -> length (fst (cell h x)) = n) ->
  forall (xs : list F) (h : hid F), length h = n -> length (snd (rnn_layer cell h xs)) = n.
Proof.
  intros Hc. induction xs as [|x xs IH]; intros h Hh; auto. cbn [rnn_layer].
  specialize (Hc h x Hh). destruct (cell h x) as [h1 y]. cbn [fst] in Hc. specialize (IH h1 Hc).
  destruct (rnn_layer cell h1 xs). exact IH.
Qed.
Lemma rnn_layers_keep n cells : Forall (fun cell => forall h x, length h = n -> length (fst (cell h x)) = n) cells ->
  forall (hs : list (hid F)) (xs : list F), Forall (fun h => length h = n) hs ->
  Forall (fun h => length h = n) (snd (rnn_layers cells hs xs)).
Proof.
  induction 1 as [|c ct Hc _ IH]; intros hs xs Hh; cbn [rnn_layers]; [constructor|].
  destruct hs as [|h ht]; [constructor|]. inversion Hh; subst.
  pose proof (rnn_layer_keep _ c Hc xs h eq_refl) as E. destruct (rnn_layer c h xs) as [ys h1].
  specialize (IH ht ys). destruct (rnn_layers ct ht ys). cbn [snd] in *. constructor; auto.
Qed.

Lemma esim_rnn c o : esim (MRnn c o).
Proof.
  intros [Wc Wo] v. destruct v as [|x|xs|l]; try reflexivity. cbn [step emb to_o ostep Onnx.l_step].
  unfold rnn_forward_step. rewrite on_tuple_eq.
  2:{ intros hs ->. apply dec_enc_rnn; tauto. }
  set (hs := match o with Some h => h | None => repeat (r_h0 c) (length (r_cells c)) end).
  assert (Hl : length hs = length (r_cells c)).
  { unfold hs. destruct o; [tauto|]. apply repeat_length. }
  assert (Hn : Forall (fun h => length h = length (r_h0 c)) hs).
  { unfold hs. destruct o; [tauto|]. apply Forall_forall. intros h Hh. apply repeat_spec in Hh. now subst. }
  unfold rnn_fstep, torch_rnn. fold hs. rewrite Hl, Nat.eqb_refl. cbn [bind].
  pose proof (rnn_layers_keep _ _ Wc hs [x] Hn) as K. destruct (rnn_layers_len (r_cells c) hs [x] Hl) as [L1 L2].
  destruct (rnn_layers (r_cells c) hs [x]) as [ys h1]. cbn [fst snd] in *. cbn [bind].
  destruct (getz ys 0); cbn [bind]; [|reflexivity].
  split; [reflexivity|]. split; auto.
Qed.

Lemma esim_seq ms : Forall esim ms -> allP wf ms -> forall v,
  match seq_step (fun m v => step m v true) ms v with
  | Ok (w, ms') => Onnx.seq_go ostep (map emb ms) (to_o v) = Ok (to_o w, map emb ms') /\ allP wf ms'
  | Err e => Onnx.seq_go ostep (map emb ms) (to_o v) = Err e
  end.
Proof.
  induction 1 as [|m t Hm HF IH]; intros W v; cbn [seq_step map Onnx.seq_go]; [auto|].
  destruct W as [W1 W2]. specialize (Hm W1 v). destruct (step m v true) as [[v1 m1]|e]; cbn [bind]; [|rewrite Hm; reflexivity].
  destruct Hm as [E W1']. rewrite E. cbn [bind]. rewrite no_out_to. destruct (is_none v1).
  - split; [reflexivity|]. split; auto.
  - specialize (IH W2 v1). destruct (seq_step _ t v1) as [[v2 t2]|e]; cbn [bind]; [|rewrite IH; reflexivity].
    destruct IH as [E2 W2']. rewrite E2. cbn [bind]. split; [reflexivity|]. split; auto.
Qed.

Lemma esim_par ms : Forall esim ms -> allP wf ms -> forall vs,
  match par_run (fun m v => step m v true) ms vs with
  | Ok (ws, ms') => Onnx.par_go ostep (map emb ms) (map to_o vs) = Ok (map to_o ws, map emb ms') /\ allP wf ms'
  | Err e => Onnx.par_go ostep (map emb ms) (map to_o vs) = Err e
  end.
Proof.
  induction 1 as [|m t Hm HF IH]; intros W vs; cbn [par_run map Onnx.par_go]; [auto|].
  destruct vs as [|v vs]; [reflexivity|]. cbn [map].
  destruct W as [W1 W2]. specialize (Hm W1 v). destruct (step m v true) as [[v1 m1]|e]; cbn [bind]; [|rewrite Hm; reflexivity].
  destruct Hm as [E W1']. rewrite E. cbn [bind].
  specialize (IH W2 vs). destruct (par_run _ t vs) as [[v2 t2]|e]; cbn [bind]; [|rewrite IH; reflexivity].
  destruct IH as [E2 W2']. rewrite E2. cbn [bind]. split; [reflexivity|]. split; auto.
Qed.

Lemma esim_br ms : Forall esim ms -> allP wf ms -> forall v,
  match br_run (fun m v => step m v true) ms v with
  | Ok (ws, ms') => Onnx.br_go ostep (map emb ms) (to_o v) = Ok (map to_o ws, map emb ms') /\ allP wf ms'
  | Err e => Onnx.br_go ostep (map emb ms) (to_o v) = Err e
  end.
Proof.
  induction 1 as [|m t Hm HF IH]; intros W v; cbn [br_run map Onnx.br_go]; [auto|].
  destruct W as [W1 W2]. specialize (Hm W1 v). destruct (step m v true) as [[v1 m1]|e]; cbn [bind]; [|rewrite Hm; reflexivity].
  destruct Hm as [E W1']. rewrite E. cbn [bind].
  specialize (IH W2 v). destruct (br_run _ t v) as [[v2 t2]|e]; cbn [bind]; [|rewrite IH; reflexivity].
  destruct IH as [E2 W2']. rewrite E2. cbn [bind]. split; [reflexivity|]. split; auto.
Qed.

Theorem emb_step m : esim m.
Proof.
  induction m using md_ind'.
  - apply esim_delay.
  - apply esim_skip.
  - apply esim_conv.
  - apply esim_pool.
  - intros _ v. destruct v; cbn; auto.
  - apply esim_rnn.
  - intros W v. cbn [step emb ostep]. pose proof (esim_seq ms H W v) as G.
    destruct (seq_step _ ms v) as [[w ms']|e]; cbn [bind]; [|rewrite G; reflexivity].
    destruct G as [E W']. rewrite E. cbn [bind]. split; [reflexivity|exact W'].
  - intros _ v. cbn [step emb pure ostep]. rewrite of_to. destruct (broadcast_val n v); cbn; auto.
  - intros W v. destruct v as [|x|xs|l]; try reflexivity. cbn [step emb ostep to_o]. pose proof (esim_par ms H W l) as G.
    destruct (par_run _ ms l) as [[w ms']|e]; cbn [bind]; [|rewrite G; reflexivity].
    destruct G as [E W']. rewrite E. cbn [bind]. split; [reflexivity|exact W'].
  - intros _ v. cbn [step emb pure ostep]. rewrite of_to. destruct (dispatch_val d v); cbn; auto.
  - intros _ v. cbn [step emb pure ostep]. rewrite of_to. destruct (reduce_step r v); cbn; auto.
  - intros W v. cbn [step emb ostep]. pose proof (esim_br ms H W v) as G.
    destruct (br_run _ ms v) as [[w ms']|e]; cbn [bind]; [|rewrite G; reflexivity].
    destruct G as [E W']. rewrite E. cbn [bind]. unfold Onnx.reduced. rewrite tensor_to, map_of_to.
    destruct (forallb is_tensor w); cbn [bind].
    + destruct (reduce_vals r w); cbn [bind]; [|reflexivity]. split; [reflexivity|exact W'].
    + split; [reflexivity|exact W'].
  - intros W v. cbn [wf] in W. destruct W as [Wa Wb]. cbn [step emb ostep]. rewrite of_to. destruct (p v).
    + specialize (IHm Wa v). destruct (step m v true) as [[w a']|e]; cbn [bind]; [|rewrite IHm; reflexivity].
      destruct IHm as [E W']. rewrite E. cbn [bind]. split; [reflexivity|]. split; auto.
    + subst b. cbn [option_map]. split; [reflexivity|]. split; auto.
Qed.

(* ------------------------------------------------------------------ *)
(** ** Static facts *)

Lemma on_tuple_len {S} (dec : list (ten F) -> res S) enc f dyn b :
  (forall s, length (enc s) = length dyn) -> steady (Leaf dyn (on_tuple dec enc f) b).
Proof.
  intros H x s y s' _ E. cbn [Onnx.l_step] in E. unfold on_tuple in E. destruct x as [x|]; [|discriminate].
  destruct (dec s); cbn [bind] in E; [|discriminate]. destruct (f x _) as [[y0 [s0|]]|]; cbn [bind] in E; try discriminate.
  injection E as _ <-. apply H.
Qed.

Lemma enc_rnn_len n (hs : list (hid F)) : length (enc_rnn n hs) = n.
Proof. unfold enc_rnn. now rewrite map_length, seq_length. Qed.

Lemma all_map (P : Onnx.om -> Prop) (Q : md -> Prop) ms : Forall (fun m => Q m -> P (emb m)) ms -> allP Q ms -> OnnxSpec.all P (map emb ms).
Proof. induction 1 as [|m t Hm _ IH]; intros H; [exact I|]. destruct H as [H1 H2]. split; [exact (Hm H1)|exact (IH H2)]. Qed.

Lemma emb_exportable m : one_branch m -> forall kw, exportable kw (emb m).
Proof.
  induction m using md_ind'; cbn [one_branch emb]; intros O kw; try exact I.
  - destruct (d =? 0); [exact I|]. split; [|now right]. now apply on_tuple_len.
  - split; [|now right]. now apply on_tuple_len.
  - destruct (conv_stateless c); [exact I|]. split; [|now right]. now apply on_tuple_len.
  - split; [|now right]. now apply on_tuple_len.
  - split; [|now right]. apply on_tuple_len. intros s. now rewrite enc_rnn_len, repeat_length.
  - cbn [exportable]. apply (all_map _ one_branch); auto. eapply Forall_impl; [|exact H]. cbn. auto.
  - cbn [exportable]. apply (all_map _ one_branch); auto. eapply Forall_impl; [|exact H]. cbn. auto.
  - cbn [exportable]. apply (all_map _ one_branch); auto. eapply Forall_impl; [|exact H]. cbn. auto.
  - destruct O as [O ->]. cbn. auto.
Qed.

Lemma get_ne {B} (o : obj B) : o_buf o <> [] <-> obj_get o <> None.
Proof. unfold obj_get. destruct (o_buf o); split; congruence. Qed.

Lemma all_iff (P : Onnx.om -> Prop) (Q : md -> Prop) ms : Forall (fun m => Q m <-> P (emb m)) ms -> allP Q ms <-> OnnxSpec.all P (map emb ms).
Proof. induction 1 as [|m t Hm _ IH]; [cbn; tauto|]. unfold allP, OnnxSpec.all in *. cbn [map fold_right]. rewrite Hm, IH. reflexivity. Qed.

Lemma held_full m : held m <-> full (emb m).
Proof.
  induction m using md_ind'; cbn [held emb]; try (cbn; tauto).
  - destruct (Nat.eqb_spec d 0) as [->|Hd]; [cbn; tauto|]. rewrite get_ne. destruct (obj_get o); cbn; intuition congruence.
  - destruct (conv_stateless c); [cbn; tauto|]. rewrite get_ne. destruct (obj_get o); cbn; intuition congruence.
  - rewrite get_ne. destruct (obj_get o); cbn; intuition congruence.
  - destruct o as [hs|]; cbn; split; try tauto; try discriminate. intros _. unfold l_n; cbn [l_dyn]; now rewrite enc_rnn_len, repeat_length.
  - apply (all_iff full held); auto.
  - apply (all_iff full held); auto.
  - apply (all_iff full held); auto.
  - cbn [full]. rewrite IHm. destruct b as [b|]; cbn [option_map]; [|tauto]. rewrite (H b eq_refl). tauto.
Qed.


Lemma list_sum_map ms : Forall (fun m : md => OnnxSpec.size (Onnx.oshape (emb m)) = n_states m) ms ->
  list_sum (map OnnxSpec.size (map Onnx.oshape (map emb ms))) = list_sum (map n_states ms).
Proof. induction 1 as [|m t Hm _ IH]; [reflexivity|]. cbn [map list_sum fold_right]. unfold list_sum in IH. congruence. Qed.

Lemma emb_size m : OnnxSpec.size (Onnx.oshape (emb m)) = n_states m.
Proof.
  induction m using md_ind'; cbn [emb n_states]; try reflexivity.
  - destruct (d =? 0); reflexivity.
  - destruct (conv_stateless c); reflexivity.
  - cbn. unfold l_n. cbn [l_dyn]. apply repeat_length.
  - cbn [Onnx.oshape OnnxSpec.size]. now apply list_sum_map.
  - cbn [Onnx.oshape OnnxSpec.size]. now apply list_sum_map.
  - cbn [Onnx.oshape OnnxSpec.size]. now apply list_sum_map.
  - cbn [Onnx.oshape OnnxSpec.size map list_sum fold_right]. rewrite IHm. f_equal.
    destruct b as [b|]; cbn [option_map map fold_right]; [|reflexivity]. rewrite (H b eq_refl). lia.
Qed.

Theorem emb_counts m :
  length (Onnx.state_input_names (emb m)) = n_states m /\
  length (Onnx.state_output_names (emb m)) = n_states m /\
  (held m -> length (tensors (emb m)) = n_states m).
Proof.
  unfold Onnx.state_output_names. rewrite map_length, OnnxProof.names_length, emb_size. repeat split.
  intros H. rewrite OnnxProof.tensors_size by now apply held_full. apply emb_size.
Qed.

Lemma fresh_wf m : fresh m -> convs_regular m -> cells_keep m -> one_branch m -> wf m.
Proof.
  induction m using md_ind'; cbn [fresh convs_regular cells_keep one_branch wf]; intros Hf Hc Hk Ho; subst; auto.
  1-3: induction H as [|m t Hm _ IH]; [exact I|]; destruct Hf, Hc, Hk, Ho; split; auto.
  destruct Hf, Hc, Hk, Ho. split; auto.
Qed.

Lemma wf_one_branch m : wf m -> one_branch m.
Proof.
  induction m using md_ind'; cbn [one_branch wf]; auto.
  1-3: induction H as [|m t Hm _ IH]; [auto|]; intros [H1 H2]; split; auto.
  intros [H1 H2]. auto.
Qed.

(* ------------------------------------------------------------------ *)
(** ** Runs *)

Lemma emb_run vs : forall m ws m', wf m -> run_steps m vs = Ok (ws, m') ->
  wf m' /\ OnnxProof.erase (emb m') = OnnxProof.erase (emb m).
Proof.
  induction vs as [|v vs IH]; intros m ws m' W E; cbn [run_steps] in E; [injection E as <- <-; auto|].
  pose proof (emb_step m W v) as G. destruct (step m v true) as [[w m1]|]; cbn [bind] in E; [|discriminate].
  destruct G as [G W1]. destruct (run_steps m1 vs) as [[ws1 m2]|] eqn:E2; cbn [bind] in E; [|discriminate].
  injection E as <- <-. destruct (IH m1 ws1 m2 W1 E2) as [W2 E3]. split; [auto|].
  rewrite E3. eapply OnnxProof.erase_ostep; eauto.
Qed.

Lemma emb_orun xs : forall m, wf m ->
  orun (emb m) (map FF xs) =
  match run_steps m (map VT xs) with
  | Ok (ws, m') => Ok (map to_o ws, emb m')
  | Err e => Err e
  end.
Proof.
  induction xs as [|x xs IH]; intros m W; cbn [map run_steps orun]; [reflexivity|].
  pose proof (emb_step m W (VT x)) as G. change (to_o (VT x)) with (OX (FF x)) in G.
  destruct (step m (VT x) true) as [[w m1]|]; cbn [bind]; [|rewrite G; reflexivity].
  destruct G as [G W1]. rewrite G. cbn [bind]. rewrite IH by auto.
  destruct (run_steps m1 (map VT xs)) as [[ws m2]|]; reflexivity.
Qed.

Theorem exported_object m0 vs us m xs :
  fresh m0 -> convs_regular m0 -> cells_keep m0 -> one_branch m0 ->
  run_steps m0 vs = Ok (us, m) -> held m ->
  wrun (emb m0) (tensors (emb m)) (map FF xs) =
  match run_steps m (map VT xs) with
  | Ok (ws, m') => Ok (map to_o ws, tensors (emb m'))
  | Err e => Err e
  end.
Proof.
  intros Hf Hc Hk Ho E Hh. destruct (emb_run vs m0 us m (fresh_wf m0 Hf Hc Hk Ho) E) as [W Er].
  rewrite <- (OnnxProof.wrun_erase _ _ Er). rewrite OnnxProof.wrun_orun.
  - rewrite emb_orun by auto. destruct (run_steps m (map VT xs)) as [[ws m']|]; reflexivity.
  - now apply emb_exportable, wf_one_branch.
  - now apply held_full.
Qed.

(* ------------------------------------------------------------------ *)
(** ** All states exist after the first output *)

Lemma step_held m v w m' : wf m -> held m -> step m v true = Ok (w, m') -> held m'.
Proof.
  intros W H E. pose proof (emb_step m W v) as G. rewrite E in G. destruct G as [G _].
  pose proof (OnnxProof.all_agrees (emb m) false (emb_exportable m (wf_one_branch m W) false) (proj1 (held_full m) H) (to_o v)) as A.
  rewrite G in A. apply held_full. tauto.
Qed.

Lemma plain_cond_free (m : md) : plain m -> cond_free m.
Proof.
  induction m using md_ind'; cbn [plain cond_free]; auto; try contradiction.
  1-2: induction H as [|m t Hm _ IH]; [auto|]; intros [H1 H2]; split; auto.
Qed.

Lemma plain_clean (m : md) : plain (clean m) <-> plain m.
Proof.
  induction m using md_ind'; cbn [plain clean]; try tauto.
  1-2: induction H as [|m t Hm _ IH]; [cbn; tauto|]; unfold allP in *; cbn [map fold_right]; rewrite Hm, IH; tauto.
Qed.

Lemma step_plain m v w m' : plain m -> step m v true = Ok (w, m') -> plain m'.
Proof.
  intros Hp E. destruct (clean_step m (plain_cond_free m Hp) v true w m' E) as [Hc _].
  apply plain_clean. rewrite Hc. now apply plain_clean.
Qed.

Lemma first_held m : forall v w m', wf m -> plain m -> step m v true = Ok (w, m') -> w <> VNone -> held m'.
Proof.
  induction m using md_ind'; cbn [plain]; intros v w m' W Hp E Hw; try contradiction.
  - cbn [step] in E. destruct v as [|x|xs|l]; try discriminate. unfold delay_forward_step in E.
    destruct (Nat.eqb_spec d 0) as [->|Hd]; cbn [bind] in E.
    + injection E as <- <-. now left.
    + rewrite co_sim in E. destruct (delay_fstep d f sh x (obj_get o)) as [[y s]|] eqn:Ef; cbn [bind fst snd] in E; [|discriminate].
      destruct (delay_keeps _ _ _ _ _ _ _ Hd Ef) as (o' & -> & Hb). injection E as <- <-. now right.
  - cbn [step] in E. destruct v as [|x|xs|l]; try discriminate. destruct (skip_forward_step n o x true) as [[y o']|]; [|discriminate].
    cbn [bind] in E. injection E as <- <-. exact I.
  - cbn [step] in E. destruct v as [|x|xs|l]; try discriminate. unfold conv_forward_step in E. rewrite co_sim in E.
    destruct (conv_fstep c x (obj_get o)) as [[y s]|] eqn:Ef; cbn [bind fst snd] in E; [|discriminate].
    destruct (conv_keeps _ _ _ _ _ W Ef) as [[Hs ->]|(o' & -> & Hb)]; injection E as <- <-; [now left|now right].
  - cbn [step] in E. destruct v as [|x|xs|l]; try discriminate. unfold pool_forward_step in E. rewrite co_sim in E.
    destruct (pool_fstep c x (obj_get o)) as [[y s]|] eqn:Ef; cbn [bind fst snd] in E; [|discriminate].
    destruct (pool_keeps _ _ _ _ _ Ef) as (o' & -> & Hb). injection E as <- <-. exact Hb.
  - cbn [step] in E. destruct v as [|x|xs|l]; try discriminate. injection E as <- <-. exact I.
  - cbn [step] in E. destruct v as [|x|xs|l]; try discriminate. unfold rnn_forward_step, rnn_fstep in E.
    destruct (torch_rnn c [x] o) as [[ys h]|]; cbn [bind] in E; [|discriminate].
    destruct (getz ys 0); cbn [bind] in E; [|discriminate]. injection E as <- <-. discriminate.
  - cbn [step] in E. destruct (seq_step (fun m v => step m v true) ms v) as [[w1 ms']|] eqn:Es; cbn [bind] in E; [|discriminate].
    injection E as <- <-. cbn [held]. cbn [wf] in W.
    revert v ms' Es. induction H as [|m t Hm _ IH]; intros v ms' Es; cbn [seq_step] in Es; [injection Es as _ <-; exact I|].
    destruct W as [W1 W2], Hp as [P1 P2]. destruct (step m v true) as [[v1 m1]|] eqn:E1; cbn [bind] in Es; [|discriminate].
    destruct (is_none v1) eqn:En; [injection Es as <- _; congruence|].
    destruct (seq_step _ t v1) as [[v2 t2]|] eqn:E2; cbn [bind] in Es; [|discriminate]. injection Es as -> <-.
    split; [|now apply (IH W2 P2 v1)]. apply (Hm v v1 m1); auto. intros ->. discriminate.
  - cbn [step] in E. destruct (br_run (fun m v => step m v true) ms v) as [[ws ms']|] eqn:Es; cbn [bind] in E; [|discriminate].
    destruct (forallb is_tensor ws) eqn:Et; cbn [bind] in E; [|injection E as <- _; congruence].
    destruct (reduce_vals r ws); cbn [bind] in E; [|discriminate]. injection E as <- <-. cbn [held]. cbn [wf] in W. clear Hw.
    revert ws ms' Et Es. induction H as [|m t Hm _ IH]; intros ws ms' Et Es; cbn [br_run] in Es; [injection Es as _ <-; exact I|].
    destruct W as [W1 W2], Hp as [P1 P2]. destruct (step m v true) as [[v1 m1]|] eqn:E1; cbn [bind] in Es; [|discriminate].
    destruct (br_run _ t v) as [[v2 t2]|] eqn:E2; cbn [bind] in Es; [|discriminate]. injection Es as <- <-.
    cbn [forallb] in Et. apply andb_true_iff in Et as [T1 T2].
    split; [|now apply (IH W2 P2 v2)]. apply (Hm v v1 m1); auto. intros ->. discriminate.
Qed.

Lemma core_static sh m : core sh m -> fresh m /\ convs_regular m /\ one_branch m /\ plain m.
Proof.
  induction 1 as [c H|c H Hp|d f s Hs|n|g|c|ms Hms IH|m t r Hms IH Ht Hph Hsl]; cbn [fresh convs_regular one_branch plain]; auto.
  - split; [auto|]. split; [|auto]. destruct H. unfold conv_stateless. lia.
  - rewrite !allP_Forall, !Forall_forall. repeat split; intros x Hx; apply IH; auto.
  - rewrite !allP_Forall, !Forall_forall. repeat split; intros x Hx; apply IH; auto.
Qed.

Lemma run_held vs : forall m ws m', wf m -> held m -> run_steps m vs = Ok (ws, m') -> held m'.
Proof.
  induction vs as [|v vs IH]; intros m ws m' W H E; cbn [run_steps] in E; [injection E as <- <-; auto|].
  destruct (step m v true) as [[w m1]|] eqn:E1; cbn [bind] in E; [|discriminate].
  destruct (run_steps m1 vs) as [[ws1 m2]|] eqn:E2; cbn [bind] in E; [|discriminate]. injection E as <- <-.
  apply (IH m1 ws1); auto.
  - pose proof (emb_step m W v) as G. rewrite E1 in G. tauto.
  - eapply step_held; eauto.
Qed.

Theorem outputs_held vs : forall m ws m', wf m -> plain m -> run_steps m vs = Ok (ws, m') ->
  (exists w, In w ws /\ w <> VNone) -> held m'.
Proof.
  induction vs as [|v vs IH]; intros m ws m' W Hp E (w0 & Hi & Hw); cbn [run_steps] in E; [injection E as <- <-; contradiction|].
  destruct (step m v true) as [[w m1]|] eqn:E1; cbn [bind] in E; [|discriminate].
  destruct (run_steps m1 vs) as [[ws1 m2]|] eqn:E2; cbn [bind] in E; [|discriminate]. injection E as <- <-.
  pose proof (emb_step m W v) as G. rewrite E1 in G. destruct G as [_ W1].
  destruct Hi as [<-|Hi].
  - apply (run_held vs m1 ws1); auto. apply (first_held m v w m1); auto.
  - apply (IH m1 ws1); eauto. eapply step_plain; eauto.
Qed.

Theorem states_exist m0 vs us m : fresh m0 -> convs_regular m0 -> cells_keep m0 -> plain m0 ->
  run_steps m0 vs = Ok (us, m) -> (exists w, In w us /\ w <> VNone) -> held m.
Proof.
  intros Hf Hc Hk Hp. apply outputs_held; auto. apply fresh_wf; auto. clear -Hp.
  induction m0 using md_ind'; cbn [plain one_branch] in *; auto; try contradiction.
  1-2: induction H as [|m t Hm _ IH]; [auto|]; destruct Hp; split; auto.
Qed.

Lemma feed_run xs : forall m ys m', feed (nstep true) m xs = Ok (ys, m') ->
  run_steps m (map VT xs) = Ok (map of_opt ys, m').
Proof.
  induction xs as [|x xs IH]; intros m ys m' E; cbn [feed] in E; [injection E as <- <-; reflexivity|].
  cbn [map run_steps]. unfold nstep in E at 1. destruct (step m (VT x) true) as [[v m1]|]; cbn [bind] in E; [|discriminate].
  assert (exists y, v = of_opt y /\ ('(ys0, o2) <- feed (nstep true) m1 xs ;; Ok (y :: ys0, o2)) = Ok (ys, m')) as (y & -> & E').
  { destruct v; cbn [bind] in E; try discriminate; [exists None|exists (Some x0)]; auto. }
  destruct (feed (nstep true) m1 xs) as [[ys0 m2]|] eqn:E2; cbn [bind] in E'; [|discriminate]. injection E' as <- <-.
  cbn [bind]. rewrite (IH m1 ys0 m2 E2). reflexivity.
Qed.

Lemma feed_split {A O} (st : O -> A -> res (option A * O)) xs : forall o ys zs o2,
  feed st o (xs ++ ys) = Ok (zs, o2) ->
  exists us o1 ws, feed st o xs = Ok (us, o1) /\ feed st o1 ys = Ok (ws, o2) /\ zs = us ++ ws.
Proof.
  induction xs as [|x xs IH]; intros o ys zs o2 E; cbn [feed app] in *.
  - exists [], o, zs. auto.
  - destruct (st o x) as [[y o1]|]; cbn [bind] in E |- *; [|discriminate].
    destruct (feed st o1 (xs ++ ys)) as [[t o3]|] eqn:E2; cbn [bind] in E; [|discriminate]. injection E as <- <-.
    destruct (IH o1 ys t o3 E2) as (us & o4 & ws & E3 & E4 & ->). rewrite E3. cbn [bind]. eauto 6.
Qed.

Theorem exported_net sh m xs1 xs2 ws zs us m1 : net sh m -> cells_keep m ->
  nfwd m (xs1 ++ xs2 ++ ws) = Ok zs -> feed (nstep true) m xs1 = Ok (us, m1) ->
  Z.to_nat (del m) < length xs1 ->
  exists st,
    wrun (emb m) (tensors (emb m1)) (map FF xs2)
    = Ok (map (fun n => to_o (of_opt (scheduled (Z.to_nat (del m)) (Z.to_nat (strd m)) zs n)))
              (seq (length xs1) (length xs2)), st) /\
    length (tensors (emb m1)) = n_states m /\ length st = n_states m.
Proof.
  intros Hn Hk Ef E1 Hl. destruct (net_core sh m Hn) as [Hc _]. destruct (core_static sh m Hc) as (Hfr & Hcr & Ho & Hp).
  rewrite app_assoc in Ef. destruct (net_sched sh m _ _ _ Hn Ef) as [m2 E].
  destruct (feed_split _ _ _ _ _ _ E) as (us' & m1' & ws' & Ea & Eb & Ec).
  rewrite E1 in Ea. injection Ea as <- <-.
  rewrite app_length, seq_app, map_app in Ec. cbn [plus] in Ec.
  assert (length us = length xs1) as L by (eapply feed_length; eauto).
  assert (us = map (scheduled (Z.to_nat (del m)) (Z.to_nat (strd m)) zs) (seq 0 (length xs1)) /\
          ws' = map (scheduled (Z.to_nat (del m)) (Z.to_nat (strd m)) zs) (seq (length xs1) (length xs2))) as [Eu Ew].
  { apply (f_equal (firstn (length us))) in Ec as Ec1. apply (f_equal (skipn (length us))) in Ec as Ec2.
    rewrite !firstn_app, firstn_all, Nat.sub_diag, firstn_O, app_nil_r, map_length, seq_length, L, Nat.sub_diag, firstn_O, app_nil_r in Ec1.
    rewrite !skipn_app, skipn_all, Nat.sub_diag, map_length, seq_length, L, Nat.sub_diag in Ec2.
    rewrite firstn_all2 in Ec1 by (rewrite map_length, seq_length; lia).
    rewrite (skipn_all2 (map _ (seq 0 _))) in Ec2 by (rewrite map_length, seq_length; lia). auto. }
  assert (Hh : held m1).
  { apply (outputs_held (map VT xs1) m (map of_opt us)); auto.
    - now apply fresh_wf.
    - now apply feed_run.
    - destruct (net_pattern sh m xs1 Hn) as (ys & m' & E' & Hs). rewrite E1 in E'. injection E' as <- <-.
      apply (f_equal (fun l => nth_error l (Z.to_nat (del m)))) in Hs. rewrite !nth_error_map in Hs.
      rewrite (nth_error_nth' _ 0) in Hs by (rewrite seq_length; lia). rewrite seq_nth in Hs by lia. cbn [option_map plus] in Hs.
      destruct (nth_error us (Z.to_nat (del m))) as [[y|]|] eqn:En; cbn [option_map is_some] in Hs; try discriminate.
      + exists (VT y). split; [|discriminate]. apply nth_error_In in En. now apply (in_map of_opt) in En.
      + unfold emits in Hs. rewrite Nat.leb_refl, Nat.sub_diag in Hs. destruct (Z.to_nat (strd m)); [discriminate|]. rewrite Nat.mod_0_l in Hs by lia. discriminate. }
  pose proof (exported_object m (map VT xs1) (map of_opt us) m1 xs2 Hfr Hcr Hk Ho (feed_run _ _ _ _ E1) Hh) as X.
  rewrite (feed_run _ _ _ _ Eb) in X. exists (tensors (emb m2)). rewrite X, map_map, Ew, map_map. split; [reflexivity|].
  assert (N : forall a us b, wf a -> run_steps a us = Ok b -> n_states (snd b) = n_states a).
  { intros a vs [vw b] W Er. destruct (emb_run _ _ _ _ W Er) as [_ Q]. cbn [snd]. rewrite <- !emb_size.
    rewrite <- (OnnxProof.erase_shape (emb b)), Q. now rewrite OnnxProof.erase_shape. }
  assert (W : wf m) by now apply fresh_wf. destruct (emb_run _ _ _ _ W (feed_run _ _ _ _ E1)) as [W1 _].
  rewrite (proj2 (proj2 (emb_counts m1)) Hh).
  assert (held m2) as Hh2 by (eapply run_held; [exact W1|exact Hh|exact (feed_run _ _ _ _ Eb)]).
  rewrite (proj2 (proj2 (emb_counts m2)) Hh2).
  pose proof (N _ _ _ W (feed_run _ _ _ _ E1)) as N1. pose proof (N _ _ _ W1 (feed_run _ _ _ _ Eb)) as N2. cbn [snd] in *.
  split; congruence.
Qed.

End Proof.
