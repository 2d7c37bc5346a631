(** Hooks as modules. *)
From Coq Require Import List ZArith Bool Arith Lia.
From Verif Require Import Base Frames CoMod Leaf Rnn Net Spec LeafSpec NetSpec NetDef NetCore NetAlg NetThm NetFwd Hooks HooksSpec HooksProof.
Import ListNotations.

Section Plug.
Context {F : Type} {FA : Frames F}.

Definition tens (me : mode) (v : val F) : Prop :=
  match me with Step _ => exists x, v = VT x | _ => exists xs, v = VS xs end.
Definition outs (me : mode) (v : val F) : Prop :=
  match me with Fwd => tens me v | _ => v = VNone \/ tens me v end.
Lemma tens_outs me v : tens me v -> outs me v.
Proof. destruct me; cbn; auto. Qed.
Lemma outs_tens me v : outs me v -> is_none v = false -> tens me v.
Proof. destruct me; cbn; intros H N; [exact H|..]; (destruct H as [->|H]; [discriminate|exact H]). Qed.
Lemma tens_none me v : tens me v -> is_none v = false.
Proof. destruct me; intros [x ->]; reflexivity. Qed.
Lemma fits_tens me v : fits (me, v) = true <-> tens me v.
Proof. destruct me, v; cbn; split; try discriminate; try (intros [? ?]; discriminate); eauto. Qed.

(** Mapping a function over the frames. *)
Definition vmap (g : F -> F) (v : val F) : val F :=
  match v with VT x => VT (g x) | VS xs => VS (map g xs) | _ => v end.
Definition vmaps (gs : list (F -> F)) (v : val F) : val F := fold_left (fun v g => vmap g v) gs v.
Lemma vmap_tens me g v : tens me v -> tens me (vmap g v).
Proof. destruct me; intros [x ->]; cbn; eauto. Qed.
Lemma vmaps_tens me gs v : tens me v -> tens me (vmaps gs v).
Proof. revert v. induction gs as [|g t IH]; intros v H; [exact H|]. apply IH, vmap_tens, H. Qed.
Lemma vmaps_none gs : vmaps gs VNone = VNone.
Proof. induction gs as [|g t IH]; [reflexivity|]. exact IH. Qed.
Lemma vmaps_outs me gs v : outs me v -> outs me (vmaps gs v).
Proof.
  destruct me; cbn; [apply (vmaps_tens Fwd)|..].
  - intros [->|H]; [left; apply vmaps_none|right; apply (vmaps_tens (Steps pe upd)), H].
  - intros [->|H]; [left; apply vmaps_none|right; apply (vmaps_tens (Step upd)), H].
Qed.

(** *** Networks without hooks *)
Definition outs_ok (m : md F) : Prop := forall me v w m', tens me v -> plain me m v = Ok (w, m') -> outs me w.
Lemma map_plain me g v : tens me v -> plain me (MMap g) v = Ok (vmap g v, MMap g).
Proof. destruct me; intros [x ->]; reflexivity. Qed.
Lemma map_outs g : outs_ok (MMap g).
Proof. intros me v w m' H E. rewrite map_plain in E by exact H. injection E as <- <-. apply tens_outs, vmap_tens, H. Qed.

Definition pseq (me : mode) (ms : list (md F)) (v : val F) : res (val F * list (md F)) :=
  match me with
  | Fwd => w <- seq_fwd fwd ms v ;; Ok (w, ms)
  | Steps pe upd => seq_steps (plain me) ms v
  | Step upd => seq_step (plain me) ms v
  end.
Lemma plain_seq me ms v : plain me (MSeq ms) v = ('(w, ms') <- pseq me ms v ;; Ok (w, MSeq ms')).
Proof. destruct me; cbn; [destruct (seq_fwd fwd ms v); reflexivity|reflexivity..]. Qed.
Lemma pseq_loop me ms : Forall outs_ok ms -> forall v, tens me v -> pseq me ms v = seq_step (plain me) ms v.
Proof.
  induction 1 as [|m t Hm _ IH]; intros v Hv.
  - destruct me; reflexivity.
  - destruct me as [|pe upd|upd]; [| |reflexivity]; cbn [pseq seq_fwd seq_steps seq_step].
    + assert (O := Hm Fwd v). cbn [plain] in O |- *. destruct (fwd m v) as [w|e]; cbn [bind] in O |- *; [|reflexivity].
      specialize (O w m Hv eq_refl). cbn [outs] in O. rewrite (tens_none Fwd w O), <- (IH w O). cbn [pseq].
      destruct (seq_fwd fwd t w); reflexivity.
    + replace (stops v) with false by (destruct Hv as [x ->]; reflexivity).
      assert (O := Hm (Steps pe upd) v). destruct (plain (Steps pe upd) m v) as [[w m1]|e]; cbn [bind]; [|reflexivity].
      destruct (O w m1 Hv eq_refl) as [->|Ow].
      * cbn [is_none]. destruct t; reflexivity.
      * rewrite (tens_none (Steps pe upd) w Ow), <- (IH w Ow). reflexivity.
Qed.
Lemma seq_outs ms : Forall outs_ok ms -> outs_ok (MSeq ms).
Proof.
  intros HF me v w m' Hv E. rewrite plain_seq, pseq_loop in E by assumption.
  destruct (seq_step (plain me) ms v) as [[w0 ms']|e] eqn:E1; [|discriminate]. cbn [bind] in E. injection E as <- _.
  revert v Hv w0 ms' E1. induction HF as [|m t Hm _ IH]; intros v Hv w0 ms' E; cbn [seq_step] in E.
  - injection E as <- _. apply tens_outs, Hv.
  - destruct (plain me m v) as [[w1 m1]|e] eqn:E1; [|discriminate]. cbn [bind] in E. assert (O := Hm _ _ _ _ Hv E1).
    destruct (is_none w1) eqn:En.
    + injection E as <- _. destruct w1; try discriminate. exact O.
    + destruct (seq_step (plain me) t w1) as [[w2 t2]|e] eqn:E2; [|discriminate]. cbn [bind] in E. injection E as <- _. eapply IH; [|exact E2]. apply outs_tens; assumption.
Qed.

Definition pbr (me : mode) (ms : list (md F)) (v : val F) : res (list (val F) * list (md F)) := br_run (plain me) ms v.
Definition join (me : mode) (r : red F) (vs : list (val F)) : res (val F) :=
  match me with Step _ => if forallb is_tensor vs then reduce_vals r vs else Ok VNone | _ => reduce_vals r vs end.
Lemma plain_br me ms r v : plain me (MBR ms r) v = ('(vs, ms') <- pbr me ms v ;; w <- join me r vs ;; Ok (w, MBR ms' r)).
Proof.
  unfold pbr. destruct me; cbn; [|reflexivity..].
  assert (E : br_run (plain Fwd) ms v = (vs <- br_fwd fwd ms v ;; Ok (vs, ms))).
  { induction ms as [|m t IH]; [reflexivity|]. cbn [br_run br_fwd]. rewrite IH. cbn [plain]. destruct (fwd m v); cbn [bind]; [|reflexivity]. destruct (br_fwd fwd t v); reflexivity. }
  rewrite E. destruct (br_fwd fwd ms v) as [vs|e]; [|reflexivity]. reflexivity.
Qed.
Lemma fold_tens me r vs : Forall (tens me) vs -> forall a w, tens me a -> fold_op r a vs = Ok w -> tens me w.
Proof.
  induction 1 as [|v t Hv _ IH]; intros a w Ha E; cbn [fold_op] in E; [injection E as <-; exact Ha|].
  destruct (op_val r a v) as [b|e] eqn:Eb; [|discriminate]. cbn [bind] in E. refine (IH b w _ E).
  destruct me; destruct Ha as [x ->]; destruct Hv as [y ->]; cbn [op_val] in Eb.
  - destruct (zip_bcast _ _ x y); [|discriminate]. injection Eb as <-. cbn; eauto.
  - destruct (zip_bcast _ _ x y); [|discriminate]. injection Eb as <-. cbn; eauto.
  - injection Eb as <-. cbn; eauto.
Qed.
Lemma any_none_outs me vs : Forall (outs me) vs -> (any_none vs = Ok true /\ match me with Fwd => False | _ => True end) \/ (any_none vs = Ok false /\ Forall (tens me) vs).
Proof.
  induction 1 as [|v t Hv _ IH]; [right; split; [reflexivity|constructor]|].
  assert (D : (v = VNone /\ match me with Fwd => False | _ => True end) \/ tens me v) by (destruct me; cbn in Hv |- *; tauto).
  destruct D as [[-> D]|D]; [left; split; [reflexivity|exact D]|].
  assert (E : any_none (v :: t) = any_none t) by (destruct me; destruct D as [x ->]; reflexivity). rewrite E.
  destruct IH as [IH|[IH1 IH2]]; [left; exact IH|right; split; [exact IH1|constructor; assumption]].
Qed.
Lemma join_outs me r vs w : Forall (outs me) vs -> join me r vs = Ok w -> outs me w.
Proof.
  intros HF E.
  assert (G : reduce_vals r vs = Ok w -> outs me w).
  { unfold reduce_vals. destruct (any_none_outs me vs HF) as [[-> D]|[-> HT]]; cbn [bind].
    - intros E'. injection E' as <-. destruct me; [destruct D|left; reflexivity..].
    - destruct vs as [|v t]; [destruct (r_min2 r); discriminate|]. destruct (r_min2 r && _); [discriminate|]. intros E'.
      inversion HT; subst. apply tens_outs. eapply fold_tens; eauto. }
  destruct me; cbn [join] in E; try (apply G, E). destruct (forallb is_tensor vs); [apply G, E|]. injection E as <-. left; reflexivity.
Qed.
Lemma br_outs ms r : Forall outs_ok ms -> outs_ok (MBR ms r).
Proof.
  intros HF me v w m' Hv E. rewrite plain_br in E. destruct (pbr me ms v) as [[vs ms']|e] eqn:E1; [|discriminate]. cbn [bind] in E.
  destruct (join me r vs) as [w0|e] eqn:E2; [|discriminate]. cbn [bind] in E. injection E as <- _. refine (join_outs _ _ _ _ _ E2).
  clear E2 w0. revert vs ms' E1. unfold pbr. induction HF as [|m t Hm _ IH]; intros vs ms' E; cbn [br_run] in E.
  - injection E as <- _. constructor.
  - destruct (plain me m v) as [[w1 m1]|e] eqn:E1; [|discriminate]. cbn [bind] in E. destruct (br_run (plain me) t v) as [[vs2 t2]|e] eqn:E2; [|discriminate].
    cbn [bind] in E. injection E as <- _. constructor; [exact (Hm _ _ _ _ Hv E1)|eapply IH; reflexivity].
Qed.

Lemma of_opt_outs u o : outs (Step u) (of_opt o).
Proof. destruct o; cbn; eauto. Qed.
Lemma of_clip_outs pe u o : outs (Steps pe u) (of_clip o).
Proof. destruct o; cbn; eauto. Qed.
Lemma leaf_outs (m : md F) :
  match m with MDelay _ _ _ _ | MSkip _ _ | MConv _ _ | MPool _ _ | MMap _ | MRnn _ _ => True | _ => False end -> outs_ok m.
Proof.
  intros L me v w m' Hv E. destruct m; try contradiction; destruct me; destruct Hv as [x ->]; cbn in E;
    repeat match type of E with
    | bind (bind ?r _) _ = _ => destruct r as [?|?]; cbn [bind] in E; [|discriminate]
    | bind ?r _ = _ => destruct r as [[? ?]|?]; cbn [bind] in E; [|discriminate]
    | bind ?r _ = _ => destruct r as [?|?]; cbn [bind] in E; [|discriminate]
    end; try (injection E as <- <-); try apply of_opt_outs; try apply of_clip_outs; cbn; eauto.
Qed.

(** *** A module among its hooks *)
Variables ps qs : nat -> list (F -> F).
Lemma maps_loop me gs rest : Forall outs_ok rest -> forall v, tens me v ->
  seq_step (plain me) (map MMap gs ++ rest) v =
  ('(w, r') <- seq_step (plain me) rest (vmaps gs v) ;; Ok (w, map MMap gs ++ r')).
Proof.
  intros HR. induction gs as [|g t IH]; intros v Hv; cbn [map app seq_step].
  - cbn [vmaps fold_left]. destruct (seq_step (plain me) rest v) as [[w r']|e]; reflexivity.
  - rewrite map_plain by exact Hv. cbn [bind]. rewrite (tens_none me) by (apply vmap_tens, Hv). rewrite IH by (apply vmap_tens, Hv).
    cbn [vmaps fold_left]. fold (vmaps t (vmap g v)). destruct (seq_step (plain me) rest _) as [[w r']|e]; reflexivity.
Qed.
Lemma maps_end me gs : forall w, outs me w ->
  (if is_none w then Ok (VNone, map MMap gs) else seq_step (plain me) (map MMap gs) w) = Ok (vmaps gs w, map MMap gs).
Proof.
  intros w Hw. destruct (is_none w) eqn:En.
  - destruct w; try discriminate. rewrite vmaps_none. reflexivity.
  - assert (Ht := outs_tens _ _ Hw En). rewrite <- (app_nil_r (map MMap gs)). rewrite maps_loop by (constructor || exact Ht).
    cbn [seq_step bind]. rewrite !app_nil_r. reflexivity.
Qed.
Lemma around_plain i m : outs_ok m -> forall me v, tens me v ->
  plain me (around ps qs i m) v = ('(w, m') <- plain me m (vmaps (ps i) v) ;; Ok (vmaps (qs i) w, around ps qs i m')).
Proof.
  intros Hm me v Hv. unfold around at 1. rewrite plain_seq, pseq_loop; [|clear Hv|exact Hv].
  - rewrite maps_loop; [|constructor; [exact Hm|]|exact Hv].
    + cbn [app seq_step]. assert (Ht := vmaps_tens me (ps i) v Hv).
      destruct (plain me m (vmaps (ps i) v)) as [[w m1]|e] eqn:E; [|reflexivity]. cbn [bind]. assert (Ow := Hm _ _ _ _ Ht E).
      assert (ME := maps_end me (qs i) w Ow). destruct (is_none w).
      * injection ME as ME. rewrite <- ME. reflexivity.
      * rewrite ME. reflexivity.
    + apply Forall_forall. intros x Hx. apply in_map_iff in Hx as (g & <- & _). apply map_outs.
  - apply Forall_app. split; [|constructor; [exact Hm|]]; apply Forall_forall; intros x Hx; apply in_map_iff in Hx as (g & <- & _); apply map_outs.
Qed.
Lemma around_outs i m : outs_ok m -> outs_ok (around ps qs i m).
Proof.
  intros Hm me v w m' Hv E. rewrite around_plain in E by assumption. destruct (plain me m _) as [[w0 m0]|e] eqn:E0; [|discriminate].
  cbn [bind] in E. injection E as <- _. apply vmaps_outs. exact (Hm _ _ _ _ (vmaps_tens _ _ _ Hv) E0).
Qed.

(** *** Calls with hooks *)
Lemma pre_frames me i gs : forall n v, tens me v -> snd (pre_from i n (map on_frames gs) v) = Ok (vmaps gs v).
Proof.
  induction gs as [|g t IH]; intros n v Hv; [reflexivity|]. cbn [map pre_from]. rewrite snd_mbind. cbn [snd].
  assert (E : on_frames g v = Ok (Some (vmap g v))) by (destruct me; destruct Hv as [x ->]; reflexivity). rewrite E. cbn [bind].
  rewrite IH by (apply vmap_tens, Hv). reflexivity.
Qed.
Lemma post_frames me i gs x : forall n r, outs me r -> snd (post_from i n (map on_result gs) x r) = Ok (vmaps gs r).
Proof.
  induction gs as [|g t IH]; intros n r Hr; [reflexivity|]. cbn [map post_from]. rewrite snd_mbind. cbn [snd].
  assert (D : r = VNone \/ tens me r) by (destruct me; cbn in Hr |- *; tauto). destruct D as [->|D].
  - cbn [on_result bind]. rewrite IH by exact Hr. cbn [vmaps fold_left vmap]. reflexivity.
  - assert (E : on_result g x r = Ok (Some (vmap g r))) by (destruct me; destruct D as [y ->]; reflexivity). rewrite E. cbn [bind].
    rewrite IH by (apply tens_outs, vmap_tens, D). reflexivity.
Qed.

Variable hk : nat -> hooks F.
Hypothesis HK : forall i, hk i = frame_hooks (ps i) (qs i).

Lemma hooked_frames {A} me i (f : val F -> M (val F * A)) v : tens me v ->
  (forall w a, snd (f (vmaps (ps i) v)) = Ok (w, a) -> outs me w) ->
  snd (hooked hk i f v) = ('(w, a) <- snd (f (vmaps (ps i) v)) ;; Ok (vmaps (qs i) w, a)).
Proof.
  intros Hv Hf. unfold hooked. rewrite HK. cbn [frame_hooks h_pre h_post]. rewrite snd_mbind, (pre_frames me) by exact Hv. cbn [bind].
  rewrite snd_mbind. destruct (snd (f (vmaps (ps i) v))) as [[w a]|e]; [|reflexivity]. cbn [bind]. rewrite snd_mbind.
  rewrite (post_frames me) by (eapply Hf; reflexivity). reflexivity.
Qed.
Lemma no_hooks i : hk i = {| h_pre := []; h_post := [] |} -> ps i = [] /\ qs i = [].
Proof. rewrite HK. unfold frame_hooks. intros E. injection E as E1 E2. split; [destruct (ps i)|destruct (qs i)]; (reflexivity || discriminate). Qed.

Notation plugs := (plug ps qs).
Definition inner (m : hmd F) : md F :=
  match m with
  | HLeaf _ _ lf => lf
  | HSeq _ ms => MSeq (map plugs ms)
  | HPar _ ms => MPar (map plugs ms)
  | HBR _ ms r => MBR (map plugs ms) r
  | HCond _ p D R a b => MCond p D R (plugs a) (match b with Some c => Some (plugs c) | None => None end)
  end.
Lemma plug_inner m : plugs m = around ps qs (hid m) (inner m).
Proof. destruct m; reflexivity. Qed.

Lemma hookable_all (ms : list (hmd F)) : fold_right (fun m Q => hookable hk m /\ Q) True ms <-> Forall (hookable hk) ms.
Proof. induction ms as [|m t IH]; cbn; split; intros H; [constructor|exact I| |]; [destruct H as [H1 H2]; constructor; tauto|inversion H; subst; tauto]. Qed.

Lemma inner_outs m : hookable hk m -> outs_ok (inner m).
Proof.
  induction m as [i fs lf|i ms IH|i ms IH|i ms r IH|i p D R a b IHa IHb] using hmd_ind'; intros H; cbn [inner]; [|..|].
  - apply leaf_outs. destruct H as [H _]. destruct lf; tauto.
  - apply seq_outs, Forall_map, Forall_forall. intros x Hx. cbn in H. apply hookable_all in H. rewrite Forall_forall in H, IH.
    rewrite plug_inner. apply around_outs, IH; [exact Hx|apply H, Hx].
  - destruct H.
  - apply br_outs, Forall_map, Forall_forall. intros x Hx. cbn in H. apply hookable_all in H. rewrite Forall_forall in H, IH.
    rewrite plug_inner. apply around_outs, IH; [exact Hx|apply H, Hx].
  - destruct H.
Qed.
Lemma plug_outs m : hookable hk m -> outs_ok (plugs m).
Proof. intros H. rewrite plug_inner. apply around_outs, inner_outs, H. Qed.

(** A run of a method, and a call. *)
Definition matches (f : hmd F -> md F) (m : hmd F) (x : res (val F * hmd F)) (y : res (val F * md F)) : Prop :=
  match x with
  | Ok (w, m') => y = Ok (w, f m') /\ hid m' = hid m /\ hookable hk m'
  | Err e => y = Err e
  end.
Definition run_eq (me : mode) (m : hmd F) : Prop := forall v, tens me v -> matches inner m (snd (hrun hk me m v)) (plain me (inner m) v).
Definition child_eq (me : mode) (m : hmd F) : Prop :=
  forall v, tens me v -> matches plugs m (snd (child_with hk (hrun hk me) me m v)) (plain me (plugs m) v).

Lemma one_hooked me m v : hookable hk m -> run_eq me m -> tens me v ->
  matches plugs m (snd (hooked hk (hid m) (hrun hk me m) v)) (plain me (plugs m) v).
Proof.
  intros Hh HR Hv. rewrite plug_inner, around_plain by (apply inner_outs, Hh || exact Hv).
  assert (Ht := vmaps_tens me (ps (hid m)) v Hv). specialize (HR _ Ht).
  rewrite (hooked_frames me) by first [exact Hv
    | intros w a E; rewrite E in HR; destruct HR as [HR _]; exact (inner_outs m Hh _ _ _ _ Ht HR)].
  destruct (snd (hrun hk me m (vmaps (ps (hid m)) v))) as [[w m']|e]; cbn [bind matches] in *.
  - destruct HR as (-> & Hi & H'). cbn [bind]. rewrite plug_inner, Hi. repeat split; assumption.
  - rewrite HR. reflexivity.
Qed.
Lemma unhooked {A} i (f : val F -> M (val F * A)) v : hk i = {| h_pre := []; h_post := [] |} -> snd (hooked hk i f v) = snd (f v).
Proof.
  intros E. unfold hooked. rewrite E. cbn [h_pre h_post pre_from]. rewrite snd_mbind. cbn [ret snd bind]. rewrite snd_mbind.
  destruct (snd (f v)) as [[w a]|e]; [|reflexivity]. cbn [bind post_from]. rewrite snd_mbind. reflexivity.
Qed.
Lemma call_hooked me m v : hookable hk m -> snd (call_with hk (hrun hk me) me m v) = snd (hooked hk (hid m) (hrun hk me m) v).
Proof.
  intros Hh. destruct m as [i [|] lf| | | |]; try (destruct me; reflexivity). destruct Hh as [_ Hn]. specialize (Hn eq_refl).
  destruct me; [reflexivity|..]; cbn [call_with hid]; rewrite !unhooked by exact Hn; reflexivity.
Qed.
Lemma child_hooked me m v : hookable hk m -> snd (child_with hk (hrun hk me) me m v) = snd (hooked hk (hid m) (hrun hk me m) v).
Proof.
  intros Hh. unfold child_with. destruct me; [|apply call_hooked, Hh..]. destruct (is_rnn m) eqn:E; [|apply call_hooked, Hh].
  destruct m as [i fs lf| | | |]; try discriminate. destruct lf; try discriminate. destruct Hh as [Hn _]. cbn [hid]. rewrite unhooked by exact Hn. reflexivity.
Qed.

Definition pair_all (ms : list (hmd F)) {A} (x : res (A * list (hmd F))) (y : res (A * list (md F))) : Prop :=
  match x with
  | Ok (w, ms') => y = Ok (w, map plugs ms') /\ Forall (hookable hk) ms'
  | Err e => y = Err e
  end.
Definition hpseq (me : mode) (ms : list (hmd F)) (v : val F) :=
  match me with
  | Fwd => hseq_fwd (child_with hk (hrun hk me) me) ms v
  | Steps _ _ => hseq_steps (child_with hk (hrun hk me) me) ms v
  | Step _ => hseq_step (child_with hk (hrun hk me) me) ms v
  end.
Lemma hpseq_loop me ms : Forall (hookable hk) ms -> Forall (child_eq me) ms -> forall v, tens me v ->
  pair_all ms (snd (hpseq me ms v)) (seq_step (plain me) (map plugs ms) v).
Proof.
  induction ms as [|m t IH]; intros Hh Hc v Hv.
  - destruct me; (split; [reflexivity|constructor]).
  - inversion Hh as [|? ? H1 H2]; subst. inversion Hc as [|? ? C1 C2]; subst. specialize (IH H2 C2). cbn [map seq_step].
    specialize (C1 v Hv). unfold matches in C1.
    assert (O := plug_outs m H1 me v).
    destruct me as [|pe upd|upd]; cbn [hpseq hseq_fwd hseq_steps hseq_step] in *.
    + rewrite snd_mbind. destruct (snd (child_with hk (hrun hk Fwd) Fwd m v)) as [[w m']|e]; [|rewrite C1; reflexivity].
      destruct C1 as (C1 & _ & H'). rewrite C1. cbn [bind]. specialize (O _ _ Hv C1). rewrite (tens_none Fwd w O). rewrite snd_mbind.
      specialize (IH w O). destruct (snd (hseq_fwd _ t w)) as [[w2 t2]|e]; cbn [pair_all] in IH; [|rewrite IH; reflexivity].
      destruct IH as [-> IH]. split; [reflexivity|constructor; assumption].
    + replace (stops v) with false by (destruct Hv as [x ->]; reflexivity).
      rewrite snd_mbind. destruct (snd (child_with hk (hrun hk (Steps pe upd)) (Steps pe upd) m v)) as [[w m']|e]; [|rewrite C1; reflexivity].
      destruct C1 as (C1 & _ & H'). rewrite C1. cbn [bind]. specialize (O _ _ Hv C1). rewrite snd_mbind. destruct O as [->|O].
      * cbn [is_none]. destruct t; (split; [reflexivity|constructor; assumption]).
      * rewrite (tens_none (Steps pe upd) w O).
        specialize (IH w O). destruct (snd (hseq_steps _ t w)) as [[w2 t2]|e]; cbn [pair_all] in IH; [|rewrite IH; reflexivity].
        destruct IH as [-> IH]. split; [reflexivity|constructor; assumption].
    + rewrite snd_mbind. destruct (snd (child_with hk (hrun hk (Step upd)) (Step upd) m v)) as [[w m']|e]; [|rewrite C1; reflexivity].
      destruct C1 as (C1 & _ & H'). rewrite C1. cbn [bind]. specialize (O _ _ Hv C1). destruct (is_none w) eqn:En.
      * split; [reflexivity|constructor; assumption].
      * assert (Ow := outs_tens _ _ O En). rewrite snd_mbind.
        specialize (IH w Ow). destruct (snd (hseq_step _ t w)) as [[w2 t2]|e]; cbn [pair_all] in IH; [|rewrite IH; reflexivity].
        destruct IH as [-> IH]. split; [reflexivity|constructor; assumption].
Qed.
Lemma hbr_loop me ms : Forall (hookable hk) ms -> Forall (child_eq me) ms -> forall v, tens me v ->
  pair_all ms (snd (hbr (child_with hk (hrun hk me) me) ms v)) (br_run (plain me) (map plugs ms) v).
Proof.
  induction ms as [|m t IH]; intros Hh Hc v Hv.
  - split; [reflexivity|constructor].
  - inversion Hh as [|? ? H1 H2]; subst. inversion Hc as [|? ? C1 C2]; subst. specialize (IH H2 C2 v Hv). cbn [map br_run hbr].
    specialize (C1 v Hv). unfold matches in C1. rewrite snd_mbind.
    destruct (snd (child_with hk (hrun hk me) me m v)) as [[w m']|e]; [|rewrite C1; reflexivity].
    destruct C1 as (-> & _ & H'). cbn [bind]. rewrite snd_mbind. destruct (snd (hbr _ t v)) as [[w2 t2]|e]; cbn [pair_all] in IH; [|rewrite IH; reflexivity].
    destruct IH as [-> IH]. split; [reflexivity|constructor; assumption].
Qed.

Lemma leaf_kind me (lf : md F) v w lf' : leaf_run me lf v = Ok (w, lf') ->
  forall P : Prop, match lf with
  | MDelay _ _ _ _ | MSkip _ _ | MConv _ _ | MPool _ _ | MMap _ => True
  | MRnn _ _ => P | _ => False end ->
  match lf' with
  | MDelay _ _ _ _ | MSkip _ _ | MConv _ _ | MPool _ _ | MMap _ => True
  | MRnn _ _ => P | _ => False end.
Proof.
  intros E P. destruct lf; intros L; try contradiction; destruct me; destruct v; cbn in E; try discriminate;
    repeat match type of E with
    | bind (bind ?r _) _ = _ => destruct r as [?|?]; cbn [bind] in E; [|discriminate]
    | bind ?r _ = _ => destruct r as [[? ?]|?]; cbn [bind] in E; [|discriminate]
    | bind ?r _ = _ => destruct r as [?|?]; cbn [bind] in E; [|discriminate]
    end; try (injection E as <- <-); exact L.
Qed.

Theorem run_plug m : hookable hk m -> forall me, run_eq me m.
Proof.
  induction m as [i fs lf|i ms IH|i ms IH|i ms r IH|i p D R a b IHa IHb] using hmd_ind'; intros Hh me v Hv; [|..|].
  - cbn [hrun ret snd inner]. change (plain me lf v) with (leaf_run me lf v).
    destruct (leaf_run me lf v) as [[w lf']|e] eqn:E; cbn [bind matches]; [|reflexivity].
    split; [reflexivity|]. split; [reflexivity|]. destruct Hh as [H1 H2]. split; [|exact H2]. exact (leaf_kind _ _ _ _ _ E _ H1).
  - cbn in Hh. apply hookable_all in Hh. assert (HC : Forall (child_eq me) ms).
    { apply Forall_forall. intros x Hx v' Hv'. rewrite Forall_forall in IH, Hh. rewrite child_hooked by (apply Hh, Hx).
      apply one_hooked; [apply Hh, Hx|apply IH; [exact Hx|apply Hh, Hx]|exact Hv']. }
    cbn [hrun inner]. rewrite snd_mbind, plain_seq.
    rewrite pseq_loop; [| |exact Hv].
    2:{ apply Forall_map. eapply Forall_impl; [|exact Hh]. intros x Hx. apply plug_outs, Hx. }
    assert (L := hpseq_loop me ms Hh HC v Hv). unfold hpseq in L.
    set (X := match me with Fwd => _ | Steps _ _ => _ | Step _ => _ end) in *.
    destruct (snd X) as [[w ms']|e]; cbn [pair_all bind ret snd matches] in *.
    + destruct L as [-> L]. split; [reflexivity|]. split; [reflexivity|]. cbn. apply hookable_all, L.
    + rewrite L. reflexivity.
  - destruct Hh.
  - cbn in Hh. apply hookable_all in Hh. assert (HC : Forall (child_eq me) ms).
    { apply Forall_forall. intros x Hx v' Hv'. rewrite Forall_forall in IH, Hh. rewrite child_hooked by (apply Hh, Hx).
      apply one_hooked; [apply Hh, Hx|apply IH; [exact Hx|apply Hh, Hx]|exact Hv']. }
    cbn [hrun inner]. rewrite snd_mbind, plain_br.
    assert (L := hbr_loop me ms Hh HC v Hv). unfold pbr.
    destruct (snd (hbr _ ms v)) as [[vs ms']|e]; cbn [pair_all bind] in *.
    + destruct L as [-> L]. cbn [bind ret snd]. fold (join me r vs). destruct (join me r vs) as [w|e]; [|reflexivity]. cbn [bind matches].
      split; [reflexivity|]. split; [reflexivity|]. cbn. apply hookable_all, L.
    + rewrite L. reflexivity.
  - destruct Hh.
Qed.
Theorem call_plug m me v : hookable hk m -> fits (me, v) = true ->
  match snd (hcall hk me m v) with
  | Ok (w, m') => plain me (plugs m) v = Ok (w, plugs m') /\ hookable hk m'
  | Err e => plain me (plugs m) v = Err e
  end.
Proof.
  intros Hh Hf. apply fits_tens in Hf. unfold hcall. rewrite call_hooked by exact Hh.
  assert (L := one_hooked me m v Hh (run_plug m Hh me) Hf). unfold matches in L.
  destruct (snd (hooked hk (hid m) (hrun hk me m) v)) as [[w m']|e]; [|exact L]. destruct L as (L1 & _ & L2). split; assumption.
Qed.
Theorem calls_plug cs : forall m, hookable hk m -> forallb fits cs = true ->
  match hooked_calls hk m cs with
  | Ok (ws, m') => plain_calls (plugs m) cs = Ok (ws, plugs m')
  | Err e => plain_calls (plugs m) cs = Err e
  end.
Proof.
  induction cs as [|[me v] t IH]; intros m Hh Hf; [reflexivity|]. cbn [forallb] in Hf. apply andb_true_iff in Hf as [H1 H2].
  cbn [hooked_calls plain_calls]. assert (L := call_plug m me v Hh H1). destruct (snd (hcall hk me m v)) as [[w m1]|e]; cbn [bind].
  - destruct L as [-> L]. cbn [bind]. specialize (IH m1 L H2). destruct (hooked_calls hk m1 t) as [[ws m2]|e]; cbn [bind]; rewrite IH; reflexivity.
  - rewrite L. reflexivity.
Qed.

(** *** The schedule *)
Lemma hstep_plug m x : hookable hk m ->
  match hstep hk m x with
  | Ok (o, m') => nstep true (plugs m) x = Ok (o, plugs m') /\ hookable hk m'
  | Err e => nstep true (plugs m) x = Err e
  end.
Proof.
  intros Hh. unfold hstep, nstep. assert (L := call_plug m (Step true) (VT x) Hh eq_refl). cbn [plain] in L.
  destruct (snd (hcall hk (Step true) m (VT x))) as [[w m1]|e]; cbn [bind].
  - destruct L as [-> L]. cbn [bind]. destruct w; try reflexivity; (split; [reflexivity|exact L]).
  - rewrite L. reflexivity.
Qed.
Lemma feed_plug xs : forall m, hookable hk m ->
  match feed (hstep hk) m xs with
  | Ok (o, m') => feed (nstep true) (plugs m) xs = Ok (o, plugs m')
  | Err e => feed (nstep true) (plugs m) xs = Err e
  end.
Proof.
  induction xs as [|x t IH]; intros m Hh; [reflexivity|]. cbn [feed]. assert (L := hstep_plug m x Hh).
  destruct (hstep hk m x) as [[o m1]|e]; cbn [bind].
  - destruct L as [-> L]. cbn [bind]. specialize (IH m1 L). destruct (feed (hstep hk) m1 t) as [[os m2]|e]; cbn [bind]; rewrite IH; reflexivity.
  - rewrite L. reflexivity.
Qed.
Lemma hfwd_plug m xs : hookable hk m -> hfwd hk m xs = nfwd (plugs m) xs.
Proof.
  intros Hh. unfold hfwd, nfwd. assert (L := call_plug m Fwd (VS xs) Hh eq_refl). cbn [plain] in L.
  destruct (snd (hcall hk Fwd m (VS xs))) as [[w m1]|e]; cbn [bind].
  - destruct L as [L _]. destruct (fwd (plugs m) (VS xs)) as [w0|e]; [|discriminate]. injection L as -> _. reflexivity.
  - destruct (fwd (plugs m) (VS xs)) as [w0|e0]; [discriminate|]. cbn [bind] in *. injection L as ->. reflexivity.
Qed.
Theorem hooked_schedule {FL : FrameLaws F} sh m xs ws zs : hookable hk m -> net sh (plugs m) -> hfwd hk m (xs ++ ws) = Ok zs ->
  exists m', feed (hstep hk) m xs =
    Ok (map (scheduled (Z.to_nat (del (plugs m))) (Z.to_nat (strd (plugs m))) zs) (seq 0 (length xs)), m').
Proof.
  intros Hh Hn Hf. rewrite hfwd_plug in Hf by exact Hh. destruct (net_sched sh (plugs m) xs ws zs Hn Hf) as [m' E].
  assert (L := feed_plug xs m Hh). destruct (feed (hstep hk) m xs) as [[o m1]|e]; [|congruence]. exists m1. congruence.
Qed.
End Plug.

(** *** What the networks report *)
Section Report.
Context {F : Type}.
Variables ps qs : nat -> list (F -> F).
Lemma weighted_maps (f : md F -> Z) gs : (forall g, f (MMap g) = 0%Z) -> weighted f (map MMap gs) = 0%Z.
Proof. intros H. induction gs as [|g t IH]; [reflexivity|]. cbn [map]. rewrite weighted_cons, H, IH. reflexivity. Qed.
Lemma strd_maps (gs : list (F -> F)) : fold_right Z.mul 1%Z (map strd (map MMap gs)) = 1%Z.
Proof. induction gs as [|g t IH]; [reflexivity|]. cbn [map fold_right]. rewrite IH. reflexivity. Qed.
Lemma around_strd i m : strd (around ps qs i m) = strd m.
Proof.
  assert (Z1 : forall z gs, fold_right Z.mul z (map strd (map (MMap (F := F)) gs)) = z).
  { intros z gs. induction gs as [|g t IH]; [reflexivity|]. cbn [map fold_right]. rewrite IH. cbn [strd]. lia. }
  unfold around. rewrite seq_strd, !map_app, !fold_right_app, !Z1. cbn [map fold_right]. lia.
Qed.
Lemma around_weighted f i m : (forall g, f (MMap g) = 0%Z) -> weighted f (map MMap (ps i) ++ [m] ++ map MMap (qs i)) = f m.
Proof. intros H. rewrite !weighted_app, strd_maps, !weighted_maps by exact H. rewrite weighted_cons. change (weighted f []) with 0%Z. lia. Qed.
Lemma around_padg i m : padg (around ps qs i m) = padg m.
Proof. unfold around. rewrite seq_padg, around_weighted; reflexivity. Qed.
Lemma around_rf i m : rfield (around ps qs i m) = rfield m.
Proof. unfold around. rewrite seq_rf, around_weighted by reflexivity. lia. Qed.

Theorem plug_reports (m : hmd F) : no_cond m = true ->
  strd (plug ps qs m) = strd (erase m) /\ padg (plug ps qs m) = padg (erase m) /\ rfield (plug ps qs m) = rfield (erase m).
Proof.
  induction m as [i fs lf|i ms IH|i ms IH|i ms r IH|i p D R a b IHa IHb] using hmd_ind'; intros H; cbn [plug erase];
    rewrite around_strd, around_padg, around_rf; [repeat split; reflexivity|..|discriminate].
  - cbn in H. rewrite forallb_forall in H. rewrite !seq_strd, !seq_padg, !seq_rf. repeat split.
    + rewrite !map_map. f_equal. apply map_ext_in. intros x Hx. rewrite Forall_forall in IH. apply IH; auto.
    + induction ms as [|x t IHt]; [reflexivity|]. inversion IH; subst. cbn [map]. rewrite !weighted_cons.
      destruct (H2 (H x (or_introl eq_refl))) as (-> & -> & _). rewrite IHt; [reflexivity|assumption|intros; apply H; right; assumption].
    + f_equal. induction ms as [|x t IHt]; [reflexivity|]. inversion IH; subst. cbn [map]. rewrite !weighted_cons.
      destruct (H2 (H x (or_introl eq_refl))) as (-> & _ & ->). rewrite IHt; [reflexivity|assumption|intros; apply H; right; assumption].
  - cbn in H. rewrite forallb_forall in H. rewrite Forall_forall in IH. repeat split.
    + destruct ms as [|x t]; [reflexivity|]. cbn [map strd]. apply IH; [left; reflexivity|apply H; left; reflexivity].
    + cbn [padg]. f_equal. rewrite !map_map. apply map_ext_in. intros x Hx. apply IH; auto.
    + cbn [rfield]. f_equal. rewrite !map_map. apply map_ext_in. intros x Hx. apply IH; auto.
  - cbn in H. rewrite forallb_forall in H. rewrite Forall_forall in IH. repeat split.
    + destruct ms as [|x t]; [reflexivity|]. cbn [map strd]. apply IH; [left; reflexivity|apply H; left; reflexivity].
    + cbn [padg]. f_equal. rewrite !map_map. apply map_ext_in. intros x Hx. apply IH; auto.
    + cbn [rfield]. f_equal. rewrite !map_map. apply map_ext_in. intros x Hx. apply IH; auto.
Qed.
Theorem plug_delay {FA : Frames F} sh (m : hmd F) : no_cond m = true -> net sh (erase m) -> net sh (plug ps qs m) ->
  del (plug ps qs m) = del (erase m).
Proof.
  intros Hc H1 H2. destruct (plug_reports m Hc) as (_ & Hp & Hr).
  destruct (net_core sh _ H1) as [_ I1]. destruct (net_core sh _ H2) as [_ I2]. destruct I1, I2. lia.
Qed.
End Report.
