From Coq Require Import List Bool Arith Lia String Ascii DecimalString DecimalNat Decimal.
From Verif Require Import Base Onnx OnnxSpec.
Import ListNotations.
Open Scope list_scope.

Section ShapeInd.
Variable P : shape -> Prop.
Hypothesis HI : forall n, P (SInt n).
Hypothesis HL : forall l, Forall P l -> P (SList l).
Fixpoint shape_ind2 (s : shape) : P s :=
  match s with
  | SInt n => HI n
  | SList l =>
      HL l ((fix go l := match l return Forall P l with
                         | [] => Forall_nil _
                         | s :: l => Forall_cons _ (shape_ind2 s) (go l) end) l)
  end.
End ShapeInd.

Section PstInd.
Context {A : Type}.
Variable P : pst A -> Prop.
Hypothesis HN : P PNone.
Hypothesis HT : forall l, P (PTup l).
Hypothesis HL : forall l, Forall P l -> P (PList l).
Fixpoint pst_ind2 (p : pst A) : P p :=
  match p with
  | PNone => HN
  | PTup l => HT l
  | PList l =>
      HL l ((fix go l := match l return Forall P l with
                         | [] => Forall_nil _
                         | s :: l => Forall_cons _ (pst_ind2 s) (go l) end) l)
  end.
End PstInd.

Section OmInd.
Context {X A : Type}.
Variable P : @om X A -> Prop.
Hypothesis H1 : forall f st, P (OLeaf f st).
Hypothesis H2 : forall g, P (OPure g).
Hypothesis H3 : forall l, Forall P l -> P (OSeq l).
Hypothesis H4 : forall l, Forall P l -> P (OPar l).
Hypothesis H5 : forall l r, Forall P l -> P (OBR l r).
Hypothesis H6 : forall c a, P a -> P (OCond c a None).
Hypothesis H7 : forall c a b, P a -> P b -> P (OCond c a (Some b)).
Fixpoint om_ind2 (m : @om X A) : P m :=
  let go := fix go l := match l return Forall P l with
                        | [] => Forall_nil _
                        | m :: l => Forall_cons _ (om_ind2 m) (go l) end in
  match m with
  | OLeaf f st => H1 f st
  | OPure g => H2 g
  | OSeq l => H3 l (go l)
  | OPar l => H4 l (go l)
  | OBR l r => H5 l r (go l)
  | OCond c a None => H6 c a (om_ind2 a)
  | OCond c a (Some b) => H7 c a b (om_ind2 a) (om_ind2 b)
  end.
End OmInd.

(** *** Shapes and lists *)

Lemma list_sum_flat_shape : forall s, list_sum (flat_shape s) = size s.
Proof.
  induction s as [n|l IH] using shape_ind2; cbn [flat_shape size list_sum fold_right]; [lia|].
  induction IH as [|s l Hs _ IH]; cbn [flat_map map list_sum fold_right]; [reflexivity|].
  rewrite list_sum_app, Hs. cbn [size] in IH. unfold list_sum in *. now rewrite IH.
Qed.

Definition sl_go {A} (lst : list A) :=
  fix go (l : list shape) (idx : nat) : list (pst A) * nat :=
    match l with
    | [] => ([], idx)
    | s :: l =>
        let '(o, idx) := shape_list lst s idx in
        let '(ret, idx) := go l idx in (o :: ret, idx)
    end.
Lemma shape_list_SList {A} (lst : list A) l idx :
  shape_list lst (SList l) idx = let '(r, i) := sl_go lst l idx in (PList r, i).
Proof. reflexivity. Qed.

Definition fits_go {A} :=
  fix go (l : list shape) (ps : list (pst A)) : Prop :=
    match l, ps with
    | [], [] => True
    | s :: l, p :: ps => fits s p /\ go l ps
    | _, _ => False
    end.
Lemma fits_SList {A} l (ps : list (pst A)) : fits (SList l) (PList ps) = fits_go l ps.
Proof. reflexivity. Qed.

Lemma skipn_add {A} : forall i (l : list A) a, skipn a (skipn i l) = skipn (i + a) l.
Proof.
  induction i as [|i IH]; intros l a; auto. destruct l as [|x l]; [|apply IH].
  cbn. now rewrite skipn_nil.
Qed.

Lemma firstn_skipn_add {A} (l : list A) i a b :
  firstn (a + b) (skipn i l) = firstn a (skipn i l) ++ firstn b (skipn (i + a) l).
Proof.
  rewrite <- (firstn_skipn a (firstn (a + b) (skipn i l))).
  rewrite firstn_firstn, Nat.min_l by lia. f_equal.
  rewrite skipn_firstn_comm. replace (a + b - a) with b by lia.
  f_equal. apply skipn_add.
Qed.

(** The reshaped list holds a slice of the flat list, with the index after it. *)
Lemma shape_list_spec {A} (lst : list A) : forall s idx,
  snd (shape_list lst s idx) = idx + size s /\
  flat_pst (fst (shape_list lst s idx)) = map Some (firstn (size s) (skipn idx lst)) /\
  (idx + size s <= List.length lst -> fits s (fst (shape_list lst s idx))).
Proof.
  induction s as [n|l IH] using shape_ind2; intros idx.
  - cbn. split; [|split]; auto. intros H. rewrite firstn_length, skipn_length. lia.
  - rewrite shape_list_SList.
    assert (G : snd (sl_go lst l idx) = idx + size (SList l) /\
      flat_map flat_pst (fst (sl_go lst l idx)) = map Some (firstn (size (SList l)) (skipn idx lst)) /\
      (idx + size (SList l) <= List.length lst -> fits_go l (fst (sl_go lst l idx)))).
    { revert idx. induction IH as [|s l Hs _ IH]; intros idx.
      - cbn. split; [lia|]. split; auto.
      - cbn [sl_go size map list_sum fold_right].
        destruct (Hs idx) as (E1 & E2 & E3).
        destruct (shape_list lst s idx) as [o i1]. cbn [fst snd] in *. subst i1.
        destruct (IH (idx + size s)) as (F1 & F2 & F3).
        destruct (sl_go lst l (idx + size s)) as [r i2]. cbn [fst snd] in *. subst i2.
        cbn [size] in *. unfold list_sum in *.
        split; [lia|]. split.
        + cbn [flat_map]. rewrite E2, F2, firstn_skipn_add, map_app. reflexivity.
        + intros Hl. cbn [fits_go]. split; [apply E3; lia | apply F3; lia]. }
    destruct (sl_go lst l idx) as [r i]. cbn [fst snd flat_pst] in *. exact G.
Qed.

Lemma map_Some_inj {A} (l1 l2 : list A) : map Some l1 = map Some l2 -> l1 = l2.
Proof.
  revert l2; induction l1 as [|a l1 IH]; intros [|b l2] H; try discriminate; auto.
  cbn in H. injection H as <- H. f_equal; auto.
Qed.

(** A nested state is determined by its shape and its flat list. *)
Lemma fits_flat_inj {A} : forall s (p q : pst A),
  fits s p -> fits s q -> flat_pst p = flat_pst q -> p = q.
Proof.
  assert (L : forall s (p : pst A), fits s p -> List.length (flat_pst p) = size s).
  { induction s as [n|l IH] using shape_ind2; intros p Hp.
    - destruct p; cbn in Hp; try contradiction. cbn. now rewrite map_length.
    - destruct p as [|t|ps]; try contradiction. rewrite fits_SList in Hp.
      cbn [flat_pst size]. revert ps Hp. induction IH as [|s l Hs _ IH]; intros [|p ps] Hp;
        try contradiction; [reflexivity|]. destruct Hp as [Hp Hps].
      cbn [flat_map map list_sum fold_right]. rewrite app_length, (Hs _ Hp).
      unfold list_sum in *. now rewrite (IH _ Hps). }
  induction s as [n|l IH] using shape_ind2; intros p q Hp Hq E.
  - destruct p; cbn in Hp; try contradiction. destruct q; cbn in Hq; try contradiction.
    cbn in E. f_equal. now apply map_Some_inj.
  - destruct p as [|t|ps]; try contradiction. destruct q as [|t|qs]; try contradiction.
    rewrite fits_SList in *. cbn [flat_pst] in E. f_equal. revert ps qs Hp Hq E.
    induction IH as [|s l Hs _ IH]; intros [|p ps] [|q qs] Hp Hq E; try contradiction; auto.
    destruct Hp as [Hp Hps], Hq as [Hq Hqs]. cbn [flat_map] in E.
    assert (E1 : flat_pst p = flat_pst q).
    { apply (f_equal (firstn (size s))) in E.
      rewrite <- (L _ _ Hp) in E at 1. rewrite <- (L _ _ Hq) in E.
      rewrite !firstn_app, !Nat.sub_diag, !firstn_all in E. cbn in E. now rewrite !app_nil_r in E. }
    rewrite E1 in E. apply app_inv_head in E.
    f_equal; auto.
Qed.

Lemma fits_flat_size {A} : forall s (p : pst A), fits s p -> List.length (flat_pst p) = size s.
Proof.
  induction s as [n|l IH] using shape_ind2; intros p Hp.
  - destruct p; cbn in Hp; try contradiction. cbn. now rewrite map_length.
  - destruct p as [|t|ps]; try contradiction. rewrite fits_SList in Hp.
    cbn [flat_pst size]. revert ps Hp. induction IH as [|s l Hs _ IH]; intros [|p ps] Hp;
      try contradiction; [reflexivity|]. destruct Hp as [Hp Hps].
    cbn [flat_map map list_sum fold_right]. rewrite app_length, (Hs _ Hp).
    unfold list_sum in *. now rewrite (IH _ Hps).
Qed.

Lemma shape_flat_round {A} s (lst : list A) :
  List.length lst = size s ->
  exists p, shape_list lst s 0 = (p, size s) /\ fits s p /\ flat_pst p = map Some lst.
Proof.
  intros H. destruct (shape_list_spec lst s 0) as (E1 & E2 & E3).
  destruct (shape_list lst s 0) as [p i]. cbn [fst snd] in *. exists p. split; [|split].
  - f_equal. lia.
  - apply E3. lia.
  - rewrite E2. cbn [skipn]. rewrite <- H, firstn_all. reflexivity.
Qed.

Lemma drop_none_Some {A} (l : list A) : drop_none (map Some l) = l.
Proof. induction l as [|a l IH]; auto. cbn. now rewrite <- IH at 2. Qed.

Lemma fits_all_some {A} : forall s (p : pst A), fits s p -> exists l, flat_pst p = map Some l.
Proof.
  induction s as [n|l IH] using shape_ind2; intros p Hp.
  - destruct p; cbn in Hp; try contradiction. eexists; reflexivity.
  - destruct p as [|t|ps]; try contradiction. rewrite fits_SList in Hp.
    cbn [flat_pst]. revert ps Hp. induction IH as [|s l Hs _ IH]; intros [|p ps] Hp;
      try contradiction; [exists []; reflexivity|]. destruct Hp as [Hp Hps].
    destruct (Hs _ Hp) as [u Hu], (IH _ Hps) as [w Hw]. exists (u ++ w).
    cbn [flat_map]. now rewrite Hu, Hw, map_app.
Qed.

Lemma shape_list_surplus {A} s (lst extra : list A) :
  List.length lst = size s -> shape_list (lst ++ extra) s 0 = shape_list lst s 0.
Proof.
  intros H. destruct (shape_flat_round s lst H) as (p & E & Hp & Hf). rewrite E.
  destruct (shape_list_spec (lst ++ extra) s 0) as (E1 & E2 & E3).
  destruct (shape_list (lst ++ extra) s 0) as [q i]. cbn [fst snd] in *.
  subst i. f_equal. apply (fits_flat_inj s); auto.
  - apply E3. rewrite app_length. lia.
  - rewrite E2, Hf. cbn [skipn]. rewrite <- H, firstn_app, Nat.sub_diag, firstn_all. cbn.
    now rewrite app_nil_r.
Qed.

Lemma flat_shape_round {A} s (p : pst A) :
  fits s p -> shape_list (drop_none (flat_pst p)) s 0 = (p, size s).
Proof.
  intros Hp. destruct (fits_all_some s p Hp) as [l Hl]. rewrite Hl, drop_none_Some.
  assert (Hn : List.length l = size s).
  { rewrite <- (fits_flat_size _ _ Hp), Hl, map_length. reflexivity. }
  destruct (shape_flat_round s l Hn) as (q & E & Hq & Hf). rewrite E. f_equal.
  apply (fits_flat_inj s); auto. congruence.
Qed.

(** *** Modules *)

Section Mods.
Context {X A : Type}.
Notation om := (@om X A).

(** The state of an object as Python nests it. *)
Fixpoint ostate (m : om) : pst A :=
  match m with
  | OLeaf f (Some s) => PTup s
  | OLeaf f None => PNone
  | OPure _ => PTup []
  | OSeq l | OPar l | OBR l _ => PList (map ostate l)
  | OCond _ a b => PList (ostate a :: match b with Some b => [ostate b] | None => [] end)
  end.

Lemma all_Forall (P : om -> Prop) l : all P l <-> Forall P l.
Proof.
  induction l as [|m l IH]; cbn; split; auto; intros H.
  - destruct H. constructor; auto. now apply IH.
  - inversion H; subst. split; auto. now apply IH.
Qed.

Lemma fits_go_map : forall (l : list om),
  Forall (fun m => full m -> fits (oshape m) (ostate m)) l -> all full l ->
  fits_go (map oshape l) (map ostate l).
Proof.
  induction 1 as [|m l Hm _ IH]; intros H; cbn; auto. destruct H. split; auto.
Qed.

Lemma ostate_fits : forall m : om, full m -> fits (oshape m) (ostate m).
Proof.
  induction m as [f st|g|l IH|l IH|l r IH|c a IH|c a b IHa IHb] using om_ind2; intros H.
  - destruct st as [s|]; cbn in *; auto.
  - reflexivity.
  - cbn [oshape ostate]. rewrite fits_SList. now apply fits_go_map.
  - cbn [oshape ostate]. rewrite fits_SList. now apply fits_go_map.
  - cbn [oshape ostate]. rewrite fits_SList. now apply fits_go_map.
  - cbn [oshape ostate]. rewrite fits_SList. destruct H. cbn. auto.
  - cbn [oshape ostate]. rewrite fits_SList. destruct H. cbn. auto.
Qed.

Lemma flat_ostate : forall m : om, full m -> flat_pst (ostate m) = map Some (tensors m).
Proof.
  assert (L : forall l : list om, Forall (fun m => full m -> flat_pst (ostate m) = map Some (tensors m)) l ->
     all full l -> flat_map flat_pst (map ostate l) = map Some (flat_map tensors l)).
  { induction 1 as [|m l Hm _ IH]; intros H; cbn; auto. destruct H as [H1 H2].
    now rewrite (Hm H1), (IH H2), map_app. }
  induction m as [f st|g|l IH|l IH|l r IH|c a IH|c a b IHa IHb] using om_ind2; intros H.
  - destruct st as [s|]; cbn in *; auto; contradiction.
  - reflexivity.
  - cbn [ostate flat_pst tensors]. auto.
  - cbn [ostate flat_pst tensors]. auto.
  - cbn [ostate flat_pst tensors]. auto.
  - cbn in *. destruct H. rewrite IH, !app_nil_r by auto. reflexivity.
  - cbn in *. destruct H. rewrite IHa, IHb, app_nil_r, map_app by auto. reflexivity.
Qed.

Lemma tensors_size (m : om) : full m -> List.length (tensors m) = size (oshape m).
Proof.
  intros H. rewrite <- (fits_flat_size _ _ (ostate_fits m H)), flat_ostate, map_length; auto.
Qed.

(** Steps do not change declarations. *)
Lemma Ok_inj {T} (a b : T) : Ok a = Ok b -> a = b.
Proof. now injection 1. Qed.

Lemma size0_tensors (m : om) : full m -> size (oshape m) = 0 -> tensors m = [].
Proof.
  intros H E. rewrite <- tensors_size in E by auto. now apply length_zero_iff_nil in E.
Qed.

(** The stepping of an object and of its explicit state. *)
Definition agrees (kw : bool) (m : om) : Prop :=
  exportable kw m -> full m -> forall v,
    match ostep m v with
    | Ok (w, m') =>
        full m' /\ oshape m' = oshape m /\ (forall k, exportable k m -> exportable k m') /\
        exists p', fstep m kw v (ostate m) = Ok (w, p') /\ flat_pst p' = map Some (tensors m')
    | Err e => fstep m kw v (ostate m) = Err e
    end.

Lemma prev_or_states (l : list om) :
  prev_or (PList (map ostate l)) (List.length l) = Ok (map ostate l).
Proof. destruct l; reflexivity. Qed.

Lemma seq_agrees : forall l : list om, Forall (agrees true) l ->
  all (exportable true) l -> all full l -> forall v,
  match seq_go ostep l v with
  | Ok (w, l') =>
      all full l' /\ map oshape l' = map oshape l /\
      all (exportable true) l' /\
      exists ps, seq_sgo (fun m => fstep m true) l v (map ostate l) = Ok (w, ps) /\
                 flat_map flat_pst ps = map Some (flat_map tensors l')
  | Err e => seq_sgo (fun m => fstep m true) l v (map ostate l) = Err e
  end.
Proof.
  assert (T : forall l : list om, all full l -> flat_map flat_pst (map ostate l) = map Some (flat_map tensors l)).
  { induction l as [|m l IH]; cbn; auto. intros [H1 H2]. now rewrite flat_ostate, IH, map_app. }
  induction 1 as [|m l Hm _ IH]; intros He Hf v.
  - cbn. repeat split; auto. exists []. split; reflexivity.
  - destruct He as [He Hel], Hf as [Hf Hfl]. cbn [seq_go map seq_sgo].
    specialize (Hm He Hf v). destruct (ostep m v) as [[w m']|e]; cbn [bind]; [|now rewrite Hm].
    destruct Hm as (Hf' & Hs & Hx & p' & Ep & Fp). rewrite Ep. cbn [bind].
    destruct (no_out w).
    + cbn [all fold_right map]. repeat split; auto; [congruence|].
      exists (p' :: map ostate l). split; [reflexivity|].
      cbn [flat_map]. now rewrite Fp, T, map_app.
    + specialize (IH Hel Hfl w). destruct (seq_go ostep l w) as [[w2 l']|e]; cbn [bind];
        [|now rewrite IH].
      destruct IH as (If & Is & Ix & ps & Ips & Fps). rewrite Ips. cbn [bind].
      cbn [all fold_right map]. repeat split; auto; [congruence|].
      exists (p' :: ps). split; [reflexivity|]. cbn [flat_map]. now rewrite Fp, Fps, map_app.
Qed.

Lemma br_agrees : forall l : list om, Forall (agrees true) l ->
  all (exportable true) l -> all full l -> forall v,
  match br_go ostep l v with
  | Ok (w, l') =>
      all full l' /\ map oshape l' = map oshape l /\
      all (exportable true) l' /\
      exists ps, br_sgo (fun m => fstep m true) l v (map ostate l) = Ok (w, ps) /\
                 flat_map flat_pst ps = map Some (flat_map tensors l')
  | Err e => br_sgo (fun m => fstep m true) l v (map ostate l) = Err e
  end.
Proof.
  induction 1 as [|m l Hm _ IH]; intros He Hf v.
  - cbn. repeat split; auto. exists []. split; reflexivity.
  - destruct He as [He Hel], Hf as [Hf Hfl]. cbn [br_go map br_sgo].
    specialize (Hm He Hf v). destruct (ostep m v) as [[w m']|e]; cbn [bind]; [|now rewrite Hm].
    destruct Hm as (Hf' & Hs & Hx & p' & Ep & Fp). rewrite Ep. cbn [bind].
    specialize (IH Hel Hfl v). destruct (br_go ostep l v) as [[w2 l']|e]; cbn [bind];
        [|now rewrite IH].
    destruct IH as (If & Is & Ix & ps & Ips & Fps). rewrite Ips. cbn [bind].
    cbn [all fold_right map]. repeat split; auto; [congruence|].
    exists (p' :: ps). split; [reflexivity|]. cbn [flat_map]. now rewrite Fp, Fps, map_app.
Qed.

Lemma par_agrees : forall l : list om, Forall (agrees true) l ->
  all (exportable true) l -> all full l -> forall vs,
  match par_go ostep l vs with
  | Ok (w, l') =>
      all full l' /\ map oshape l' = map oshape l /\
      all (exportable true) l' /\
      exists ps, par_sgo (fun m => fstep m true) l vs (map ostate l) = Ok (w, ps) /\
                 flat_map flat_pst ps = map Some (flat_map tensors l')
  | Err e => par_sgo (fun m => fstep m true) l vs (map ostate l) = Err e
  end.
Proof.
  induction 1 as [|m l Hm _ IH]; intros He Hf vs.
  - cbn. repeat split; auto. exists []. split; reflexivity.
  - destruct He as [He Hel], Hf as [Hf Hfl]. cbn [par_go map par_sgo].
    destruct vs as [|v vs]; [reflexivity|].
    specialize (Hm He Hf v). destruct (ostep m v) as [[w m']|e]; cbn [bind]; [|now rewrite Hm].
    destruct Hm as (Hf' & Hs & Hx & p' & Ep & Fp). rewrite Ep. cbn [bind].
    specialize (IH Hel Hfl vs). destruct (par_go ostep l vs) as [[w2 l']|e]; cbn [bind];
        [|now rewrite IH].
    destruct IH as (If & Is & Ix & ps & Ips & Fps). rewrite Ips. cbn [bind].
    cbn [all fold_right map]. repeat split; auto; [congruence|].
    exists (p' :: ps). split; [reflexivity|]. cbn [flat_map]. now rewrite Fp, Fps, map_app.
Qed.

Lemma all_agrees : forall m kw, agrees kw m.
Proof.
  assert (FA : forall l, Forall (fun m : om => forall kw, agrees kw m) l -> Forall (agrees true) l).
  { intros l H. eapply Forall_impl; [|exact H]. cbn. auto. }
  induction m as [f st|g|l IH|l IH|l r IH|c a IH|c a b IHa IHb] using om_ind2;
    intros kw He Hf v.
  - destruct st as [s|]; [|contradiction]. cbn in He, Hf. destruct He as [Hs Hp].
    cbn [ostep fstep ostate].
    replace (negb (kw || l_pos f)) with false
      by (destruct Hp as [->| ->]; [|rewrite orb_true_r]; reflexivity).
    destruct v as [|x|vs]; try reflexivity.
    rewrite Hf, Nat.eqb_refl. cbn [bind]. pose proof (fun y s' => Hs x s y s' Hf) as Hs'.
    destruct (l_step f x (Some s)) as [[y s']|e] eqn:E; cbn [bind]; [|reflexivity].
    specialize (Hs' y s' eq_refl). split; [|split; [|split]]; auto.
    exists (PTup s'). split; reflexivity.
  - cbn [ostep fstep ostate]. destruct (g v) as [w|e]; cbn [bind]; auto.
    repeat split; auto. exists (PTup []). split; reflexivity.
  - cbn [ostep fstep ostate]. rewrite prev_or_states. cbn [bind].
    pose proof (seq_agrees l (FA l IH) He Hf v) as H.
    destruct (seq_go ostep l v) as [[w l']|e]; cbn [bind]; [|now rewrite H].
    destruct H as (H1 & H2 & H3 & ps & E & F). rewrite E. cbn [bind].
    split; [exact H1|]. split; [cbn [oshape]; congruence|]. split; [intros k _; exact H3|].
    exists (PList ps). split; [reflexivity|exact F].
  - cbn [ostep fstep ostate]. destruct v as [|x|vs]; try reflexivity.
    rewrite prev_or_states. cbn [bind].
    pose proof (par_agrees l (FA l IH) He Hf vs) as H.
    destruct (par_go ostep l vs) as [[w l']|e]; cbn [bind]; [|now rewrite H].
    destruct H as (H1 & H2 & H3 & ps & E & F). rewrite E. cbn [bind].
    split; [exact H1|]. split; [cbn [oshape]; congruence|]. split; [intros k _; exact H3|].
    exists (PList ps). split; [reflexivity|exact F].
  - cbn [ostep fstep ostate]. rewrite prev_or_states. cbn [bind].
    pose proof (br_agrees l (FA l IH) He Hf v) as H.
    destruct (br_go ostep l v) as [[w l']|e]; cbn [bind]; [|now rewrite H].
    destruct H as (H1 & H2 & H3 & ps & E & F). rewrite E. cbn [bind].
    destruct (reduced r w); cbn [bind]; [|reflexivity].
    split; [exact H1|]. split; [cbn [oshape]; congruence|]. split; [intros k _; exact H3|].
    exists (PList ps). split; [reflexivity|exact F].
  - cbn in He, Hf. destruct He as [He _], Hf as [Hf _].
    cbn [ostep fstep ostate prev_or bind]. specialize (IH false He Hf v).
    destruct (c v).
    + destruct (ostep a v) as [[w a']|e]; cbn [bind]; [|exact IH].
      destruct IH as (H1 & H2 & H3 & p' & E & F).
      split; [cbn; auto|]. split; [cbn [oshape]; congruence|].
      split; [intros k [Hk _]; cbn; auto|].
      exists p'. split; [exact E|]. cbn [tensors]. now rewrite app_nil_r.
    + split; [cbn; auto|]. split; [reflexivity|]. split; [auto|].
      eexists. split; [reflexivity|]. cbn [flat_pst flat_map tensors].
      now rewrite !app_nil_r, flat_ostate.
  - cbn in He, Hf. destruct He as (Hea & Heb & Sa & Sb), Hf as [Hfa Hfb].
    cbn [ostep fstep ostate prev_or bind]. specialize (IHa false Hea Hfa v).
    specialize (IHb false Heb Hfb v).
    destruct (c v).
    + destruct (ostep a v) as [[w a']|e]; cbn [bind]; [|exact IHa].
      destruct IHa as (H1 & H2 & H3 & p' & E & F).
      split; [cbn; auto|]. split; [cbn [oshape]; congruence|].
      split; [intros k (Hk & Hl & ?); cbn; rewrite H2; auto|].
      exists p'. split; [exact E|]. cbn [tensors].
      now rewrite (size0_tensors b), app_nil_r by auto.
    + destruct (ostep b v) as [[w b']|e]; cbn [bind]; [|exact IHb].
      destruct IHb as (H1 & H2 & H3 & p' & E & F).
      split; [cbn; auto|]. split; [cbn [oshape]; congruence|].
      split; [intros k (Hk & Hl & ?); cbn; rewrite H2; auto|].
      exists p'. split; [exact E|]. cbn [tensors].
      now rewrite (size0_tensors a) by auto.
Qed.

Lemma feed_Some (l : list A) : feed (map Some l) = Ok l.
Proof. induction l as [|a l IH]; auto. cbn [map feed]. now rewrite IH. Qed.

Lemma drop_tensors (m : om) : full m -> drop_none (flat_pst (ostate m)) = tensors m.
Proof. intros H. now rewrite flat_ostate, drop_none_Some. Qed.

Lemma wrapper_step (m : om) x :
  exportable false m -> full m ->
  wrapper m x (tensors m) =
  match ostep m (OX x) with
  | Ok (y, m') => Ok (y, map Some (tensors m'))
  | Err e => Err e
  end.
Proof.
  intros He Hf. unfold wrapper. rewrite <- (drop_tensors m Hf) at 1.
  rewrite flat_shape_round by now apply ostate_fits.
  pose proof (all_agrees m false He Hf (OX x)) as H.
  destruct (ostep m (OX x)) as [[y m']|e].
  - destruct H as (_ & _ & _ & p' & E & F). rewrite E. cbn [bind]. now rewrite F.
  - now rewrite H.
Qed.

Lemma wrapper_surplus (m : om) x extra :
  full m -> wrapper m x (tensors m ++ extra) = wrapper m x (tensors m).
Proof.
  intros Hf. unfold wrapper. rewrite shape_list_surplus by now apply tensors_size. reflexivity.
Qed.

(** A module that takes the key as its second argument cannot be exported alone. *)
Lemma wrapper_positional (f : @leaf X A) st x states :
  l_pos f = false -> wrapper (OLeaf f st) x states = Err TypeError.
Proof. intros H. unfold wrapper. cbn. now rewrite H. Qed.

(** The exported function does not depend on the states stored in the object. *)
Fixpoint erase (m : om) : om :=
  match m with
  | OLeaf f _ => OLeaf f None
  | OPure g => OPure g
  | OSeq l => OSeq (map erase l)
  | OPar l => OPar (map erase l)
  | OBR l r => OBR (map erase l) r
  | OCond c a b => OCond c (erase a) (match b with Some b => Some (erase b) | None => None end)
  end.

Lemma erase_shape : forall m, oshape (erase m) = oshape m.
Proof.
  assert (L : forall l : list om, Forall (fun m => oshape (erase m) = oshape m) l ->
                        map oshape (map erase l) = map oshape l).
  { induction 1 as [|m l Hm _ IH]; cbn; congruence. }
  induction m as [f st|g|l IH|l IH|l r IH|c a IH|c a b IHa IHb] using om_ind2; cbn [erase oshape];
    try reflexivity; try (now rewrite L); congruence.
Qed.

Lemma erase_fstep : forall (m : om) kw v p, fstep (erase m) kw v p = fstep m kw v p.
Proof.
  induction m as [f st|g|l IH|l IH|l r IH|c a IH|c a b IHa IHb] using om_ind2; intros kw v p;
    cbn [erase fstep]; try reflexivity.
  - rewrite map_length. destruct (prev_or p (List.length l)) as [ps|]; cbn [bind]; auto.
    enough (E : seq_sgo (fun m => fstep m true) (map erase l) v ps
                = seq_sgo (fun m => fstep m true) l v ps) by now rewrite E.
    clear p. revert v ps. induction IH as [|m l Hm _ IH]; intros v ps; auto.
    cbn [map seq_sgo]. destruct ps as [|p ps]; auto. rewrite Hm.
    destruct (fstep m true v p) as [[w p']|]; cbn [bind]; auto.
    destruct (no_out w); auto. now rewrite IH.
  - destruct v as [|x|vs]; auto.
    rewrite map_length. destruct (prev_or p (List.length l)) as [ps|]; cbn [bind]; auto.
    enough (E : par_sgo (fun m => fstep m true) (map erase l) vs ps
                = par_sgo (fun m => fstep m true) l vs ps) by now rewrite E.
    clear p. revert vs ps. induction IH as [|m l Hm _ IH]; intros vs ps; auto.
    cbn [map par_sgo]. destruct vs as [|v vs]; auto. destruct ps as [|p ps]; auto. rewrite Hm.
    destruct (fstep m true v p) as [[w p']|]; cbn [bind]; auto. now rewrite IH.
  - rewrite map_length. destruct (prev_or p (List.length l)) as [ps|]; cbn [bind]; auto.
    enough (E : br_sgo (fun m => fstep m true) (map erase l) v ps
                = br_sgo (fun m => fstep m true) l v ps) by now rewrite E.
    clear p. revert ps. induction IH as [|m l Hm _ IH]; intros ps; auto.
    cbn [map br_sgo]. destruct ps as [|p ps]; auto. rewrite Hm.
    destruct (fstep m true v p) as [[w p']|]; cbn [bind]; auto. now rewrite IH.
  - destruct (prev_or p 2) as [ps|]; cbn [bind]; auto. destruct (c v); auto.
    destruct ps; auto.
  - destruct (prev_or p 2) as [ps|]; cbn [bind]; auto. destruct (c v); auto.
    + destruct ps; auto.
    + destruct ps as [|? [|? ?]]; auto.
Qed.

Lemma erase_ostep : forall (m : om) v w m', ostep m v = Ok (w, m') -> erase m' = erase m.
Proof.
  induction m as [f st|g|l IH|l IH|l r IH|c a IH|c a b IHa IHb] using om_ind2; intros v w m' E;
    cbn [ostep] in E.
  - destruct v as [|x|vs]; try discriminate.
    destruct (l_step f x _) as [[y s']|]; [|discriminate]. cbn [bind] in E. apply Ok_inj in E. inversion E; subst. reflexivity.
  - destruct (g v); cbn [bind] in E; [|discriminate]. apply Ok_inj in E. now inversion E.
  - destruct (seq_go ostep l v) as [[w1 l']|] eqn:G; cbn [bind] in E; [|discriminate].
    apply Ok_inj in E. inversion E; subst. cbn [erase]. f_equal. clear E.
    revert v w l' G. induction IH as [|m l Hm _ IH]; intros v w l' G; cbn [seq_go] in G.
    + apply Ok_inj in G. now inversion G.
    + destruct (ostep m v) as [[w1 m1]|] eqn:Em; cbn [bind] in G; [|discriminate].
      apply Hm in Em. destruct (no_out w1).
      * apply Ok_inj in G. inversion G; subst. cbn. congruence.
      * destruct (seq_go ostep l w1) as [[w2 l2]|] eqn:El; cbn [bind] in G; [|discriminate].
        apply IH in El. apply Ok_inj in G. inversion G; subst. cbn. congruence.
  - destruct v as [|x|vs]; try discriminate.
    destruct (par_go ostep l vs) as [[w1 l']|] eqn:G; cbn [bind] in E; [|discriminate].
    apply Ok_inj in E. inversion E; subst. cbn [erase]. f_equal. clear E.
    revert vs w1 l' G. induction IH as [|m l Hm _ IH]; intros vs w1 l' G; cbn [par_go] in G.
    + apply Ok_inj in G. now inversion G.
    + destruct vs as [|v vs]; [discriminate|].
      destruct (ostep m v) as [[w2 m1]|] eqn:Em; cbn [bind] in G; [|discriminate].
      apply Hm in Em.
      destruct (par_go ostep l vs) as [[w3 l2]|] eqn:El; cbn [bind] in G; [|discriminate].
      apply IH in El. apply Ok_inj in G. inversion G; subst. cbn. congruence.
  - destruct (br_go ostep l v) as [[w1 l']|] eqn:G; cbn [bind] in E; [|discriminate].
    destruct (reduced r w1); cbn [bind] in E; [|discriminate].
    apply Ok_inj in E. inversion E; subst. cbn [erase]. f_equal. clear E.
    revert w1 l' G. induction IH as [|m l Hm _ IH]; intros w1 l' G; cbn [br_go] in G.
    + apply Ok_inj in G. now inversion G.
    + destruct (ostep m v) as [[w2 m1]|] eqn:Em; cbn [bind] in G; [|discriminate].
      apply Hm in Em.
      destruct (br_go ostep l v) as [[w3 l2]|] eqn:El; cbn [bind] in G; [|discriminate].
      specialize (IH _ _ eq_refl). apply Ok_inj in G. inversion G; subst. cbn. congruence.
  - destruct (c v).
    + destruct (ostep a v) as [[w1 a1]|] eqn:Ea; cbn [bind] in E; [|discriminate].
      apply IH in Ea. apply Ok_inj in E. inversion E; subst. cbn. congruence.
    + apply Ok_inj in E. now inversion E.
  - destruct (c v).
    + destruct (ostep a v) as [[w1 a1]|] eqn:Ea; cbn [bind] in E; [|discriminate].
      apply IHa in Ea. apply Ok_inj in E. inversion E; subst. cbn. congruence.
    + destruct (ostep b v) as [[w1 b1]|] eqn:Eb; cbn [bind] in E; [|discriminate].
      apply IHb in Eb. apply Ok_inj in E. inversion E; subst. cbn. congruence.
Qed.

Lemma wrapper_erase (m m' : om) x st : erase m = erase m' -> wrapper m x st = wrapper m' x st.
Proof.
  intros E. unfold wrapper. rewrite <- (erase_shape m), E, erase_shape.
  destruct (shape_list st (oshape m') 0) as [p i].
  now rewrite <- (erase_fstep m), E, erase_fstep.
Qed.

Lemma wrun_erase (m m' : om) : erase m = erase m' -> forall xs st, wrun m st xs = wrun m' st xs.
Proof.
  intros E. induction xs as [|x xs IH]; intros st; auto. cbn [wrun].
  rewrite (wrapper_erase m m' x st E). destruct (wrapper m' x st) as [[y l]|]; cbn [bind]; auto.
  destruct (feed l); cbn [bind]; auto. now rewrite IH.
Qed.

Lemma wrun_orun : forall xs (m : om),
  exportable false m -> full m ->
  wrun m (tensors m) xs =
  match orun m xs with
  | Ok (ys, m') => Ok (ys, tensors m')
  | Err e => Err e
  end.
Proof.
  induction xs as [|x xs IH]; intros m He Hf; auto. cbn [wrun orun].
  rewrite wrapper_step by auto.
  pose proof (all_agrees m false He Hf (OX x)) as H.
  destruct (ostep m (OX x)) as [[y m']|e] eqn:E; cbn [bind]; auto.
  destruct H as (Hf' & _ & Hx & _). rewrite feed_Some. cbn [bind].
  rewrite (wrun_erase m m') by (symmetry; eapply erase_ostep; eauto).
  rewrite IH by auto. destruct (orun m' xs) as [[ys m'']|]; reflexivity.
Qed.

(** *** Names *)

Lemma odyn_fits : forall m : om, fits (oshape m) (odyn m).
Proof.
  assert (L : forall l : list om, Forall (fun m => fits (oshape m) (odyn m)) l ->
                fits_go (map oshape l) (map odyn l)).
  { induction 1; cbn; auto. }
  induction m as [f st|g|l IH|l IH|l r IH|c a IH|c a b IHa IHb] using om_ind2;
    cbn [oshape odyn]; try rewrite fits_SList; try (now apply L); cbn; auto.
Qed.

Lemma flat_odyn : forall m : om, flat_pst (odyn m) = map Some (flags m).
Proof.
  assert (L : forall l : list om, Forall (fun m => flat_pst (odyn m) = map Some (flags m)) l ->
                flat_map flat_pst (map odyn l) = map Some (flat_map flags l)).
  { induction 1 as [|m l Hm _ IH]; cbn; auto. now rewrite Hm, IH, map_app. }
  induction m as [f st|g|l IH|l IH|l r IH|c a IH|c a b IHa IHb] using om_ind2;
    cbn [flags odyn flat_pst]; try reflexivity; try (now apply L).
  - cbn. now rewrite IH, !app_nil_r.
  - cbn. now rewrite IHa, IHb, app_nil_r, map_app.
Qed.

Lemma flags_length m : List.length (@flags X A m) = size (oshape m).
Proof. rewrite <- (fits_flat_size _ _ (odyn_fits m)), flat_odyn, map_length. reflexivity. Qed.

Lemma names_length (m : om) : List.length (state_input_names m) = size (oshape m).
Proof. unfold state_input_names. rewrite map_length, seq_length. apply list_sum_flat_shape. Qed.

Lemma nat_str_inj i j : nat_str i = nat_str j -> i = j.
Proof.
  unfold nat_str. intros E. apply (f_equal NilEmpty.uint_of_string) in E.
  rewrite !NilEmpty.usu in E. injection E as E. now apply Unsigned.to_uint_inj.
Qed.

Lemma NoDup_map_inj {U V} (f : U -> V) (l : list U) :
  (forall a b, f a = f b -> a = b) -> NoDup l -> NoDup (map f l).
Proof.
  intros Hf. induction 1 as [|a l Hn _ IH]; cbn; constructor; auto.
  rewrite in_map_iff. intros (b & E & Hb). apply Hf in E. now subst.
Qed.

Lemma names_NoDup (m : om) : NoDup (state_input_names m ++ state_output_names m).
Proof.
  assert (H : NoDup (state_input_names m)).
  { apply NoDup_map_inj; [|apply seq_NoDup]. intros i j E. injection E as E. now apply nat_str_inj. }
  assert (H2 : NoDup (state_output_names m)).
  { apply NoDup_map_inj; auto. intros a b E. now injection E. }
  assert (D : forall s, In s (state_input_names m) -> ~ In s (state_output_names m)).
  { unfold state_output_names, state_input_names. intros s Hs Ho.
    apply in_map_iff in Hs. destruct Hs as (i & <- & _).
    apply in_map_iff in Ho. destruct Ho as (t & E & _). discriminate. }
  clear - H H2 D. induction (state_input_names m) as [|a l IH] in H, D |- *; auto.
  cbn. inversion H; subst. constructor.
  - rewrite in_app_iff. intros [?|?]; [contradiction|]. eapply D; [left; reflexivity|auto].
  - apply IH; auto. intros s Hs. apply D. now right.
Qed.

Lemma in_dynamic (m : om) s : In s (dynamic_inputs m) <->
  exists i, s = String "s"%char (nat_str i) /\ nth_error (flags m) i = Some true.
Proof.
  unfold dynamic_inputs, state_input_names. rewrite flat_odyn, drop_none_Some, list_sum_flat_shape.
  rewrite <- flags_length.
  assert (G : forall (fl : list bool) k,
    In s (map fst (filter snd (combine (map (fun i => String "s"%char (nat_str i))
            (seq k (List.length fl))) fl))) <->
    exists i, s = String "s"%char (nat_str (k + i)) /\ nth_error fl i = Some true).
  { induction fl as [|b fl IH]; intros k; cbn [List.length seq map combine filter].
    - cbn. split; [tauto|]. intros ([|i] & _ & E); discriminate.
    - assert (Q : (exists i, s = String "s"%char (nat_str (S k + i)) /\ nth_error fl i = Some true) <->
                  (exists i, s = String "s"%char (nat_str (k + S i)) /\ nth_error (b :: fl) (S i) = Some true)).
      { split; intros (i & E1 & E2); exists i; rewrite E1;
          (split; [do 2 f_equal; lia | exact E2]). }
      specialize (IH (S k)). destruct b; cbn [snd filter map fst].
      + cbn [In]. rewrite IH, Q. split.
        * intros [<-|(i & Hi)]; [exists 0; rewrite Nat.add_0_r; split; auto | exists (S i); auto].
        * intros ([|i] & E1 & E2); [left; rewrite Nat.add_0_r in E1; auto | right; exists i; auto].
      + rewrite IH, Q. split.
        * intros (i & Hi). exists (S i); auto.
        * intros ([|i] & E1 & E2); [discriminate | exists i; auto]. }
  apply (G (flags m) 0).
Qed.

(** *** Conditionals with two branches *)

Lemma cond_states c (a b : om) x st :
  exportable false a -> exportable false b -> full a -> full b ->
  st = tensors (OCond c a (Some b)) ->
  match wrapper (OCond c a (Some b)) x st with
  | Ok (y, out) =>
      exists m', ostep (if c (OX x) then a else b) (OX x) = Ok (y, m') /\ out = map Some (tensors m')
  | Err e => ostep (if c (OX x) then a else b) (OX x) = Err e
  end.
Proof.
  intros Ea Eb Fa Fb ->. unfold wrapper.
  assert (Ff : full (OCond c a (Some b))) by (cbn; auto).
  rewrite <- (drop_tensors _ Ff). rewrite flat_shape_round by now apply ostate_fits.
  cbn [fstep ostate prev_or bind].
  pose proof (all_agrees a false Ea Fa (OX x)) as Ha.
  pose proof (all_agrees b false Eb Fb (OX x)) as Hb.
  destruct (c (OX x)).
  - destruct (ostep a (OX x)) as [[w m']|e].
    + destruct Ha as (_ & _ & _ & p' & E & F). rewrite E. cbn [bind]. exists m'. auto.
    + rewrite Ha. reflexivity.
  - destruct (ostep b (OX x)) as [[w m']|e].
    + destruct Hb as (_ & _ & _ & p' & E & F). rewrite E. cbn [bind]. exists m'. auto.
    + rewrite Hb. reflexivity.
Qed.

Lemma cond_count c (a b : om) x y out :
  exportable false a -> exportable false b -> full a -> full b ->
  wrapper (OCond c a (Some b)) x (tensors (OCond c a (Some b))) = Ok (y, out) ->
  List.length out = size (oshape (if c (OX x) then a else b)) /\
  List.length (state_output_names (OCond c a (Some b)))
    = size (oshape a) + size (oshape b).
Proof.
  intros Ea Eb Fa Fb E.
  pose proof (cond_states c a b x _ Ea Eb Fa Fb eq_refl) as H. rewrite E in H.
  destruct H as (m' & Em & ->). split.
  - rewrite map_length.
    assert (Hq : exportable false (if c (OX x) then a else b) /\ full (if c (OX x) then a else b))
      by (destruct (c (OX x)); auto).
    destruct Hq as [Q1 Q2].
    pose proof (all_agrees _ false Q1 Q2 (OX x)) as H. rewrite Em in H.
    destruct H as (H1 & H2 & _). rewrite tensors_size by auto. now rewrite H2.
  - unfold state_output_names. rewrite map_length, names_length. cbn. lia.
Qed.

End Mods.
