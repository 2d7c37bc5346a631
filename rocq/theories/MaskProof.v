(** Proofs about masked attention. *)
From Coq Require Import List ZArith Bool Arith Lia.
From Verif Require Import Base Attn AttnSpec AttnProof AttnThm Mask MaskSpec.
Import ListNotations.

Lemma nth_seq_list {A} (l : list A) d : map (fun j => nth j l d) (seq 0 (length l)) = l.
Proof.
  apply nth_ext with (d := d) (d' := d); rewrite map_length, seq_length; auto.
  intros n Hn. rewrite nth_indep with (d' := nth 0 l d) by (rewrite map_length, seq_length; auto).
  rewrite map_nth with (f := fun j => nth j l d). rewrite seq_nth by auto. reflexivity.
Qed.

Lemma select_nth {A} (p : nat -> bool) (l : list A) d : select p l = map (fun j => nth j l d) (filter p (seq 0 (length l))).
Proof.
  unfold select.
  assert (G : forall (l' : list A) a, (forall j, j < length l' -> nth (a + j) l d = nth j l' d) ->
     map snd (filter (fun x => p (fst x)) (combine (seq a (length l')) l')) =
     map (fun j => nth j l d) (filter p (seq a (length l')))).
  { induction l' as [|x l' IH]; intros a H; [reflexivity|]. cbn.
    assert (R : map snd (filter (fun x0 => p (fst x0)) (combine (seq (S a) (length l')) l')) = map (fun j => nth j l d) (filter p (seq (S a) (length l')))).
    { apply IH. intros j Hj. replace (S a + j) with (a + S j) by lia. apply H. cbn. lia. }
    destruct (p a); cbn; [|exact R]. rewrite R. f_equal. specialize (H 0). cbn in H. rewrite Nat.add_0_r in H. symmetry; apply H; lia. }
  apply G. intros. reflexivity.
Qed.

Section Masked.
Context {K : Type} {NK : Num K}.
Notation vec := (vec K).

Lemma check_ok H L S kpm am : masks_fit (K := K) H L S kpm am -> check_masks H L S kpm am = Ok tt.
Proof.
  assert (T : forall m, table_fits (K := K) L S m -> has_shape L S m = true).
  { intros m [A B]. unfold has_shape. rewrite A, Nat.eqb_refl. cbn. apply forallb_forall. rewrite Forall_forall in B.
    intros r R. apply Nat.eqb_eq. auto. }
  intros [Hp Hm]. unfold check_masks.
  assert (Q : match kpm with None => Ok tt | Some p => if Nat.eqb (length p) S then Ok tt else Err AssertionError end = Ok tt).
  { destruct kpm; [rewrite Hp, Nat.eqb_refl|]; reflexivity. }
  destruct am as [[m|ms]|]; cbn.
  - rewrite (T _ Hm). exact Q.
  - destruct Hm as [A B]. rewrite A, Nat.eqb_refl. cbn.
    replace (forallb (has_shape L S) ms) with true; [exact Q|]. symmetry. apply forallb_forall. rewrite Forall_forall in B. auto.
  - exact Q.
Qed.
Lemma check_fits H L S kpm am : check_masks (K := K) H L S kpm am = Ok tt -> masks_fit H L S kpm am.
Proof.
  assert (T : forall m, has_shape (K := K) L S m = true -> table_fits L S m).
  { intros m A. apply andb_true_iff in A. destruct A as [A B]. split; [now apply Nat.eqb_eq|].
    apply Forall_forall. rewrite forallb_forall in B. intros r R. apply Nat.eqb_eq. auto. }
  unfold check_masks, masks_fit. intro C.
  destruct am as [[m|ms]|].
  - destruct (has_shape L S m) eqn:E; [|discriminate]. split; [|auto]. cbn in C. destruct kpm; [|exact I].
    destruct (Nat.eqb_spec (length l) S); [assumption|discriminate].
  - destruct (Nat.eqb (length ms) H && forallb (has_shape L S) ms) eqn:E; [|discriminate].
    apply andb_true_iff in E. destruct E as [E1 E2]. split.
    + cbn in C. destruct kpm; [|exact I]. destruct (Nat.eqb_spec (length l) S); [assumption|discriminate].
    + split; [now apply Nat.eqb_eq|]. apply Forall_forall. rewrite forallb_forall in E2. auto.
  - split; [|exact I]. cbn in C. destruct kpm; [|exact I]. destruct (Nat.eqb_spec (length l) S); [assumption|discriminate].
Qed.
Lemma check_err H L S kpm am e : check_masks (K := K) H L S kpm am = Err e -> ~ masks_fit H L S kpm am.
Proof. intros C F. rewrite (check_ok _ _ _ _ _ F) in C. discriminate. Qed.

(** The merged row, entry by entry. *)
Lemma row_len H L S kpm am h i : masks_fit (K := K) H L S kpm am -> h < H -> i < L ->
  match am with Some m => length (nth i (of_head m h) []) = S | None => True end.
Proof.
  intros [_ F] Hh Hi. destruct am as [[m|ms]|]; [| |exact I]; cbn.
  - destruct F as [A B]. rewrite Forall_forall in B. apply B, nth_In. lia.
  - destruct F as [A B]. rewrite Forall_forall in B. destruct (B (nth h ms [])) as [C D]; [apply nth_In; lia|].
    rewrite Forall_forall in D. apply D, nth_In. lia.
Qed.
Lemma merge_entry H L S kpm am h i : masks_fit (K := K) H L S kpm am -> h < H -> i < L ->
  merge S kpm (option_map (fun m => nth i (of_head m h) []) am) = map (entry kpm am h i) (seq 0 S).
Proof.
  intros F Hh Hi. pose proof (row_len _ _ _ _ _ _ _ F Hh Hi) as R. destruct F as [P _].
  set (row := match option_map (fun m => nth i (of_head m h) []) am with Some r => r | None => repeat Keep S end).
  assert (Lr : length row = S).
  { unfold row. destruct am; cbn; [exact R|apply repeat_length]. }
  assert (Er : forall j, nth j row Keep = match am with Some m => nth j (nth i (of_head m h) []) Keep | None => Keep end).
  { intro j. unfold row. destruct am; cbn; [reflexivity|]. destruct (Nat.lt_ge_cases j S).
    - apply nth_repeat.
    - apply nth_overflow. rewrite repeat_length. lia. }
  unfold merge. fold row. unfold entry. destruct kpm as [p|].
  - rewrite <- (nth_seq_list row Keep) at 1. rewrite <- (nth_seq_list p false) at 1. rewrite Lr, P.
    rewrite map2_maps. apply map_ext. intro j. rewrite Er. reflexivity.
  - rewrite <- (nth_seq_list row Keep) at 1. rewrite Lr. apply map_ext. intro j. rewrite Er. reflexivity.
Qed.

(** With nothing hidden it is the ordinary softmax. *)
Lemma masked_keep n xs : length xs = n -> masked_softmax (repeat Keep n) xs = softmax (K := K) xs.
Proof.
  intro E. subst n. unfold masked_softmax, softmax.
  replace (map2 weight (repeat Keep (length xs)) xs) with (map kexp xs); [reflexivity|].
  induction xs; cbn; congruence.
Qed.
End Masked.

Section Laws.
Context {K : Type} {NK : Num K} {NL : NumLaws K}.
Notation vec := (vec K).
Add Ring num_mask : (num_ring (K := K)).

Lemma kmul_0_l (a : K) : kmul k0 a = k0. Proof. ring. Qed.
Lemma kdiv_0_l (a : K) : kdiv k0 a = k0. Proof. rewrite kdiv_mul. ring. Qed.
Lemma ksum_filter {A} (p : A -> bool) (f g : A -> K) l : (forall a, p a = true -> g a = f a) -> (forall a, p a = false -> g a = k0) ->
  ksum (map g l) = ksum (map f (filter p l)).
Proof.
  intros T F. induction l as [|a l IH]; [reflexivity|]. cbn. change (fold_right kadd k0) with (@ksum K NK). rewrite IH.
  destruct (p a) eqn:E; cbn; [rewrite T by assumption; reflexivity|]. rewrite F by assumption. ring.
Qed.
Lemma ksum_div {A} (f : A -> K) d l : ksum (map (fun a => kdiv (f a) d) l) = kdiv (ksum (map f l)) d.
Proof.
  induction l as [|a l IH]; cbn; [now rewrite kdiv_0_l|]. change (fold_right kadd k0) with (@ksum K NK). rewrite IH.
  rewrite !(kdiv_mul (f a)), !(kdiv_mul (ksum _)), (kdiv_mul (kadd _ _)). ring.
Qed.
Lemma ksum_ext {A} (f g : A -> K) l : (forall a, f a = g a) -> ksum (map f l) = ksum (map g l).
Proof. intro H. f_equal. apply map_ext. exact H. Qed.

Definition mof (x : mentry K * vec * vec) := fst (fst x).
Definition kof (x : mentry K * vec * vec) := snd (fst x).
Definition vof (x : mentry K * vec * vec) := snd x.
Definition wof E q (x : mentry K * vec * vec) : K := weight (mof x) (dot E q (kof x)).
Definition sof E q (x : mentry K * vec * vec) : K := score E q (mof x) (kof x).
Lemma weights_of E q l :
  masked_softmax (map mof l) (map (dot E q) (map kof l)) = map (fun x => kdiv (wof E q x) (ksum (map (wof E q) l))) l.
Proof.
  unfold masked_softmax. rewrite map_map, map2_maps, map_map. reflexivity.
Qed.
Lemma w_shown E q x : shown (mof x) = true -> wof E q x = sof E q x.
Proof. unfold wof, sof. destruct (mof x); cbn; congruence. Qed.
Lemma w_hidden E q x : shown (mof x) = false -> wof E q x = k0.
Proof. unfold wof. destruct (mof x); cbn; congruence. Qed.
Lemma wsum_shown E q l :
  wsum E (masked_softmax (map mof l) (map (dot E q) (map kof l))) (map vof l)
  = tab E (shown_mean E q (filter (fun x => shown (mof x)) l)).
Proof.
  rewrite weights_of. unfold wsum, shown_mean. apply tab_ext. intros e _. rewrite map2_maps.
  set (D := ksum (map (wof E q) l)).
  assert (ED : D = ksum (map (sof E q) (filter (fun x => shown (mof x)) l))).
  { unfold D. apply ksum_filter; [apply w_shown|apply w_hidden]. }
  rewrite (ksum_ext (fun x => kmul (kdiv (wof E q x) D) (at_ (vof x) e)) (fun x => kdiv (kmul (wof E q x) (at_ (vof x) e)) D)).
  2:{ intro x. rewrite (kdiv_mul (wof E q x)), (kdiv_mul (kmul _ _)). ring. }
  rewrite ksum_div. f_equal.
  - rewrite (ksum_filter (fun x => shown (mof x)) (fun x => kmul (sof E q x) (at_ (vof x) e))).
    + apply ksum_ext. intros [[m k] v]. reflexivity.
    + intros a A. rewrite w_shown by assumption. reflexivity.
    + intros a A. rewrite w_hidden by assumption. ring.
  - rewrite ED. apply ksum_ext. intros [[m k] v]. reflexivity.
Qed.

(** All keys with their entries. *)
Definition everything (c : cfg K) kpm am h i (ks vs : list vec) : list (mentry K * vec * vec) :=
  map (fun j => (entry kpm am h i j, nth h (c_k c (nth j ks [])) [], nth h (c_v c (nth j vs [])) [])) (seq 0 (length ks))
  ++ map (fun '(k, v) => (Keep, k, v)) (combine (extras c fst h) (extras c snd h)).
Lemma filter_map {A B} (p : B -> bool) (f : A -> B) l : filter p (map f l) = map f (filter (fun a => p (f a)) l).
Proof. induction l as [|a l IH]; [reflexivity|]. cbn. destruct (p (f a)); cbn; congruence. Qed.
Lemma everything_shown c kpm am h i ks vs :
  filter (fun x => shown (mof x)) (everything c kpm am h i ks vs) = in_sight c kpm am h i ks vs.
Proof.
  unfold everything, in_sight. rewrite filter_app, filter_map. f_equal.
  rewrite filter_map. f_equal. generalize (combine (extras c fst h) (extras c snd h)) as l.
  induction l as [|[a b] l IH]; [reflexivity|]. cbn. rewrite IH. reflexivity.
Qed.
Lemma extras_len (c : cfg K) h : length (extras c fst h) = length (extras c snd h).
Proof. unfold extras. rewrite !app_length. destruct (c_bias c); reflexivity. Qed.
Lemma map_combine_fst {A B} (l : list A) (m : list B) : length l = length m -> map fst (combine l m) = l.
Proof. revert m. induction l; intros [|b m]; cbn; intros; try discriminate; [reflexivity|]. f_equal. auto. Qed.
Lemma map_combine_snd {A B} (l : list A) (m : list B) : length l = length m -> map snd (combine l m) = m.
Proof. revert m. induction l; intros [|b m]; cbn; intros; try discriminate; [reflexivity|]. f_equal. auto. Qed.
Lemma everything_m c kpm am h i ks vs : map mof (everything c kpm am h i ks vs) =
  map (entry kpm am h i) (seq 0 (length ks)) ++ repeat Keep (length (extras c fst h)).
Proof.
  unfold everything. rewrite map_app, !map_map. f_equal.
  assert (L : length (combine (extras c fst h) (extras c snd h)) = length (extras c fst h)).
  { rewrite combine_length, <- extras_len. apply Nat.min_id. }
  rewrite <- L. generalize (combine (extras c fst h) (extras c snd h)) as l.
  induction l as [|[a b] l IH]; [reflexivity|]. cbn. rewrite IH. reflexivity.
Qed.
Lemma everything_k c kpm am h i ks vs : map kof (everything c kpm am h i ks vs) =
  map (fun k => nth h (c_k c k) []) ks ++ extras c fst h.
Proof.
  unfold everything. rewrite map_app, !map_map. f_equal.
  - transitivity (map (fun k => nth h (c_k c k) []) (map (fun j => nth j ks []) (seq 0 (length ks)))).
    + rewrite map_map. reflexivity.
    + f_equal. apply nth_seq_list.
  - transitivity (map fst (combine (extras c fst h) (extras c snd h))); [apply map_ext; intros [a b]; reflexivity|].
    apply map_combine_fst, extras_len.
Qed.
Lemma everything_v c kpm am h i ks vs : length vs = length ks -> map vof (everything c kpm am h i ks vs) =
  map (fun v => nth h (c_v c v) []) vs ++ extras c snd h.
Proof.
  intro L. unfold everything. rewrite map_app, !map_map. f_equal.
  - transitivity (map (fun v => nth h (c_v c v) []) (map (fun j => nth j vs []) (seq 0 (length vs)))).
    + rewrite map_map, L. reflexivity.
    + f_equal. apply nth_seq_list.
  - transitivity (map snd (combine (extras c fst h) (extras c snd h))); [apply map_ext; intros [a b]; reflexivity|].
    apply map_combine_snd, extras_len.
Qed.

(** The row of weights of a query in a head. *)
Lemma softmax_row c kpm am h i qs ks vs : masks_fit (c_H c) (length qs) (length ks) kpm am -> h < c_H c -> i < length qs ->
  masked_softmax
    (merge (length ks) kpm (option_map (fun m => nth i (of_head m h) []) am)
     ++ repeat Keep (length (match c_bias c with Some p => [head h (fst p)] | None => [] end)
                     + length (if c_zero_attn c then [tab (c_E c) (fun _ => k0)] else [])))
    (map (dot (c_E c) (map (c_scale c) (head h (c_q c (nth i qs [])))))
      (map (fun k => head h (c_k c k)) ks ++ (match c_bias c with Some p => [head h (fst p)] | None => [] end)
       ++ (if c_zero_attn c then [tab (c_E c) (fun _ => k0)] else [])))
  = masked_softmax (map mof (everything c kpm am h i ks vs))
      (map (dot (c_E c) (map (c_scale c) (nth h (c_q c (nth i qs [])) []))) (map kof (everything c kpm am h i ks vs))).
Proof.
  intros F Hh Hi. rewrite everything_m, everything_k, (merge_entry _ _ _ _ _ _ _ F Hh Hi).
  unfold extras, head. rewrite app_length. reflexivity.
Qed.

Theorem masked_ok c kpm am need qs ks vs : length vs = length ks -> masks_fit (c_H c) (length qs) (length ks) kpm am ->
  exists w, mha_masked c kpm am need qs ks vs =
    Ok (map (fun i => attended c kpm am i (nth i qs []) ks vs) (seq 0 (length qs)), w).
Proof.
  intros L F. unfold mha_masked. rewrite (check_ok _ _ _ _ _ F). cbn [bind]. eexists. f_equal. f_equal.
  apply map_ext_in. intros i Hi. apply in_seq in Hi. unfold attended. f_equal. apply map_ext_in. intros h Hh. apply in_seq in Hh.
  rewrite (softmax_row c kpm am h i qs ks vs F) by lia.
  rewrite <- everything_shown, <- wsum_shown. f_equal. rewrite everything_v by assumption. reflexivity.
Qed.
Theorem masked_err c kpm am need qs ks vs : ~ masks_fit (c_H c) (length qs) (length ks) kpm am ->
  exists e, mha_masked c kpm am need qs ks vs = Err e.
Proof.
  intro F. unfold mha_masked. destruct (check_masks (c_H c) (length qs) (length ks) kpm am) as [[]|e] eqn:E; [|cbn; eauto].
  destruct F. eapply check_fits, E.
Qed.

(** Masks that hide and keep: attention over what is left. *)
Lemma attended_left c kpm am i q ks vs : length vs = length ks -> hides_only kpm am ->
  attended c kpm am i q ks vs =
  attention_ext c q (select (fun j => shown (entry kpm am 0 i j)) ks) (select (fun j => shown (entry kpm am 0 i j)) vs).
Proof.
  intros L Ho. unfold attended, attention_ext. f_equal. apply map_ext. intro h.
  rewrite (select_nth _ ks []), (select_nth _ vs []), L, !map_map.
  apply tab_ext. intros e _. unfold shown_mean, weighted_mean, in_sight.
  set (q' := map (c_scale c) (nth h (c_q c q) [])). set (E := c_E c).
  assert (Fi : filter (fun j => shown (entry kpm am h i j)) (seq 0 (length ks)) = filter (fun j => shown (entry kpm am 0 i j)) (seq 0 (length ks))).
  { apply filter_ext. intro j. destruct (Ho h i j) as [_ ->]. reflexivity. }
  rewrite Fi. set (js := filter _ _).
  rewrite map2_app by (rewrite !map_length; reflexivity). rewrite !map_app, !map_map.
  f_equal; f_equal; f_equal.
  - rewrite map2_maps. apply map_ext. intro j. destruct (Ho h i j) as [[->| ->] _]; reflexivity.
  - assert (X : forall (l : list (vec * vec)), map (fun x => let '(m, k, v) := let '(k, v) := x in (Keep, k, v) in kmul (score E q' m k) (at_ v e)) l
       = map2 (fun k v => kmul (kexp (dot E q' k)) (at_ v e)) (map fst l) (map snd l)).
    { induction l as [|[a b] l IH]; [reflexivity|]. cbn. f_equal. exact IH. }
    rewrite X, map_combine_snd, map_combine_fst by apply extras_len. reflexivity.
  - apply map_ext. intro j. destruct (Ho h i j) as [[->| ->] _]; reflexivity.
  - transitivity (map (fun k => kexp (dot E q' k)) (map fst (combine (extras c fst h) (extras c snd h)))).
    + rewrite map_map. apply map_ext. intros [a b]. reflexivity.
    + rewrite map_combine_fst by apply extras_len. reflexivity.
Qed.
Theorem masked_left c kpm am need qs ks vs : length vs = length ks -> masks_fit (c_H c) (length qs) (length ks) kpm am ->
  hides_only kpm am ->
  exists w, mha_masked c kpm am need qs ks vs =
    Ok (map (fun i => attention_ext c (nth i qs []) (select (fun j => shown (entry kpm am 0 i j)) ks)
                                                   (select (fun j => shown (entry kpm am 0 i j)) vs)) (seq 0 (length qs)), w).
Proof.
  intros L F Ho. destruct (masked_ok c kpm am need qs ks vs L F) as [w ->]. exists w. f_equal. f_equal.
  apply map_ext. intro i. apply attended_left; assumption.
Qed.
(** Padded keys are as if they were not there. *)
Theorem masked_padding c p need qs ks vs : length vs = length ks -> length p = length ks ->
  exists w, mha_masked c (Some p) None need qs ks vs =
    Ok (mha_forward c qs (select (fun j => negb (nth j p false)) ks) (select (fun j => negb (nth j p false)) vs), w).
Proof.
  intros L P. destruct (masked_left c (Some p) None need qs ks vs L) as [w E].
  - split; [exact P|exact I].
  - intros h i j. unfold entry. destruct (nth j p false); auto.
  - exists w. rewrite E. f_equal. f_equal. rewrite mha_forward_ext.
    transitivity (map (fun q => attention_ext c q (select (fun j => negb (nth j p false)) ks) (select (fun j => negb (nth j p false)) vs))
                      (map (fun i => nth i qs []) (seq 0 (length qs)))); [|f_equal; apply nth_seq_list].
    rewrite map_map. apply map_ext. intro i.
    f_equal; unfold select; f_equal; apply filter_ext; intros [j x]; cbn; unfold entry; destruct (nth j p false); reflexivity.
Qed.
End Laws.
