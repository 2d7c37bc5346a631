(** Proofs about TransformerEncoder.build_from. *)
From Coq Require Import List Ascii String Bool Arith ZArith Lia.
From Verif Require Import Base Attn TAttn TEnc TEncSpec TBuild TBuildSpec.
Import ListNotations.
Local Open Scope list_scope.
Local Open Scope nat_scope.

Section Load.
Context {K : Type} {NK : Num K}.
Notation heap := (list (list nat * list K)).

Lemma write_length (h : heap) c v : c < List.length h -> List.length (write h c v) = List.length h.
Proof. intro H. unfold write. rewrite app_length. cbn [List.length]. rewrite firstn_length, skipn_length. lia. Qed.
Lemma cell_write (h : heap) c v x : c < List.length h -> cell (write h c v) x = if Nat.eqb x c then v else cell h x.
Proof.
  intro H. unfold cell, write. assert (L : List.length (firstn c h) = c) by (rewrite firstn_length; lia).
  destruct (Nat.eqb_spec x c) as [-> | E].
  - rewrite app_nth2 by lia. rewrite L, Nat.sub_diag. reflexivity.
  - destruct (Nat.lt_ge_cases x c) as [G|G].
    + rewrite app_nth1 by lia. rewrite <- (firstn_skipn c h) at 2. rewrite app_nth1 by lia. reflexivity.
    + rewrite app_nth2 by lia. rewrite L. replace (x - c) with (S (x - S c)) by lia. cbn [nth].
      rewrite <- (firstn_skipn (S c) h) at 2. rewrite app_nth2 by (rewrite firstn_length; lia).
      rewrite firstn_length. f_equal. lia.
Qed.

(** Copies that never change what another copy reads. *)
Definition calm (h : heap) (l : list (nat * nat)) : Prop :=
  forall d s d' s', In (d, s) l -> In (d', s') l ->
    d < List.length h /\ s < List.length h /\ fst (cell h d) = fst (cell h s)
    /\ (d = d' -> cell h s = cell h s') /\ (d = s' -> cell h s = cell h s').
Lemma copy_all_ok : forall (l done : list (nat * nat)) (h g : heap),
  calm h (done ++ l) -> List.length g = List.length h ->
  (forall x, cell g x = cell h x \/ exists s, In (x, s) done /\ cell g x = cell h s) ->
  (forall d s, In (d, s) done -> cell g d = cell h s) ->
  exists g', copy_all l g = Ok g' /\ List.length g' = List.length h
    /\ (forall d s, In (d, s) (done ++ l) -> cell g' d = cell h s)
    /\ (forall x, cell g' x = cell h x \/ exists s, In (x, s) (done ++ l) /\ cell g' x = cell h s).
Proof.
  induction l as [|[d s] l IH]; intros done h g C L D1 D2.
  - exists g. rewrite app_nil_r. split; [reflexivity|]. split; [exact L|]. split; [exact D2|exact D1].
  - assert (Hi : In (d, s) (done ++ (d, s) :: l)) by (apply in_or_app; right; left; reflexivity).
    destruct (C d s d s Hi Hi) as (Bd & Bs & Sh & _ & _).
    assert (Gs : cell g s = cell h s).
    { destruct (D1 s) as [E | (s' & I' & E)]; [exact E|]. rewrite E.
      assert (In (s, s') (done ++ (d, s) :: l)) by (apply in_or_app; left; exact I').
      destruct (C s s' d s H Hi) as (_ & _ & _ & _ & Q). apply Q. reflexivity. }
    assert (Gd : fst (cell g d) = fst (cell h d)).
    { destruct (D1 d) as [E | (s' & I' & E)]; rewrite E; [reflexivity|].
      assert (In (d, s') (done ++ (d, s) :: l)) by (apply in_or_app; left; exact I').
      destruct (C d s' d s H Hi) as (_ & _ & Q & _ & _). symmetry. exact Q. }
    cbn [copy_all]. destruct (list_eq_dec Nat.eq_dec (fst (cell g d)) (fst (cell g s))) as [_ | NE];
      [|exfalso; apply NE; rewrite Gd, Gs; exact Sh].
    assert (Bg : d < List.length g) by lia.
    destruct (IH (done ++ [(d, s)]) h (write g d (cell g s))) as (g' & E & L' & A1 & A2).
    + rewrite <- app_assoc. exact C.
    + rewrite write_length; lia.
    + intro x. rewrite cell_write by lia. destruct (Nat.eqb_spec x d) as [-> | N].
      * right. exists s. split; [apply in_or_app; right; left; reflexivity|exact Gs].
      * destruct (D1 x) as [Q | (s' & I' & Q)]; [left; exact Q|right; exists s'; split; [apply in_or_app; left; exact I'|exact Q]].
    + intros d' s' I'. rewrite cell_write by lia. destruct (Nat.eqb_spec d' d) as [-> | N].
      * rewrite Gs. apply in_app_or in I'. destruct I' as [I' | [I' | []]]; [|injection I' as ->; reflexivity].
        assert (In (d, s') (done ++ (d, s) :: l)) by (apply in_or_app; left; exact I').
        destruct (C d s d s' Hi H) as (_ & _ & _ & Q & _). apply Q. reflexivity.
      * apply in_app_or in I'. destruct I' as [I' | [I' | []]]; [exact (D2 _ _ I')|congruence].
    + exists g'. rewrite <- app_assoc in A1, A2. split; [exact E|]. split; [exact L'|]. split; [exact A1|exact A2].
Qed.
Lemma copy_all_calm (l : list (nat * nat)) (h : heap) : calm h l ->
  exists g, copy_all l h = Ok g /\ List.length g = List.length h
    /\ (forall d s, In (d, s) l -> cell g d = cell h s)
    /\ (forall x, cell g x = cell h x \/ exists s, In (x, s) l /\ cell g x = cell h s).
Proof. intro C. apply (copy_all_ok l [] h h C eq_refl); [left; reflexivity|intros d s []]. Qed.
End Load.

Section Plan.
Context {K : Type} {NK : Num K}.
Notation heap := (list (list nat * list K)).

(** Which cell is copied to which. *)
Definition plan (net src : tencoder K) : res (list (nat * nat)) :=
  new_sd <- transfer (state_dict "" (co_tree net)) (state_dict "" (torch_tree src)) ;;
  mapM (fun q => match lookup (fst q) new_sd with Some s => Ok (snd q, s) | None => Err RuntimeError end) (state_dict "" (co_tree net)).
Definition act_pairs (a b : activation K) : list (nat * nat) :=
  match act_cell a, act_cell b with Some c, Some d => [(c, d)] | _, _ => [] end.
Definition layer_pairs (t u : tlayer K) : list (nat * nat) :=
  let c := tl_c t in let d := tl_c u in
  [(c_inw c, c_inw d); (c_inb c, c_inb d); (c_ow c, c_ow d); (c_ob c, c_ob d); (c_n1w c, c_n1w d); (c_n1b c, c_n1b d);
   (c_w1 c, c_w1 d); (c_b1 c, c_b1 d)] ++ act_pairs (tl_act t) (tl_act u)
  ++ [(c_w2 c, c_w2 d); (c_b2 c, c_b2 d); (c_n2w c, c_n2w d); (c_n2b c, c_n2b d)].
Definition norm_pairs (n : option (K * nat * nat)) : list (nat * nat) :=
  match n with Some (_, w, b) => [(w, w); (b, b)] | None => [] end.
Definition like (a b : activation K) : Prop :=
  match act_cell a, act_cell b with Some _, Some _ | None, None => True | _, _ => False end.

Lemma same_act_like h (a b : activation K) : same_act h a b -> like a b.
Proof. destruct a as [| |[]], b as [| |[]]; cbn; tauto. Qed.

Lemma plan_1 (t u : tlayer K) n : tl_bias u = true -> like (tl_act t) (tl_act u) ->
  plan {| te_layers := [t]; te_norm := n |} {| te_layers := [u]; te_norm := n |} = Ok (layer_pairs t u ++ norm_pairs n).
Proof.
  destruct t as [[] ? ? ? ? a ? ?], u as [[] ? ? ? ? b ? bi]. cbn. intros -> HL.
  destruct n as [[[e w] b']|]; destruct a as [| |[]], b as [| |[]]; try contradiction HL; vm_compute; reflexivity.
Qed.
Lemma plan_2 (t1 t2 u1 u2 : tlayer K) n : tl_bias u1 = true -> tl_bias u2 = true ->
  tl_act t2 = tl_act t1 -> like (tl_act t1) (tl_act u1) -> like (tl_act t1) (tl_act u2) ->
  plan {| te_layers := [t1; t2]; te_norm := n |} {| te_layers := [u1; u2]; te_norm := n |}
  = Ok (layer_pairs t1 u1 ++ layer_pairs t2 u2 ++ norm_pairs n).
Proof.
  destruct t1 as [[] ? ? ? ? a ? ?], t2 as [[] ? ? ? ? a2 ? ?], u1 as [[] ? ? ? ? b ? bi], u2 as [[] ? ? ? ? b2 ? bi2].
  cbn. intros -> -> -> HL HL2.
  destruct n as [[[e w] b']|]; destruct a as [| |[]], b as [| |[]], b2 as [| |[]]; try contradiction HL; try contradiction HL2; vm_compute; reflexivity.
Qed.
End Plan.

Section Built.
Context {K : Type} {NK : Num K}.
Notation heap := (list (list nat * list K)).
Variable init : nat -> list K.
Variable layer_norm : K -> list K -> list K -> list K -> list K.
Variable scale : nat -> K -> K.

(** The old cells of [h] and, behind them, new ones in the shapes [ss]. *)
Definition grown (ss : list (list nat)) (h g : heap) : Prop :=
  List.length g = List.length h + List.length ss
  /\ (forall x, x < List.length h -> cell g x = cell h x)
  /\ (forall k, k < List.length ss -> fst (cell g (List.length h + k)) = nth k ss []).
Lemma grown_nil h : grown [] h h.
Proof. split; [cbn; lia|]. split; [reflexivity|]. cbn. lia. Qed.
Lemma grown_app h ss (vs : list (list K)) : List.length vs = List.length ss -> grown ss h (h ++ combine ss vs).
Proof.
  intro L. split; [rewrite app_length, combine_length; lia|]. split.
  - intros x Hx. unfold cell. rewrite app_nth1 by exact Hx. reflexivity.
  - intros k Hk. unfold cell. rewrite app_nth2 by lia. replace (_ + k - _) with k by lia.
    rewrite combine_nth by (symmetry; exact L). reflexivity.
Qed.
Lemma grown_trans s1 s2 h g k : grown s1 h g -> grown s2 g k -> grown (s1 ++ s2) h k.
Proof.
  intros (L1 & O1 & N1) (L2 & O2 & N2). split; [rewrite app_length; lia|]. split.
  - intros x Hx. rewrite O2 by lia. apply O1. exact Hx.
  - intros i Hi. rewrite app_length in Hi. destruct (Nat.lt_ge_cases i (List.length s1)) as [G|G].
    + rewrite app_nth1 by exact G. rewrite O2 by lia. apply N1. exact G.
    + rewrite app_nth2 by exact G. rewrite <- N2 by lia. f_equal. f_equal. lia.
Qed.

(** A copy into a new cell reads an old cell of its shape; a copy into an old cell changes
    nothing. *)
Definition tame (ss : list (list nat)) (h : heap) (srcs : list nat) (q : nat * nat) : Prop :=
  (exists k, k < List.length ss /\ fst q = List.length h + k /\ snd q = nth k srcs 0 /\ has h (nth k ss []) (snd q))
  \/ (fst q < List.length h /\ snd q < List.length h /\ cell h (fst q) = cell h (snd q)).
Lemma copy_tame ss (h g : heap) srcs l : grown ss h g -> Forall (tame ss h srcs) l ->
  exists g', copy_all l g = Ok g' /\ List.length g' = List.length g
    /\ (forall d s, In (d, s) l -> cell g' d = cell h s)
    /\ (forall x, x < List.length h -> cell g' x = cell h x).
Proof.
  intros (L & O & N) F. rewrite Forall_forall in F.
  assert (Sm : forall d s, In (d, s) l -> s < List.length h).
  { intros d s I. destruct (F _ I) as [(k & _ & _ & _ & B & _) | (_ & B & _)]; exact B. }
  destruct (copy_all_calm l g) as (g' & E & L' & A & U).
  { intros d s d' s' I I'. pose proof (Sm _ _ I) as B. pose proof (Sm _ _ I') as B'.
    split; [|split; [lia|]].
    { destruct (F _ I) as [(k & Hk & Hd & _) | (Hd & _)]; cbn in Hd; lia. }
    split; [|split].
    - rewrite (O s) by exact B. destruct (F _ I) as [(k & Hk & Hd & _ & _ & Hs) | (Hd & _ & Hs)]; cbn [fst snd] in *.
      + rewrite Hd, N by exact Hk. symmetry. exact Hs.
      + rewrite O by exact Hd. rewrite Hs. reflexivity.
    - intros <-. rewrite !O by assumption.
      destruct (F _ I) as [(k & Hk & Hd & Hs & _) | (Hd & _ & Hs)], (F _ I') as [(k' & Hk' & Hd' & Hs' & _) | (Hd' & _ & Hs')]; cbn [fst snd] in *; try lia.
      + replace k' with k in * by lia. congruence.
      + congruence.
    - intros ->. rewrite !O by assumption.
      destruct (F _ I) as [(k & Hk & Hd & _) | (Hd & _ & Hs)]; cbn [fst snd] in *; [lia|]. symmetry. exact Hs. }
  exists g'. split; [exact E|]. split; [exact L'|]. split.
  - intros d s I. rewrite (A _ _ I). apply O. exact (Sm _ _ I).
  - intros x Hx. destruct (U x) as [Q | (s & I & Q)]; rewrite Q; [apply O; exact Hx|].
    rewrite O by exact (Sm _ _ I). destruct (F _ I) as [(k & _ & Hd & _) | (_ & _ & Hs)]; cbn [fst snd] in *; [lia|]. symmetry. exact Hs.
Qed.

(** The new layer that stands for the layer [u], its cells from [i] on. *)
Definition copy_of (tel : tlayer K) (i : nat) : tlayer K :=
  {| tl_c := cells_at i; tl_dim := tl_dim tel; tl_heads := tl_heads tel; tl_ff := tl_ff tel; tl_eps := tl_eps tel;
     tl_act := tl_act tel; tl_norm_first := false; tl_bias := true |}.
Lemma tame_layer pre post_ (h : heap) tel u before after :
  alike h tel u -> layer_in h u -> List.length pre = List.length before ->
  Forall (tame (pre ++ shapes (tl_dim tel) (tl_ff tel) ++ post_) h (before ++ layer_cells u ++ after))
         (layer_pairs (copy_of tel (List.length h + List.length pre)) u).
Proof.
  intros (Ed & _ & Ef & _ & Sa) Li Lp.
  unfold layer_in in Li. cbv zeta in Li. rewrite Ed, Ef in Li. repeat (match type of Li with _ /\ _ => let H := fresh "P" in destruct Li as [H Li] end).
  assert (T : forall k s c, nth_error (shapes (tl_dim tel) (tl_ff tel)) k = Some s -> nth_error (layer_cells u) k = Some c -> has h s c ->
    forall d, d = List.length h + List.length pre + k ->
    tame (pre ++ shapes (tl_dim tel) (tl_ff tel) ++ post_) h (before ++ layer_cells u ++ after) (d, c)).
  { intros k s c Hs Hc Hh d ->. left. exists (List.length pre + k).
    assert (k < 12) by (change 12 with (List.length (shapes (tl_dim tel) (tl_ff tel))); apply nth_error_Some; rewrite Hs; discriminate).
    split; [rewrite !app_length; cbn [List.length shapes]; lia|]. split; [cbn; lia|]. cbn [snd]. split.
    - rewrite Lp, app_nth2 by lia. replace (_ + k - _) with k by lia. rewrite app_nth1 by (cbn; lia). symmetry. apply nth_error_nth. exact Hc.
    - rewrite app_nth2 by lia. replace (_ + k - _) with k by lia. rewrite app_nth1 by (cbn; lia).
      rewrite (nth_error_nth _ _ [] Hs). exact Hh. }
  unfold layer_pairs. apply Forall_app. split; [|apply Forall_app; split].
  - repeat (apply Forall_cons); [..|apply Forall_nil].
    all: cbn [copy_of tl_c cells_at c_inw c_inb c_ow c_ob c_n1w c_n1b c_w1 c_b1].
    + eapply (T 0); [reflexivity|reflexivity|assumption|lia].
    + eapply (T 1); [reflexivity|reflexivity|assumption|lia].
    + eapply (T 2); [reflexivity|reflexivity|assumption|lia].
    + eapply (T 3); [reflexivity|reflexivity|assumption|lia].
    + eapply (T 8); [reflexivity|reflexivity|assumption|lia].
    + eapply (T 9); [reflexivity|reflexivity|assumption|lia].
    + eapply (T 4); [reflexivity|reflexivity|assumption|lia].
    + eapply (T 5); [reflexivity|reflexivity|assumption|lia].
  - cbn [copy_of tl_act]. unfold act_pairs.
    destruct (tl_act tel) as [| |[]], (tl_act u) as [| |[]]; cbn in *; try contradiction; try apply Forall_nil.
    constructor; [|constructor]. right. cbn. tauto.
  - repeat (apply Forall_cons); [..|apply Forall_nil].
    all: cbn [copy_of tl_c cells_at c_w2 c_b2 c_n2w c_n2b].
    + eapply (T 6); [reflexivity|reflexivity|assumption|lia].
    + eapply (T 7); [reflexivity|reflexivity|assumption|lia].
    + eapply (T 10); [reflexivity|reflexivity|assumption|lia].
    + eapply (T 11); [reflexivity|reflexivity|assumption|lia].
Qed.
Lemma tame_norm ss (h : heap) srcs (n : option (K * nat * nat)) :
  match n with Some (_, w, b) => w < List.length h /\ b < List.length h | None => True end ->
  Forall (tame ss h srcs) (norm_pairs n).
Proof.
  destruct n as [[[e w] b]|]; intro H; [|constructor]. destruct H as [Hw Hb].
  constructor; [right; cbn; tauto|]. constructor; [right; cbn; tauto|constructor].
Qed.
Lemma as_layer_copy N (h g : heap) tel i u : alike h tel u -> tl_bias u = true ->
  (forall d s, In (d, s) (layer_pairs (copy_of tel i) u) -> cell g d = cell h s) ->
  (forall x, x < List.length h -> cell g x = cell h x) ->
  as_layer layer_norm scale N g (copy_of tel i) = as_layer layer_norm scale N h u.
Proof.
  intros (Ed & Eh & Ef & Ee & Sa) Bu C O. unfold as_layer. rewrite Bu, Ed, Eh, Ef, Ee. cbn [copy_of tl_c tl_dim tl_heads tl_ff tl_eps tl_act tl_bias].
  assert (V : forall d s, In (d, s) (layer_pairs (copy_of tel i) u) -> val g d = val h s) by (intros d s I; unfold val; rewrite (C _ _ I); reflexivity).
  assert (A : act_fun g (tl_act tel) = act_fun h (tl_act u)).
  { destruct (tl_act tel) as [| |[]], (tl_act u) as [| |[]]; cbn in Sa; try contradiction; cbn; try congruence.
    destruct Sa as (-> & Hc & _ & E). unfold val. rewrite (O _ Hc), E. reflexivity. }
  unfold layer_pairs in V. cbn [copy_of tl_c tl_act] in V.
  rewrite A. repeat (rewrite V with (s := c_inw (tl_c u)) by (cbn; tauto)).
  rewrite (V (c_inb (cells_at i)) (c_inb (tl_c u))) by (cbn; tauto).
  rewrite (V (c_ow (cells_at i)) (c_ow (tl_c u))) by (cbn; tauto).
  rewrite (V (c_ob (cells_at i)) (c_ob (tl_c u))) by (cbn; tauto).
  rewrite (V (c_n1w (cells_at i)) (c_n1w (tl_c u))) by (cbn; tauto).
  rewrite (V (c_n1b (cells_at i)) (c_n1b (tl_c u))) by (cbn; tauto).
  rewrite (V (c_w1 (cells_at i)) (c_w1 (tl_c u))) by (cbn; tauto).
  rewrite (V (c_b1 (cells_at i)) (c_b1 (tl_c u))) by (cbn; tauto).
  assert (In4 : forall q, In q [(c_w2 (cells_at i), c_w2 (tl_c u)); (c_b2 (cells_at i), c_b2 (tl_c u));
     (c_n2w (cells_at i), c_n2w (tl_c u)); (c_n2b (cells_at i), c_n2b (tl_c u))] -> val g (fst q) = val h (snd q)).
  { intros [d s] I. apply V. apply in_or_app. right. apply in_or_app. right. exact I. }
  rewrite (In4 (c_w2 (cells_at i), c_w2 (tl_c u)) ltac:(cbn; tauto) : val g (c_w2 (cells_at i)) = _).
  rewrite (In4 (c_b2 (cells_at i), c_b2 (tl_c u)) ltac:(cbn; tauto) : val g (c_b2 (cells_at i)) = _).
  rewrite (In4 (c_n2w (cells_at i), c_n2w (tl_c u)) ltac:(cbn; tauto) : val g (c_n2w (cells_at i)) = _).
  rewrite (In4 (c_n2b (cells_at i), c_n2b (tl_c u)) ltac:(cbn; tauto) : val g (c_n2b (cells_at i)) = _).
  reflexivity.
Qed.

Lemma build_plan N src (h : heap) net h1 l h2 tel ts :
  te_layers src = tel :: ts -> construct init N tel (List.length (te_layers src)) (te_norm src) h = Ok (net, h1) ->
  plan net src = Ok l -> copy_all l h1 = Ok h2 -> build_from init N src h = Ok (net, h2).
Proof.
  intros Es Ec Ep El. unfold build_from. rewrite Es in *. rewrite Ec. unfold bind. unfold plan, bind in Ep.
  destruct (transfer _ _) as [sd|]; [|discriminate]. unfold load, bind. rewrite Ep, El. reflexivity.
Qed.

Theorem built N src (h : heap) :
  encoder_in h src -> 0 < N -> List.length (te_layers src) = 1 \/ List.length (te_layers src) = 2 ->
  Forall (fun t => tl_bias t = true /\ convertible (tl_act t) = true) (te_layers src) ->
  exists net h', build_from init N src h = Ok (net, h')
    /\ map (as_layer layer_norm scale N h') (te_layers net) = map (as_layer layer_norm scale N h) (te_layers src)
    /\ te_norm net = te_norm src
    /\ as_norm layer_norm h' (te_norm net) = as_norm layer_norm h (te_norm src)
    /\ (forall c, c < List.length h -> cell h' c = cell h c)
    /\ Forall (fun t => Forall (fun c => List.length h <= c) (layer_cells t)) (te_layers net).
Proof.
  intros (Hw & Hn) HN HL Fb.
  assert (NN : forall g : heap, (forall c, c < List.length h -> cell g c = cell h c) ->
    as_norm layer_norm g (te_norm src) = as_norm layer_norm h (te_norm src)).
  { intros g O. unfold as_norm. destruct (te_norm src) as [[[e w] b]|]; [|reflexivity]. unfold val. rewrite !O by tauto. reflexivity. }
  destruct src as [ls n]. cbn [te_layers te_norm] in *.
  destruct ls as [|u1 [|u2 [|u3 ls]]]; cbn [List.length] in HL; try lia.
  - inversion Fb as [|? ? [Bu Cu] _]; subst.
    destruct (Hw u1 u1 (or_introl eq_refl) (or_introl eq_refl)) as [Al Li].
    pose proof (tame_layer [] [] h u1 u1 [] [] Al Li eq_refl) as T1. cbn [List.app List.length] in T1. rewrite !app_nil_r, Nat.add_0_r in T1.
    pose proof (grown_app h (shapes (tl_dim u1) (tl_ff u1)) (map (fun k => init (List.length h + k)) (seq 0 12)) eq_refl) as G1.
    destruct (copy_tame _ h _ (layer_cells u1) (layer_pairs (copy_of u1 (List.length h)) u1 ++ norm_pairs n) G1) as (h' & Ec & _ & Hc & Ho).
    { apply Forall_app. split; [exact T1|apply tame_norm; exact Hn]. }
    exists {| te_layers := [copy_of u1 (List.length h)]; te_norm := n |}, h'. split; [|split; [|split; [reflexivity|split; [apply NN; exact Ho|split; [exact Ho|]]]]].
    + eapply build_plan; [reflexivity| |apply plan_1; [exact Bu|exact (same_act_like _ _ _ (proj2 (proj2 (proj2 (proj2 Al)))))]|exact Ec].
      unfold construct. cbn [te_layers te_norm List.length]. rewrite (proj2 (Nat.eqb_neq N 0)) by lia. rewrite Cu. reflexivity.
    + cbn [te_layers map]. f_equal. apply as_layer_copy; [exact Al|exact Bu| |exact Ho]. intros d s I. apply Hc. apply in_or_app. left. exact I.
    + constructor; [|constructor]. cbn [copy_of tl_c layer_cells cells_at c_inw c_inb c_ow c_ob c_w1 c_b1 c_w2 c_b2 c_n1w c_n1b c_n2w c_n2b].
      unfold layer_cells. cbn. repeat constructor; lia.
  - inversion Fb as [|? ? [Bu1 Cu1] Fb2]; subst. inversion Fb2 as [|? ? [Bu2 Cu2] _]; subst.
    destruct (Hw u1 u1 (or_introl eq_refl) (or_introl eq_refl)) as [Al1 Li1].
    destruct (Hw u1 u2 (or_introl eq_refl) (or_intror (or_introl eq_refl))) as [Al2 _].
    destruct (Hw u2 u2 (or_intror (or_introl eq_refl)) (or_intror (or_introl eq_refl))) as [_ Li2].
    set (ss := shapes (tl_dim u1) (tl_ff u1)).
    pose proof (tame_layer [] ss h u1 u1 [] (layer_cells u2) Al1 Li1 eq_refl) as T1. cbn [List.app List.length] in T1. rewrite Nat.add_0_r in T1.
    pose proof (tame_layer ss [] h u1 u2 (layer_cells u1) [] Al2 Li2 eq_refl) as T2. rewrite !app_nil_r in T2.
    pose proof (grown_app h ss (map (fun k => init (List.length h + k)) (seq 0 12)) eq_refl) as G1.
    set (h1 := h ++ combine ss (map (fun k => init (List.length h + k)) (seq 0 12))) in *.
    pose proof (grown_app h1 ss (map (fun k => init (List.length h1 + k)) (seq 0 12)) eq_refl) as G2.
    pose proof (grown_trans _ _ _ _ _ G1 G2) as G.
    destruct (copy_tame _ h _ (layer_cells u1 ++ layer_cells u2)
      (layer_pairs (copy_of u1 (List.length h)) u1 ++ layer_pairs (copy_of u1 (List.length h + 12)) u2 ++ norm_pairs n) G) as (h' & Ec & _ & Hc & Ho).
    { apply Forall_app. split; [exact T1|]. apply Forall_app. split; [exact T2|apply tame_norm; exact Hn]. }
    exists {| te_layers := [copy_of u1 (List.length h); copy_of u1 (List.length h + 12)]; te_norm := n |}, h'.
    split; [|split; [|split; [reflexivity|split; [apply NN; exact Ho|split; [exact Ho|]]]]].
    + eapply build_plan; [reflexivity| |apply plan_2; [exact Bu1|exact Bu2|reflexivity| |]|exact Ec].
      * unfold construct. cbn [te_layers te_norm List.length]. rewrite (proj2 (Nat.eqb_neq N 0)) by lia. rewrite Cu1.
        unfold new_layer. fold ss. fold h1. destruct G1 as (L1 & _). cbn [List.length] in L1. rewrite L1. reflexivity.
      * exact (same_act_like _ _ _ (proj2 (proj2 (proj2 (proj2 Al1))))).
      * exact (same_act_like _ _ _ (proj2 (proj2 (proj2 (proj2 Al2))))).
    + cbn [te_layers map]. f_equal; [|f_equal].
      * apply as_layer_copy; [exact Al1|exact Bu1| |exact Ho]. intros d s I. apply Hc. apply in_or_app. left. exact I.
      * apply as_layer_copy; [exact Al2|exact Bu2| |exact Ho]. intros d s I. apply Hc. apply in_or_app. right. apply in_or_app. left. exact I.
    + constructor; [|constructor; [|constructor]]; unfold layer_cells; cbn; repeat constructor; lia.
Qed.
End Built.
