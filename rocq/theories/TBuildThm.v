(** What the converted encoder computes, and when the conversion raises. *)
From Coq Require Import List Ascii String Bool Arith ZArith Lia.
From Verif Require Import Base Attn AttnSpec CallMode TAttn TAttnSpec TEnc TEncSpec TEncMix TBuild TBuildSpec TBuildProof.
Import ListNotations.
Local Open Scope list_scope.
Local Open Scope nat_scope.

Section Raise.
Context {K : Type} {NK : Num K}.
Notation heap := (list (list nat * list K)).

Lemma transfer_no_bias_1 (t u : tlayer K) n : tl_bias u = false -> like (tl_act t) (tl_act u) ->
  transfer (state_dict "" (co_tree {| te_layers := [t]; te_norm := n |})) (state_dict "" (torch_tree {| te_layers := [u]; te_norm := n |}))
  = Err AssertionError.
Proof.
  destruct t as [[] ? ? ? ? a ? ?], u as [[] ? ? ? ? b ? bi]. cbn. intros -> HL.
  destruct n as [[[e w] b']|]; destruct a as [| |[]], b as [| |[]]; try contradiction HL; vm_compute; reflexivity.
Qed.
Lemma transfer_no_bias_2 (t1 t2 u1 u2 : tlayer K) n : tl_bias u1 = false -> tl_bias u2 = false ->
  tl_act t2 = tl_act t1 -> like (tl_act t1) (tl_act u1) -> like (tl_act t1) (tl_act u2) ->
  transfer (state_dict "" (co_tree {| te_layers := [t1; t2]; te_norm := n |})) (state_dict "" (torch_tree {| te_layers := [u1; u2]; te_norm := n |}))
  = Err AssertionError.
Proof.
  destruct t1 as [[] ? ? ? ? a ? ?], t2 as [[] ? ? ? ? a2 ? ?], u1 as [[] ? ? ? ? b ? bi], u2 as [[] ? ? ? ? b2 ? bi2].
  cbn. intros -> -> -> HL HL2.
  destruct n as [[[e w] b']|]; destruct a as [| |[]], b as [| |[]], b2 as [| |[]]; try contradiction HL; try contradiction HL2; vm_compute; reflexivity.
Qed.

Theorem build_raises init N src (h : heap) :
  encoder_in h src -> (forall t u, In t (te_layers src) -> In u (te_layers src) -> tl_bias t = tl_bias u) ->
  match te_layers src with
  | [] => build_from init N src h = Err IndexError
  | t :: _ =>
      if (2 <? List.length (te_layers src)) || (N =? 0) || negb (convertible (tl_act t)) || negb (tl_bias t)
      then build_from init N src h = Err AssertionError
      else exists r, build_from init N src h = Ok r
  end.
Proof.
  intros EI HB. destruct (te_layers src) as [|t ts] eqn:El; [unfold build_from; rewrite El; reflexivity|].
  destruct ((_ || _ || _ || _)) eqn:B.
  - unfold build_from. rewrite El. unfold construct.
    destruct (Nat.eqb_spec N 0) as [_ | HN]; [reflexivity|].
    destruct ts as [|u [|]]; [| |reflexivity].
    + cbn [List.length]. destruct (convertible (tl_act t)) eqn:C; [|reflexivity].
      cbn in B. rewrite ?orb_false_r, ?orb_false_l in B. apply negb_true_iff in B. unfold new_layer, bind.
      destruct src as [ls n]. cbn [te_layers te_norm] in *. subst ls. rewrite transfer_no_bias_1; [reflexivity|exact B|].
      cbn [tl_act]. eapply same_act_like. destruct EI as [EI _]. destruct (EI t t) as [(_ & _ & _ & _ & Q) _]; [left; reflexivity..|exact Q].
    + cbn [List.length]. destruct (convertible (tl_act t)) eqn:C; [|unfold new_layer; reflexivity].
      cbn in B. rewrite ?orb_false_r, ?orb_false_l in B. apply negb_true_iff in B. unfold new_layer, bind.
      destruct src as [ls n]. cbn [te_layers te_norm] in *. subst ls. destruct EI as [EI _]. rewrite transfer_no_bias_2; [reflexivity|exact B| |reflexivity| |].
      * rewrite <- (HB t u); [exact B|left; reflexivity|right; left; reflexivity].
      * cbn [tl_act]. eapply same_act_like. destruct (EI t t) as [(_ & _ & _ & _ & Q) _]; [left; reflexivity..|exact Q].
      * cbn [tl_act]. eapply same_act_like. destruct (EI t u) as [(_ & _ & _ & _ & Q) _]; [left; reflexivity|right; left; reflexivity|exact Q].
  - apply orb_false_iff in B. destruct B as [B Bb]. apply orb_false_iff in B. destruct B as [B Bc]. apply orb_false_iff in B. destruct B as [Bl Bn].
    apply negb_false_iff in Bb, Bc. apply Nat.ltb_ge in Bl. apply Nat.eqb_neq in Bn.
    destruct (built init (fun _ _ _ v => v) (fun _ x => x) N src h EI ltac:(lia)) as (net & h' & E & _).
    + rewrite El. cbn [List.length] in *. lia.
    + rewrite El. apply Forall_forall. intros u Hu. split; [rewrite <- (HB t u); [exact Bb|left; reflexivity|exact Hu]|].
      destruct EI as [EI _]. rewrite El in EI. destruct (EI t u (or_introl eq_refl) Hu) as [(_ & _ & _ & _ & Q) _].
      destruct (tl_act t) as [| |[]], (tl_act u) as [| |[]]; cbn in Q; try contradiction; try reflexivity; discriminate.
    + exists (net, h'). exact E.
Qed.
End Raise.

Section Compute.
Context {K : Type} {NK : Num K} {NL : NumLaws K}.
Notation heap := (list (list nat * list K)).
Variable init : nat -> list K.
Variable layer_norm : K -> list K -> list K -> list K -> list K.
Variable scale : nat -> K -> K.

Lemma as_layer_ok N (h : heap) t : (forall eps w b v, List.length (layer_norm eps w b v) = List.length v) -> 0 < tl_heads t ->
  layer_ok (as_layer layer_norm scale N h t).
Proof. intros HN Hh. split; [exact Hh|]. split; [reflexivity|]. split; [reflexivity|]. split; intros v Hv; cbn; rewrite HN; exact Hv. Qed.
Lemma as_norm_ok n (h : heap) norm : (forall eps w b v, List.length (layer_norm eps w b v) = List.length v) -> norm_ok n (as_norm layer_norm h norm).
Proof. intro HN. destruct norm as [[[e w] b]|]; [|exact I]. intros v Hv. rewrite HN. exact Hv. Qed.

Lemma answers_imp N (R R' : nat -> tens K -> Prop) (Rs Rs' : nat -> nat -> tens K -> Prop) (W W' : tens K -> tens K -> Prop) :
  (forall n y, N <= n + 1 -> R n y -> R' n y) -> (forall n c y, N <= n + 1 -> Rs n c y -> Rs' n c y) -> (forall x y, W x y -> W' x y) ->
  forall l i outs, answers N R Rs W i l outs -> answers N R' Rs' W' i l outs.
Proof.
  intros H1 H2 H3. induction l as [|c l IH]; intros i outs; destruct outs as [|o outs]; cbn [answers]; try tauto.
  destruct c as [ctx x|ctx x|ctx x].
  - intros [A B]. split; [|apply IH; exact B]. destruct (Nat.ltb_spec (i + 1) N); [exact A|].
    destruct A as (y & E & A). exists y. split; [exact E|]. apply H1; [lia|exact A].
  - intros [A B]. split; [|apply IH; exact B]. destruct (Nat.ltb_spec (i + nth 2 (sh x) 0) N); [exact A|].
    destruct A as (y & E & A). exists y. split; [exact E|]. apply H2; [lia|exact A].
  - intros [(y & E & A) B]. split; [|apply IH; exact B]. exists y. split; [exact E|]. apply H3. exact A.
Qed.
Lemma frame_eq n B (y : tens K) (f g : nat -> list K) : (forall b, b < B -> f b = g b) -> frame_holds n B y f -> frame_holds n B y g.
Proof. intros E [S H]. split; [exact S|]. intros b Hb. rewrite <- E by exact Hb. apply H. exact Hb. Qed.
Lemma clip_eq n B L (y : tens K) (f g : nat -> nat -> list K) : (forall b t, b < B -> t < L -> f b t = g b t) -> clip_holds n B L y f -> clip_holds n B L y g.
Proof. intros E [S H]. split; [exact S|]. intros b t Hb Ht. rewrite <- E by assumption. apply H; assumption. Qed.

Lemma torch_1 (p : layer K) norm ts i : i < List.length ts ->
  nth i (torch_encoder [(false, p)] norm ts) [] = normed norm (layer_token p ts i).
Proof.
  intro Hi. unfold torch_encoder. cbn [fold_left]. unfold torch_layer. cbn [fst snd]. rewrite map_map.
  rewrite (nth_indep _ [] (normed norm (layer_token p ts 0))) by (rewrite map_length, seq_length; exact Hi).
  change (normed norm (layer_token p ts 0)) with ((fun i => normed norm (torch_token false p ts i)) 0).
  rewrite map_nth, seq_nth by exact Hi. reflexivity.
Qed.
Lemma torch_2 (p1 p2 : layer K) norm ts i : i < List.length ts ->
  nth i (torch_encoder [(false, p1); (false, p2)] norm ts) [] = normed norm (two_layers p1 p2 ts i).
Proof.
  intro Hi. unfold torch_encoder. cbn [fold_left]. change (map (normed norm) (torch_layer (false, p2) (torch_layer (false, p1) ts)))
    with (torch_encoder [(false, p2)] norm (torch_layer (false, p1) ts)).
  rewrite torch_1 by (unfold torch_layer; rewrite map_length, seq_length; exact Hi). reflexivity.
Qed.
Lemma window_length N n f (b : nat) : List.length (window_tokens (K := K) N n f b) = N.
Proof. unfold window_tokens. rewrite map_length, seq_length. reflexivity. Qed.
Lemma clip_length L f (b : nat) : List.length (clip_tokens (K := K) L f b) = L.
Proof. unfold clip_tokens. rewrite map_length, seq_length. reflexivity. Qed.

Lemma dim_ok h d : 0 < h -> Nat.divide h d -> h * (d / h) = d.
Proof. intros Hh [k ->]. rewrite Nat.div_mul by lia. lia. Qed.

Theorem converted_1 N t norm (h : heap) B l f :
  let src := {| te_layers := [t]; te_norm := norm |} in
  let torch := torch_encoder [(false, as_layer layer_norm scale N h t)] (as_norm layer_norm h norm) in
  encoder_in h src -> 0 < N -> tl_bias t = true -> convertible (tl_act t) = true ->
  (forall eps w b v, List.length (layer_norm eps w b v) = List.length v) -> 0 < tl_heads t -> Nat.divide (tl_heads t) (tl_dim t) ->
  0 < B -> input_holds (fun _ => True) (tl_dim t) B 0 l f ->
  exists net h' outs s', build_from init N src h = Ok (net, h')
    /\ calls (network layer_norm scale N h' net) SNone l = Ok (outs, s')
    /\ answers N
         (fun n y => frame_holds (tl_dim t) B y (fun b => nth (N - 1) (torch (window_tokens N n f b)) []))
         (fun n c y => clip_holds (tl_dim t) B c y (fun b j => nth (N - 1) (torch (window_tokens N (n + j) f b)) []))
         (fun x y => forall L k, clip_holds (tl_dim t) B L x k ->
            clip_holds (tl_dim t) B L y (fun b i => nth i (torch (clip_tokens L k b)) []))
         0 l outs.
Proof.
  intros src torch EI HN Hb Hc LN Hh Hd HB Hi.
  destruct (built init layer_norm scale N src h EI HN (or_introl eq_refl)) as (net & h' & Eb & El & _ & En & _ & _); [constructor; [tauto|constructor]|].
  destruct (enc1_calls B HB (as_layer layer_norm scale N h t) (as_layer_ok N h t LN Hh) (as_norm layer_norm h norm) l f) as (outs & s' & Ec & A).
  { exact HN. }
  { apply as_norm_ok. exact LN. }
  { cbn [as_layer l_a t_H t_D]. rewrite dim_ok by assumption. exact Hi. }
  exists net, h', outs, s'. split; [exact Eb|]. split; [unfold network; rewrite El, En; exact Ec|].
  cbn [as_layer l_a t_H t_D t_N] in A. rewrite dim_ok in A by assumption. revert A. apply answers_imp.
  - intros n y _. apply frame_eq. intros b _. symmetry. apply torch_1. rewrite window_length. lia.
  - intros n c y _. apply clip_eq. intros b j _ _. symmetry. apply torch_1. rewrite window_length. lia.
  - intros x y H L k Hk. specialize (H L k Hk). revert H. apply clip_eq. intros b i _ Hi'. symmetry. apply torch_1. rewrite clip_length. exact Hi'.
Qed.
Theorem converted_2 N t u norm (h : heap) B l f :
  let src := {| te_layers := [t; u]; te_norm := norm |} in
  let torch := torch_encoder [(false, as_layer layer_norm scale N h t); (false, as_layer layer_norm scale N h u)]
                 (as_norm layer_norm h norm) in
  encoder_in h src -> 2 <= N -> tl_bias t = true -> tl_bias u = true -> convertible (tl_act t) = true ->
  (forall eps w b v, List.length (layer_norm eps w b v) = List.length v) -> 0 < tl_heads t -> Nat.divide (tl_heads t) (tl_dim t) ->
  0 < B -> input_holds (fun _ => True) (tl_dim t) B 0 l f ->
  Forall (fun c => ctx_of c = None \/ ctx_of c = Some Forward) l ->
  exists net h' outs s', build_from init N src h = Ok (net, h')
    /\ calls (network layer_norm scale N h' net) SNone l = Ok (outs, s')
    /\ answers N
         (fun n y => n < 2 * (N - 1) -> frame_holds (tl_dim t) B y (fun b => nth (N - 1) (torch (window_tokens N n f b)) []))
         (fun n c y => n + c <= 2 * (N - 1) ->
            clip_holds (tl_dim t) B c y (fun b j => nth (N - 1) (torch (window_tokens N (n + j) f b)) []))
         (fun x y => forall L k, 0 < L -> clip_holds (tl_dim t) B L x k ->
            clip_holds (tl_dim t) B 1 y (fun b _ => nth (L - 1) (torch (clip_tokens L k b)) []))
         0 l outs.
Proof.
  intros src torch EI HN Hb Hb2 Hc LN Hh Hd HB Hi Hx.
  assert (AU : alike h t u) by (destruct EI as [EI _]; apply (EI t u); cbn; tauto).
  assert (Hc2 : convertible (tl_act u) = true).
  { destruct AU as (_ & _ & _ & _ & Q). destruct (tl_act t) as [| |[]], (tl_act u) as [| |[]]; cbn in Q; try contradiction; try reflexivity; discriminate. }
  destruct (built init layer_norm scale N src h EI ltac:(lia) (or_intror eq_refl)) as (net & h' & Eb & El & _ & En & _ & _); [constructor; [tauto|constructor; [tauto|constructor]]|].
  destruct AU as (Ud & Uh & _).
  destruct (enc2_calls B HB (as_layer layer_norm scale N h t) (as_layer layer_norm scale N h u) (as_norm layer_norm h norm)
    (as_layer_ok N h t LN Hh)) with (l := l) (f := f) as (outs & s' & Ec & A).
  { apply as_layer_ok; [exact LN|]. rewrite Uh. exact Hh. }
  { cbn [as_layer l_a t_H t_D]. rewrite Uh, Ud. reflexivity. }
  { apply as_norm_ok. exact LN. }
  { exact HN. }
  { cbn [as_layer l_a t_H t_D]. rewrite dim_ok by assumption. exact Hi. }
  { exact Hx. }
  exists net, h', outs, s'. split; [exact Eb|]. split; [unfold network; rewrite El, En; exact Ec|].
  assert (ST : forall n b, N <= n + 1 -> n < 2 * (N - 1) ->
    layer_token (as_layer layer_norm scale N h u) (first_tokens (as_layer layer_norm scale N h t) n f b) (N - 1)
    = two_layers (as_layer layer_norm scale N h t) (as_layer layer_norm scale N h u) (window_tokens N n f b) (N - 1)).
  { intros n b H1 H2. apply (stale_early (as_layer layer_norm scale N h t) (as_layer layer_norm scale N h u) n f b); cbn [as_layer l_a t_N]; lia. }
  cbn [as_layer l_a t_H t_D t_N] in A. rewrite dim_ok in A by assumption. revert A. apply answers_imp.
  - intros n y H1 H H2. revert H. apply frame_eq. intros b _. unfold torch. rewrite torch_2 by (rewrite window_length; lia). f_equal. apply ST; assumption.
  - intros n c y H1 H H2. revert H. apply clip_eq. intros b j _ Hj. unfold torch. rewrite torch_2 by (rewrite window_length; lia). f_equal. apply ST; lia.
  - intros x y H L k HL Hk. specialize (H L k Hk). revert H. apply clip_eq. intros b i _ _. symmetry. apply torch_2. rewrite clip_length. lia.
Qed.
End Compute.
