(** The transformer encoder over arbitrary streams. *)
From Coq Require Import List ZArith Bool Arith Lia ZifyBool ZifyNat.
From Verif Require Import Base Frames CoMod Leaf Spec LeafSpec Ring LeafProof
  Attn AttnSpec AttnProof AttnThm AttnMore Trans TransSpec TransProof.
Import ListNotations.

Section Enc.
Context {K : Type} {NK : Num K} {NL : NumLaws K}.
Variable mk : nat -> layer K.
Variable norm : vec K -> vec K.

Lemma layers_one : encoder_layers 1 mk = Ok [(SINGLE_OUTPUT, mk 0)].
Proof. reflexivity. Qed.

Lemma layers_two : encoder_layers 2 mk
  = Ok [(RETROACTIVE, mk 0); (SINGLE_OUTPUT_FORWARD, mk 1)].
Proof. reflexivity. Qed.

Lemma layers_few n : (n <= 0)%Z -> encoder_layers n mk = encoder_layers 2 mk.
Proof.
  intros H. unfold encoder_layers. replace (Z.eqb n 1) with false by lia.
  replace (Z.to_nat (n - 2)) with 0 by lia. reflexivity.
Qed.

Lemma layers_many n : (3 <= n)%Z -> encoder_layers n mk = Err AssertionError.
Proof.
  intros H. unfold encoder_layers. replace (Z.eqb n 1) with false by lia.
  replace (Z.to_nat (n - 2)) with (S (Z.to_nat (n - 3))) by lia. reflexivity.
Qed.

(** One layer. *)
Lemma enc1_feed xs : forall s outs s',
  feeds (so_layer_step (y_cfg (mk 0)) (y_g (mk 0)) (-1) false) s xs = Ok (outs, s') ->
  feeds (encoder_step 1 mk norm) (inl s) xs = Ok (map (option_map norm) outs, inl s').
Proof.
  induction xs as [|x xs IH]; intros s outs s' E.
  - cbn in *. injection E as <- <-. reflexivity.
  - cbn [feeds] in *. unfold encoder_step at 1. rewrite layers_one. cbn [bind].
    destruct (so_layer_step _ _ _ _ s x) as [[y s1]|]; [|discriminate]. cbn [bind] in *.
    destruct (feeds _ s1 xs) as [[ys s2]|] eqn:E2; [|discriminate]. cbn [bind] in *.
    injection E as <- <-. rewrite (IH _ _ _ E2). reflexivity.
Qed.

Lemma nth_map_none {A B} (f : A -> B) (l : list (option A)) n d : n < length l ->
  nth n (map (option_map f) l) d = option_map f (nth n l None).
Proof.
  intros. rewrite (nth_indep _ d (option_map f None)) by (rewrite map_length; lia).
  apply map_nth.
Qed.

Lemma enc1_stream xs : supported (y_cfg (mk 0)) -> 0 < c_N (y_cfg (mk 0)) ->
  exists outs s', feeds (encoder_step 1 mk norm) (estate_init 1 (mk 0)) xs = Ok (outs, s')
    /\ length outs = length xs
    /\ forall n d, n < length xs ->
       if n + 1 <? c_N (y_cfg (mk 0)) then nth n outs d = None
       else exists ys y,
         encoder_forward 1 mk norm (window (c_N (y_cfg (mk 0))) n xs) = Ok (ys ++ [y])
         /\ length ys = c_N (y_cfg (mk 0)) - 1
         /\ nth n outs d = Some y.
Proof.
  intros Hs HN. set (c := y_cfg (mk 0)) in *. set (g := y_g (mk 0)).
  destruct (so_layer_stream c g (-1) false xs Hs HN ltac:(lia)) as (outs & s' & E & L & N).
  exists (map (option_map norm) outs), (inl s'). split; [|split].
  - apply enc1_feed. exact E.
  - rewrite map_length. exact L.
  - intros n d Hn. rewrite nth_map_none by lia. rewrite N by lia.
    destruct (Nat.ltb_spec (n + 1) (c_N c)) as [H|H]; [reflexivity|].
    destruct (so_layer_window_false c g (-1) n xs Hs HN Hn H) as (ys & Ey & Ly & Ny).
    destruct (exists_last (l := ys)) as (l & y & ->); [intros ->; cbn in Ly; lia|].
    rewrite app_length in Ly. cbn [length] in Ly.
    exists (map norm l), (norm y). split; [|split].
    + unfold encoder_forward. rewrite layers_one. cbn [bind layers_forward layer_forward].
      fold c g. rewrite Ey. cbn [bind]. rewrite map_app. reflexivity.
    + rewrite map_length. lia.
    + cbn [option_map]. do 2 f_equal.
      specialize (Ny (c_N c - 1) [] ltac:(lia)).
      rewrite app_nth2 in Ny by lia. replace (c_N c - 1 - length l) with 0 in Ny by lia.
      cbn [nth] in Ny. rewrite Ny. unfold residual_at. rewrite so_delay_neg1.
      replace (n + 1 - c_N c + (c_N c - 1)) with n by lia. rewrite Nat.sub_0_r.
      reflexivity.
Qed.

(** Two layers. *)
Lemma so_true_total (l : layer K) ys : supported (y_cfg l) -> ys <> [] ->
  exists z, so_layer_forward (y_cfg l) (y_g l) (-1) true ys = Ok [z].
Proof.
  intros Hs Hy. destruct (exists_last Hy) as (l0 & y & ->).
  assert (E : py_index (l0 ++ [y]) (-1) = Ok y).
  { unfold py_index. cbn [Z.ltb]. rewrite app_length. cbn [length].
    replace (Z.ltb (-1) 0) with true by lia.
    replace (Z.ltb _ 0) with false by lia.
    replace (Z.to_nat _) with (length l0) by lia.
    rewrite nth_error_app2, Nat.sub_diag by lia. reflexivity. }
  unfold so_layer_forward, select_forward, so_forward. rewrite so_delay_neg1.
  cbn [Z.of_nat Z.sub Z.add Z.opp]. rewrite E. cbn [bind].
  rewrite mha_forward_attn1 by assumption. eexists. reflexivity.
Qed.

Definition post (zs : res (list (vec K))) : option (vec K) :=
  match zs with Ok (z :: _) => Some (norm z) | _ => None end.

Definition post2 (r : option (list (vec K))) : option (vec K) :=
  match r with
  | None => None
  | Some ys => post (so_layer_forward (y_cfg (mk 1)) (y_g (mk 1)) (-1) true ys)
  end.

Lemma enc2_feed xs : supported (y_cfg (mk 1)) -> forall s outs s',
  feeds (re_layer_step (y_cfg (mk 0)) (y_g (mk 0))) s xs = Ok (outs, s') ->
  (forall ys, In (Some ys) outs -> ys <> []) ->
  feeds (encoder_step 2 mk norm) (inr s) xs = Ok (map post2 outs, inr s').
Proof.
  intros Hs. induction xs as [|x xs IH]; intros s outs s' E Hne.
  - cbn in *. injection E as <- <-. reflexivity.
  - cbn [feeds] in *. unfold encoder_step at 1. rewrite layers_two. cbn [bind tl].
    destruct (re_layer_step _ _ s x) as [[r s1]|]; [|discriminate]. cbn [bind] in *.
    destruct (feeds _ s1 xs) as [[ys s2]|] eqn:E2; [|discriminate]. cbn [bind] in *.
    injection E as <- <-.
    destruct r as [r|]; cbn [layers_forward layer_forward].
    + destruct (so_true_total (mk 1) r Hs) as (z & Ez); [apply Hne; left; reflexivity|].
      rewrite Ez. cbn [bind].
      rewrite (IH _ _ _ E2) by (intros; apply Hne; right; assumption).
      cbn [bind map post2]. rewrite Ez. reflexivity.
    + cbn [bind]. rewrite (IH _ _ _ E2) by (intros; apply Hne; right; assumption).
      reflexivity.
Qed.

Lemma enc2_stream xs : supported (y_cfg (mk 0)) -> supported (y_cfg (mk 1)) ->
  2 <= c_N (y_cfg (mk 0)) ->
  exists outs s', feeds (encoder_step 2 mk norm) (estate_init 2 (mk 0)) xs = Ok (outs, s')
    /\ length outs = length xs
    /\ forall n d, n < length xs ->
       (n + 1 < c_N (y_cfg (mk 0)) -> nth n outs d = None)
       /\ (c_N (y_cfg (mk 0)) <= n + 1 -> exists z, nth n outs d = Some z)
       /\ (c_N (y_cfg (mk 0)) <= n + 1 -> n < 2 * (c_N (y_cfg (mk 0)) - 1) ->
           exists z, nth n outs d = Some z
           /\ encoder_forward 2 mk norm (window (c_N (y_cfg (mk 0))) n xs) = Ok [z]).
Proof.
  intros Hs Hs1 HN. set (c := y_cfg (mk 0)) in *. set (g := y_g (mk 0)).
  destruct (re_layer_stream c g xs Hs HN) as (outs & s' & E & L & N).
  assert (LM : forall n, n < length xs -> c_N c <= n + 1 ->
    length (mha_forward c (window (c_N c) n xs) (window (c_N c) n xs) (window (c_N c) n xs))
    = c_N c).
  { intros n Hn H. rewrite mha_forward_attn1, map_length, window_length by assumption.
    reflexivity. }
  assert (Hne : forall n ys, n < length xs -> nth n outs None = Some ys -> ys <> []).
  { intros n ys Hn Ey. rewrite N in Ey by lia.
    destruct (Nat.ltb_spec (n + 1) (c_N c)); [discriminate|].
    assert (length ys = c_N c) as Ly; [|intros ->; cbn in Ly; lia].
    destruct (Nat.ltb_spec n (2 * (c_N c - 1))); injection Ey as <-.
    - unfold re_layer_forward, unity_forward.
      rewrite map_length, map2_length; rewrite ?LM, ?window_length by lia; reflexivity.
    - rewrite map_length, map2_length; rewrite ?LM, ?stale_length by lia; lia. }
  exists (map post2 outs), (inr s'). split; [|split].
  - apply enc2_feed; [assumption|exact E|]. intros ys Hin.
    apply In_nth with (d := None) in Hin. destruct Hin as (n & Hn & Ey).
    apply (Hne n); [lia|exact Ey].
  - rewrite map_length. exact L.
  - intros n d Hn.
    assert (Ep : nth n (map post2 outs) d = post2 (nth n outs None)).
    { rewrite (nth_indep _ d (post2 None)) by (rewrite map_length; lia). apply map_nth. }
    rewrite Ep. split; [|split].
    + intros H. rewrite N by lia. replace (n + 1 <? c_N c) with true by lia. reflexivity.
    + intros H. destruct (nth n outs None) as [ys|] eqn:Ey.
      * destruct (so_true_total (mk 1) ys Hs1 (Hne n ys Hn Ey)) as (z & Ez).
        exists (norm z). cbn [post2]. rewrite Ez. reflexivity.
      * rewrite N in Ey by lia. replace (n + 1 <? c_N c) with false in Ey by lia.
        destruct (n <? 2 * (c_N c - 1)); discriminate.
    + intros H1 H2. assert (Ey : nth n outs None = Some (re_layer_forward c g (window (c_N c) n xs))).
      { rewrite N by lia. replace (n + 1 <? c_N c) with false by lia.
        replace (n <? 2 * (c_N c - 1)) with true by lia. reflexivity. }
      destruct (so_true_total (mk 1) _ Hs1 (Hne n _ Hn Ey)) as (z & Ez).
      exists (norm z). rewrite Ey. cbn [post2]. rewrite Ez. split; [reflexivity|].
      unfold encoder_forward. rewrite layers_two.
      cbn [bind layers_forward layer_forward]. fold c g. rewrite Ez. reflexivity.
Qed.

Lemma enc_many n xs s x : (3 <= n)%Z ->
  encoder_layers n mk = Err AssertionError
  /\ encoder_forward n mk norm xs = Err AssertionError
  /\ encoder_step n mk norm s x = Err AssertionError.
Proof.
  intros H. unfold encoder_forward, encoder_step. rewrite layers_many by lia. auto.
Qed.

End Enc.

(** Retroactive and single-output layers in the form of the properties. *)
Section Layers.
Context {K : Type} {NK : Num K} {NL : NumLaws K}.

Lemma so_layer_true (c : cfg K) g qi xs : supported c -> 0 < c_N c ->
  (- Z.of_nat (c_N c) <= qi < Z.of_nat (c_N c))%Z ->
  exists outs s', feeds (so_layer_step c g qi true) lstate_init xs = Ok (outs, s')
    /\ length outs = length xs
    /\ forall n d, n < length xs ->
       if n + 1 <? c_N c then nth n outs d = None
       else exists y, nth n outs d = Some y
                      /\ so_layer_forward c g qi true (window (c_N c) n xs) = Ok [y].
Proof.
  intros Hs HN Hq. destruct (so_layer_stream c g qi true xs Hs HN Hq) as (outs & s' & E & L & N).
  exists outs, s'. split; [exact E|]. split; [exact L|]. intros n d Hn.
  rewrite N by lia. destruct (Nat.ltb_spec (n + 1) (c_N c)) as [H|H]; [reflexivity|].
  eexists. split; [reflexivity|]. rewrite so_layer_window_true by assumption. reflexivity.
Qed.

Lemma so_layer_last (c : cfg K) g xs : supported c -> 0 < c_N c ->
  exists outs s', feeds (so_layer_step c g (-1) false) lstate_init xs = Ok (outs, s')
    /\ length outs = length xs
    /\ forall n d, n < length xs ->
       if n + 1 <? c_N c then nth n outs d = None
       else exists ys y, nth n outs d = Some y
          /\ so_layer_forward c g (-1) false (window (c_N c) n xs) = Ok (ys ++ [y])
          /\ length ys = c_N c - 1.
Proof.
  intros Hs HN.
  destruct (so_layer_stream c g (-1) false xs Hs HN ltac:(lia)) as (outs & s' & E & L & N).
  exists outs, s'. split; [exact E|]. split; [exact L|]. intros n d Hn.
  rewrite N by lia. destruct (Nat.ltb_spec (n + 1) (c_N c)) as [H|H]; [reflexivity|].
  destruct (so_layer_window_false c g (-1) n xs Hs HN Hn H) as (ys & Ey & Ly & Ny).
  destruct (exists_last (l := ys)) as (l & y & ->); [intros ->; cbn in Ly; lia|].
  rewrite app_length in Ly. cbn [length] in Ly.
  exists l, y. split; [|split; [exact Ey|lia]]. f_equal.
  specialize (Ny (c_N c - 1) [] ltac:(lia)).
  rewrite app_nth2 in Ny by lia. replace (c_N c - 1 - length l) with 0 in Ny by lia.
  cbn [nth] in Ny. rewrite Ny. unfold residual_at. rewrite so_delay_neg1.
  replace (n + 1 - c_N c + (c_N c - 1)) with n by lia. rewrite Nat.sub_0_r. reflexivity.
Qed.

(** With forward over all queries but a query index other than the last, the
    step adds the attention of one token to the residual of another. *)
Lemma so_layer_mixed (c : cfg K) g qi xs : supported c -> 0 < c_N c ->
  (- Z.of_nat (c_N c) <= qi < Z.of_nat (c_N c))%Z ->
  exists outs s', feeds (so_layer_step c g qi false) lstate_init xs = Ok (outs, s')
    /\ length outs = length xs
    /\ forall n d, n < length xs ->
       nth n outs d =
       if n + 1 <? c_N c then None
       else Some (g (fadd (nth n xs [])
              (attention c (nth (n - so_delay (c_N c) qi) xs [])
                 (window (c_N c) n xs) (window (c_N c) n xs)))).
Proof.
  intros Hs HN Hq. destruct (so_layer_stream c g qi false xs Hs HN Hq) as (outs & s' & E & L & N).
  exists outs, s'. split; [exact E|]. split; [exact L|]. intros n d Hn. rewrite N, attn1_attention by exact Hn. reflexivity.
Qed.

Lemma unity_zero_steps (F : Type) (FA : Frames F) m upd (xs : list F) (o : obj F) :
  feeds (fun o x => unity_forward_step 0 m o x upd) o xs = Ok (map (fun x => Some [x]) xs, o).
Proof. induction xs as [|x xs IH]; [reflexivity|]. cbn in *. rewrite IH. reflexivity. Qed.
Lemma unity_zero (F : Type) (FA : Frames F) m (x : F) :
  exists e, unity_fstep 0 m x None = Err e.
Proof. exists RuntimeError. destruct m; reflexivity. Qed.

End Layers.
