(** The encoders over any sequence of steps and clips. *)
From Coq Require Import List ZArith Bool Arith Lia ZifyBool ZifyNat.
From Verif Require Import Base Frames CoMod Leaf LeafProof Spec Attn AttnSpec Trans TransSpec TransProof CallMode Tensor TensorProof TConvProof
  TAttn TAttnSpec TAttnProof TPoint TPointSpec TPointProof TPointThm TEnc TEncSpec TEncProof TEncThm TEncNet TEncCalls.
Import ListNotations.

Section P.
Context {K : Type} {NK : Num K} {NL : NumLaws K}.
Variable B : nat.
Hypothesis HB : 0 < B.
Variable ctx : option meth.

Lemma over_gen F n n' L sp sp' (h : (nat -> list nat -> list K) -> nat -> list nat -> list K) : 0 < L ->
  (forall s x k, th n B sp x k -> exists y s', F s x = Ok (y, s') /\ th n' B sp' y (h k)) ->
  forall s x k, th n B (L :: sp) x k -> exists y s', over_time F s x = Ok (y, s')
    /\ th n' B (L :: sp') y (fun b q => h (fun b q' => k b (hd 0 q :: q')) b (tl q)).
Proof.
  intros HL HF s x k Hx. unfold over_time. rewrite (th_frames _ _ _ _ _ _ Hx). cbn [bind].
  destruct (each_ok B HB F (fun t u v => t < L /\ th n' B sp' v (h (fun b q => k b (t :: q)))) (map (fun i => select 2 i x) (seq 0 L)) 0 s)
    as (ys & s' & E & Ly & R).
  { intros t u s' Ht. assert (Hl : t < L).
    { assert (nth_error (map (fun i => select 2 i x) (seq 0 L)) t <> None) as Hn by congruence;
        apply nth_error_Some in Hn; rewrite map_length, seq_length in Hn; exact Hn. }
    rewrite nth_error_map, (nth_error_nth' _ 0), seq_nth in Ht by (rewrite ?seq_length; exact Hl). cbn in Ht. injection Ht as <-.
    destruct (HF s' _ _ (th_select n B L sp x k t Hl Hx)) as (y & s'' & Ey & Hy). exists y, s''. split; [exact Ey|]. split; [exact Hl|exact Hy]. }
  rewrite map_length, seq_length in Ly. rewrite E. cbn [bind].
  destruct (th_stack n' B sp' ys (fun b q => h (fun b q' => k b (hd 0 q :: q')) b (tl q)) L Ly HL) as [E2 H2].
  { intros t y Hy. destruct (R t y Hy) as (_ & _ & _ & HR). exact HR. }
  exists (stack 2 ys), s'. rewrite E2. split; [reflexivity|exact H2].
Qed.

Lemma th_squeeze_3 n c x k : th n B [c; 1] x k -> th n B [c] (squeeze 3 x) (fun b q => k b [hd 0 q; 0]).
Proof.
  destruct x as [s d]. intros [Sx Hx]. cbn [sh] in Sx. subst s. split; [reflexivity|].
  intros b q Hb Hq. inversion Hq as [|j ? q' ? Hj Hq']; subst q. inversion Hq'; subst q'. cbn [hd].
  destruct (Hx b [j; 0] Hb) as [Lx Vx]; [repeat constructor; lia|].
  split; [exact Lx|]. intros e He. rewrite <- (Vx e He). unfold get, at_. cbn [sh dat map].
  assert (Eo : offset [B; n; c] [Z.of_nat b; Z.of_nat e; Z.of_nat j] = offset [B; n; c; 1] [Z.of_nat b; Z.of_nat e; Z.of_nat j; Z.of_nat 0]).
  { cbn [offset]. replace (Z.leb 0 (Z.of_nat 0) && Z.ltb (Z.of_nat 0) (Z.of_nat 1)) with true by reflexivity.
    replace (Z.leb 0 (Z.of_nat b) && Z.ltb (Z.of_nat b) (Z.of_nat B)) with true by lia.
    replace (Z.leb 0 (Z.of_nat e) && Z.ltb (Z.of_nat e) (Z.of_nat n)) with true by lia.
    replace (Z.leb 0 (Z.of_nat j) && Z.ltb (Z.of_nat j) (Z.of_nat c)) with true by lia.
    cbn [option_map]. f_equal. }
  change (sh (squeeze 3 (TAttn.T [B; n; c; 1] d))) with [B; n; c]. change (dat (squeeze 3 (TAttn.T [B; n; c; 1] d))) with d.
  rewrite Eo. reflexivity.
Qed.

Section Stream.
Variables (n0 : nat) (F : nat -> tens K) (T : nat) (f : nat -> nat -> list K).
Hypothesis HF : forall t, t < T -> frame_holds n0 B (F t) (fun b => f b t).
Notation streams c := (streams B c n0 F T f).

(** The final norm. *)
Lemma streams_norm m norm J N g : norm_ok n0 norm -> 0 < N -> streams ctx m J n0 [] N g ->
  streams ctx (MSeq (m :: tail_of n0 norm)) (fun i s => J i (hd SNone (kids s))) n0 [] N (fun i b q => normed norm (g i b q)).
Proof.
  intros NO HN HS. apply (streams_seq B HB ctx n0 F T f HF m (tail_of n0 norm) J n0 n0 [] [] N g (fun k b q => normed norm (k b q)) HS); [..|exact HN].
  - intros ss x k Hx. destruct (pws_tail B HB ctx Step n0 norm [] eq_refl NO ss x k false true Hx) as (y & ss' & E & Hy). exists y, ss'. auto.
  - intros L ss x k HL Hx. destruct (pws_tail B HB ctx Steps n0 norm [L] (ex_intro _ L (conj eq_refl HL)) NO ss x k false true Hx) as (y & ss' & E & Hy).
    exists y, ss'. split; [exact E|]. apply th_ext with (2 := Hy). intros b q _ Hq. inversion Hq; reflexivity.
Qed.

Section One.
Variable p : layer K.
Variable norm : option (list K -> list K).
Hypothesis OK : layer_ok p.
Notation E := (t_H (l_a p) * t_D (l_a p)). Notation N := (t_N (l_a p)).
Hypothesis HE : n0 = E.
Hypothesis NO : norm_ok n0 norm.
Definition enc1_J (i : nat) (s : tstate K) : Prop := so_layer_J B F f p (-1) false i (hd SNone (kids (hd SNone (kids s)))).
Lemma streams_enc1 : 0 < N -> streams ctx (encoder1 p norm) enc1_J n0 [] N (fun i b _ => normed norm (layer_token p (window_tokens N i f b) (N - 1))).
Proof.
  intros HN. unfold encoder1, with_norm. change (t_E (l_a p)) with E. rewrite <- HE.
  apply (streams_norm (MSeq [so_layer p (-1) false]) norm (fun i s => so_layer_J B F f p (-1) false i (hd SNone (kids s))) N (fun i b _ => layer_token p (window_tokens N i f b) (N - 1)) NO HN).
  pose proof (streams_so_layer B HB ctx n0 F T f HF p OK HE (-1) false HN ltac:(lia) (or_intror eq_refl)) as HS. rewrite <- HE in HS.
  replace (chosen (-1) N) with (N - 1) in HS by (unfold chosen; cbn [Z.ltb Z.compare]; lia).
  apply (streams_seq B HB ctx n0 F T f HF (so_layer p (-1) false) [] _ n0 n0 [] [] N _ (fun k b q => k b q) HS); [..|exact HN].
  - intros ss x k Hx. exists x, []. split; [reflexivity|exact Hx].
  - intros L ss x k HL Hx. exists x, []. split; [reflexivity|]. apply th_ext with (2 := Hx). intros b q _ Hq. inversion Hq; reflexivity.
Qed.
End One.

Section Two.
Variables p1 p2 : layer K.
Variable norm : option (list K -> list K).
Hypothesis OK1 : layer_ok p1.
Hypothesis OK2 : layer_ok p2.
Notation E := (t_H (l_a p1) * t_D (l_a p1)). Notation N := (t_N (l_a p1)).
Hypothesis HE : n0 = E.
Hypothesis EE : t_H (l_a p2) * t_D (l_a p2) = E.
Hypothesis NO : norm_ok n0 norm.
Hypothesis HC : mode_of ctx (so_layer p2 (-1) true) = Forward.
Definition enc2_J (i : nat) (s : tstate K) : Prop := re_layer_J B F f p1 i (hd SNone (kids (hd SNone (kids s)))).
Definition enc2_row (i b : nat) : list K := layer_token p2 (map (re_row f p1 i b) (seq 0 N)) (N - 1).

Lemma second L s x k : 0 < L -> th n0 B [L] x k ->
  exists y s', must (fun s x => exec ctx Forward (so_layer p2 (-1) true) s x false true) s x = Ok (y, s')
    /\ th n0 B [1] y (fun b _ => layer_token p2 (map (fun i => k b [i]) (seq 0 L)) (L - 1)).
Proof.
  intros HL Hx. assert (Hc : clip_holds E B L x (fun b t => k b [t])).
  { rewrite <- HE. apply th_clip. apply th_ext with (2 := Hx). intros b q _ Hq. inversion Hq as [|? ? q' ? ? Hq']; subst. inversion Hq'. reflexivity. }
  destruct (second_clip B HB ctx p1 p2 OK2 EE L x _ s HL Hc) as (y & s' & E1 & Hy). exists y, s'. split; [exact E1|].
  apply th_clip in Hy. rewrite HE. exact Hy.
Qed.
Lemma streams_enc2 : 2 <= N -> streams ctx (encoder2 p1 p2 norm) enc2_J n0 [] N (fun i b _ => normed norm (enc2_row i b)).
Proof.
  intros HN. unfold encoder2, with_norm. change (t_E (l_a p1)) with E. rewrite <- HE. assert (HN0 : 0 < N) by lia.
  apply (streams_norm _ norm (fun i s => re_layer_J B F f p1 i (hd SNone (kids s))) N (fun i b _ => enc2_row i b) NO HN0).
  pose proof (streams_re_layer B HB ctx n0 F T f HF p1 OK1 HE HN) as HS. rewrite <- HE in HS.
  apply (streams_seq B HB ctx n0 F T f HF (re_layer p1) _ _ n0 n0 [N] [] N _
    (fun k b _ => layer_token p2 (map (fun i => k b [i]) (seq 0 N)) (N - 1)) HS); [..|exact HN0].
  - intros ss x k Hx. destruct (second N (hd SNone ss) x k HN0 Hx) as (y & s1 & E1 & Hy).
    eexists _, _. split.
    + eapply chain_some; [exact (th_not_empty _ _ _ _ _ HB Hx)| |eapply chain_some; [exact (th_not_empty _ _ _ _ _ HB Hy)|reflexivity|reflexivity]].
      cbn [exec]. rewrite HC. cbn [lam_forward]. rewrite E1. reflexivity.
    + assert (E2 : length (sh y) - 1 = 2) by (destruct Hy as [-> _]; reflexivity). rewrite E2. apply th_squeeze in Hy. exact Hy.
  - intros L ss x k HL Hx.
    destruct (over_gen _ n0 n0 L [N] [1] (fun k b _ => layer_token p2 (map (fun i => k b [i]) (seq 0 N)) (N - 1)) HL
      (fun s x k => second N s x k HN0) (hd SNone ss) x k Hx) as (y & s1 & E1 & Hy).
    eexists _, _. split.
    + eapply chain_some; [exact (th_not_empty _ _ _ _ _ HB Hx)| |eapply chain_some; [exact (th_not_empty _ _ _ _ _ HB Hy)|reflexivity|reflexivity]].
      cbn [exec]. rewrite HC. match goal with |- context [lam_forward true ?G] => change (lam_forward true G) with G end. rewrite E1. reflexivity.
    + assert (E2 : length (sh y) - 1 = 3) by (destruct Hy as [-> _]; reflexivity). rewrite E2. apply th_squeeze_3 in Hy. cbn [hd] in Hy. exact Hy.
Qed.
End Two.
End Stream.
End P.
