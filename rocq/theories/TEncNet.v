(** Transformer encoders on whole tensors. *)
From Coq Require Import List ZArith Bool Arith Lia ZifyBool ZifyNat.
From Verif Require Import Base Frames CoMod Leaf LeafProof Spec Attn AttnSpec Trans TransSpec TransProof CallMode Tensor TensorProof TConvProof
  TAttn TAttnSpec TAttnProof TPoint TPointSpec TPointProof TPointThm TEnc TEncSpec TEncProof TEncThm.
Import ListNotations.

Section P.
Context {K : Type} {NK : Num K} {NL : NumLaws K}.
Variable B : nat.
Hypothesis HB : 0 < B.
Variable ctx : option meth.

Lemma chain_some me ex (m : tmod K) l ss (x y : tens K) s1 z ss' : empty_batch x = false -> ex m (hd SNone ss) x = Ok (Some y, s1) ->
  chain me ex l (tl ss) y = Ok (z, ss') -> chain me ex (m :: l) ss x = Ok (z, s1 :: ss').
Proof. intros E0 E1 E2. rewrite chain_cons, E0, E1. cbn [bind]. rewrite E2. destruct me; reflexivity. Qed.
Lemma seq_of me l s (x : tens K) pe upd z ss : chain me (fun m s x => exec ctx me m s x pe upd) l (kids s) x = Ok (z, ss) ->
  exec ctx me (MSeq l) s x pe upd = Ok (z, SList ss).
Proof. intros H. cbn [exec]. rewrite H. reflexivity. Qed.

(** A stateful module followed by modules that answer every output it gives. *)
(** The final norm. *)
Definition tail_of (n : nat) (norm : option (list K -> list K)) : list (tmod K) :=
  match norm with Some f => [MLam false false (MNorm n f)] | None => [] end.
Lemma pws_tail me n norm sp : match me with Forward | Steps => exists L, sp = [L] /\ 0 < L | Step => sp = [] end -> norm_ok n norm ->
  pws ctx me (tail_of n norm) n n B sp (normed norm).
Proof.
  intros Hsp Hn. destruct norm as [f|]; cbn [tail_of normed].
  - eapply pws_g; cycle 1.
    + eapply (pws_cons B HB); [|apply (pws_nil B)]. destruct me.
      * destruct Hsp as (L & -> & HL). apply (pw_lam_clip B HB); auto. apply pw_norm. exact Hn.
      * destruct Hsp as (L & -> & HL). apply (pw_lam_clip B HB); auto. apply pw_norm. exact Hn.
      * subst sp. apply (pw_lam_step B). apply pw_norm. exact Hn.
    + reflexivity.
  - eapply pws_g; cycle 1; [apply (pws_nil B)|reflexivity].
Qed.
Lemma clip_pws me l n n' L g : pws ctx me l n n' B [L] g -> forall ss x f pe upd, clip_holds n B L x f ->
  exists y ss', chain me (fun m s x => exec ctx me m s x pe upd) l ss x = Ok (Some y, ss') /\ clip_holds n' B L y (fun b t => g (f b t)).
Proof.
  intros H ss x f pe upd Hx. apply th_clip in Hx. destruct (H ss x _ pe upd Hx) as (y & ss' & E & Hy).
  exists y, ss'. split; [exact E|]. apply th_clip. exact Hy.
Qed.
(** *** One layer *)
Section One.
Variable p : layer K.
Variable norm : option (list K -> list K).
Hypothesis OK : layer_ok p.
Notation E := (t_H (l_a p) * t_D (l_a p)). Notation N := (t_N (l_a p)).
Hypothesis NO : norm_ok E norm.

Lemma enc1_forward L x f s pe upd : 0 < L -> clip_holds E B L x f ->
  exists y s', exec ctx Forward (encoder1 p norm) s x pe upd = Ok (Some y, s')
    /\ clip_holds E B L y (fun b t => normed norm (layer_token p (clip_tokens L f b) t)).
Proof.
  intros HL Hx. pose proof (clip_not_empty B HB _ _ _ _ Hx) as E0.
  destruct (so_forward_all B HB ctx p OK L x f (-1) (hd SNone (kids (hd SNone (kids s)))) pe upd HL Hx) as (y & s1 & E1 & Hy).
  destruct (clip_pws Forward _ _ _ L _ (pws_tail Forward E norm [L] (ex_intro _ L (conj eq_refl HL)) NO) (tl (kids s)) y _ pe upd Hy) as (w & ss & Ew & Hw).
  eexists w, _. split; [|exact Hw]. apply seq_of. eapply chain_some; [exact E0|apply seq_of|exact Ew].
  eapply chain_some; [exact E0|exact E1|reflexivity].
Qed.

End One.

(** *** Two layers *)
Section Two.
Variables p1 p2 : layer K.
Variable norm : option (list K -> list K).
Hypothesis OK1 : layer_ok p1.
Hypothesis OK2 : layer_ok p2.
Notation E := (t_H (l_a p1) * t_D (l_a p1)). Notation N := (t_N (l_a p1)).
Hypothesis EE : t_H (l_a p2) * t_D (l_a p2) = E.
Hypothesis NO : norm_ok E norm.
Hypothesis HC : mode_of ctx (so_layer p2 (-1) true) = Forward.

(** The second layer runs [forward] on the clip. *)
Lemma second_clip L x f s : 0 < L -> clip_holds E B L x f ->
  exists y s', must (fun s x => exec ctx Forward (so_layer p2 (-1) true) s x false true) s x = Ok (y, s')
    /\ clip_holds E B 1 y (fun b _ => layer_token p2 (clip_tokens L f b) (L - 1)).
Proof.
  intros HL Hx. rewrite <- EE in Hx |- *.
  destruct (so_forward_one B HB ctx p2 OK2 L x f (-1) s false true ltac:(lia) (or_introl eq_refl) Hx) as (y & s' & E1 & Hy).
  exists y, s'. unfold must. rewrite E1. cbn [bind]. split; [reflexivity|].
  replace (L - 1) with (chosen (-1) L) by (unfold chosen; cbn [Z.ltb Z.compare]; lia). exact Hy.
Qed.

Lemma enc2_forward L x f s pe upd : 0 < L -> clip_holds E B L x f ->
  exists y s', exec ctx Forward (encoder2 p1 p2 norm) s x pe upd = Ok (Some y, s')
    /\ clip_holds E B 1 y (fun b _ => normed norm (two_layers p1 p2 (clip_tokens L f b) (L - 1))).
Proof.
  intros HL Hx. pose proof (clip_not_empty B HB _ _ _ _ Hx) as E0.
  set (s0 := kids (hd SNone (kids s))).
  destruct (re_forward B HB ctx p1 OK1 L x f (hd SNone s0) pe upd HL Hx) as (y & s1 & E1 & Hy).
  destruct (second_clip L y _ (hd SNone (tl s0)) HL Hy) as (z & s2 & E2 & Hz).
  destruct (clip_pws Forward _ _ _ 1 _ (pws_tail Forward E norm [1] (ex_intro _ 1 (conj eq_refl Nat.lt_0_1)) NO) (tl (kids s)) z _ pe upd Hz) as (w & ss & Ew & Hw).
  eexists w, _. split.
  - apply seq_of. eapply chain_some; [exact E0|apply seq_of|exact Ew]. eapply chain_some; [exact E0|exact E1|].
    eapply chain_some; [exact (clip_not_empty B HB _ _ _ _ Hy)| |].
    + cbn [exec]. rewrite HC. cbn [lam_forward]. unfold s0 in E2. rewrite E2. reflexivity.
    + eapply chain_some; [exact (clip_not_empty B HB _ _ _ _ Hz)|reflexivity|reflexivity].
  - apply clip_ext with (2 := Hw). intros b t Hb Ht. unfold two_layers. replace (length (clip_tokens L f b)) with L by (unfold clip_tokens; rewrite map_length, seq_length; reflexivity). reflexivity.
Qed.

(** Row [i] of the output of the first layer at time [n]. *)
Definition first_row (f : nat -> nat -> list K) (n b i : nat) : list K :=
  post p1 (plus (f b (residual_time (N - 1) n i)) (attend p1 (window_tokens N n f b) i)).

(** Before time 2 (N - 1) the residual is the right one. *)
Lemma first_row_early f n b i : N - 1 <= n -> n < 2 * (N - 1) -> i < N -> first_row f n b i = layer_token p1 (window_tokens N n f b) i.
Proof using K NK p1.
  intros H1 H2 Hi. clear - H1 H2 Hi. unfold first_row, layer_token. rewrite window_nth by exact Hi. unfold residual_time.
  replace (n <? 2 * (N - 1)) with true by lia. do 2 f_equal. f_equal. lia.
Qed.
End Two.
End P.
