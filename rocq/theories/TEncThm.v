(** Transformer layers and encoders on whole tensors. *)
From Coq Require Import List ZArith Bool Arith Lia ZifyBool ZifyNat.
From Verif Require Import Base Frames CoMod Leaf LeafProof Spec Attn AttnSpec Trans TransSpec TransProof CallMode Tensor TensorProof TConvProof
  TAttn TAttnSpec TAttnProof TPoint TPointSpec TPointProof TPointThm TEnc TEncSpec TEncProof.
Import ListNotations.

Section P.
Context {K : Type} {NK : Num K} {NL : NumLaws K}.
Variable B : nat.
Hypothesis HB : 0 < B.
Variable ctx : option meth.

Lemma plus_comm (u v : list K) : plus u v = plus v u.
Proof.
  unfold plus. revert v. induction u as [|x u IH]; intros [|y v]; cbn; try reflexivity. f_equal; [apply kadd_comm|apply IH].
Qed.
Lemma pw_naive me m n sp g : pw ctx (mode_of ctx m) m n n B sp g -> pw ctx me (MNaive m) n n B sp (fun v => plus v (g v)).
Proof.
  intros H s x f pe upd Hx. destruct (pw_must B ctx _ _ _ _ _ H s x f Hx) as (y & s' & E & Hy).
  destruct (th_add n B sp y x _ _ Hy Hx) as (z & Ez & Hz). exists z, s'. split.
  - cbn [exec]. rewrite E. cbn [bind]. rewrite Ez. reflexivity.
  - apply th_ext with (2 := Hz). intros b q _ _. apply plus_comm.
Qed.
(** Plain nn.Sequential. *)
Definition pwn (l : list (tmod K)) (n n' : nat) (sp : list nat) (g : list K -> list K) : Prop :=
  forall ss x f, th n B sp x f ->
    exists y ss', chain Forward (fun m s x => exec ctx (mode_of ctx m) m s x false true) l ss x = Ok (Some y, ss') /\ th n' B sp y (fun b q => g (f b q)).
Lemma pwn_nil n sp : pwn [] n n sp (fun v => v).
Proof. intros ss x f H. exists x, []. split; [reflexivity|]. exact H. Qed.
Lemma pwn_cons m l n1 n2 n3 sp g h : pw ctx (mode_of ctx m) m n1 n2 B sp g -> pwn l n2 n3 sp h -> pwn (m :: l) n1 n3 sp (fun v => h (g v)).
Proof.
  intros Hm Hl ss x f H. destruct (Hm (hd SNone ss) x f false true H) as (y & s' & E1 & Hy).
  destruct (Hl (tl ss) y _ Hy) as (z & ss' & E2 & Hz). exists z, (s' :: ss'). split; [|exact Hz].
  rewrite chain_cons, E1. cbn [bind]. rewrite E2. reflexivity.
Qed.
Lemma pwn_g l n n' sp g h : (forall v, g v = h v) -> pwn l n n' sp g -> pwn l n n' sp h.
Proof.
  intros Hg H s x f Hx. destruct (H s x f Hx) as (y & s' & E & Hy). exists y, s'. split; [exact E|].
  apply th_ext with (2 := Hy). intros b q Hb Hq. apply Hg.
Qed.
Lemma pw_nn me l n n' sp g : pwn l n n' sp g -> pw ctx me (MNN l) n n' B sp g.
Proof.
  intros H s x f pe upd Hx. destruct (H (kids s) x f Hx) as (y & ss & E & Hy). exists y, (SList ss). split; [|exact Hy].
  cbn [exec]. rewrite E. reflexivity.
Qed.

Section Layer.
Variable p : layer K.
Notation a := (l_a p). Notation E := (t_H (l_a p) * t_D (l_a p)). Notation N := (t_N (l_a p)).
Hypothesis OK : layer_ok p.
Let n1_len v : length v = E -> length (l_norm1 p v) = E := proj1 (proj2 (proj2 (proj2 OK))) v.
Let n2_len v : length v = E -> length (l_norm2 p v) = E := proj2 (proj2 (proj2 (proj2 OK))) v.

(** The spatial dimensions a pointwise part of the single-output layer sees. *)
Definition so_sp (me : meth) (sp : list nat) : Prop := match me with Step => sp = [] | _ => exists L, 0 < L /\ sp = [L] end.
Lemma pw_lam me fn n n' sp g : so_sp me sp -> pw ctx (mode_of ctx fn) fn n n' B [] g -> pw ctx me (MLam false false fn) n n' B sp g.
Proof.
  intros Hsp H. destruct me; cbn [so_sp] in Hsp.
  - destruct Hsp as (L & HL & ->). apply pw_lam_clip; auto.
  - destruct Hsp as (L & HL & ->). apply pw_lam_clip; auto.
  - subst sp. apply pw_lam_step. exact H.
Qed.
Lemma pw_so_ff me sp : so_sp me sp -> pw ctx me (so_ff p) E E B sp (feed_forward p).
Proof.
  intros Hsp. unfold so_ff. apply pw_seq. change (t_E a) with E. eapply pws_g; cycle 1.
  - eapply (pws_cons B HB); [apply pw_lin; left; reflexivity|].
    eapply (pws_cons B HB); [apply pw_lam; [exact Hsp|apply pw_fun]|].
    eapply (pws_cons B HB); [apply pw_drop|].
    eapply (pws_cons B HB); [apply pw_lin; left; reflexivity|].
    eapply (pws_cons B HB); [apply pw_drop|]. apply pws_nil.
  - reflexivity.
Qed.
Lemma pw_re_ff me : pw ctx me (re_ff p) E E B [] (feed_forward p).
Proof.
  unfold re_ff. apply pw_seq. change (t_E a) with E. eapply pws_g; cycle 1.
  - eapply (pws_cons B HB); [apply pw_lin; right; split; reflexivity|].
    eapply (pws_cons B HB); [apply pw_lam_fun|].
    eapply (pws_cons B HB); [apply pw_drop|].
    eapply (pws_cons B HB); [apply pw_lin; right; split; reflexivity|].
    eapply (pws_cons B HB); [apply pw_drop|]. apply pws_nil.
  - reflexivity.
Qed.
Definition so_post : tmod K :=
  MSeq [MLam false false (MNorm E (l_norm1 p)); MBR false [MDel false 0; so_ff p]; MLam false false (MNorm E (l_norm2 p))].
Lemma pw_so_post me sp : so_sp me sp -> pw ctx me so_post E E B sp (post p).
Proof.
  intros Hsp. unfold so_post. apply pw_seq. eapply pws_g; cycle 1.
  - eapply (pws_cons B HB); [apply pw_lam; [exact Hsp|apply pw_norm, n1_len]|].
    eapply (pws_cons B HB); [apply pw_res; [exact HB|apply pw_so_ff; exact Hsp]|].
    eapply (pws_cons B HB); [apply pw_lam; [exact Hsp|apply pw_norm, n2_len]|]. apply pws_nil.
  - reflexivity.
Qed.
Definition re_post_fn : tmod K := MNN [MNorm E (l_norm1 p); MNaive (re_ff p); MNorm E (l_norm2 p)].
Lemma pw_re_post me : pw ctx me re_post_fn E E B [] (post p).
Proof.
  unfold re_post_fn. apply pw_nn. eapply pwn_g; cycle 1.
  - eapply pwn_cons; [apply pw_norm, n1_len|]. eapply pwn_cons; [apply pw_naive, pw_re_ff|].
    eapply pwn_cons; [apply pw_norm, n2_len|]. apply pwn_nil.
  - reflexivity.
Qed.

(** *** Attention *)
Lemma idx_eq b t e : idx a b t e = [b; e; t].
Proof. unfold idx. rewrite (proj1 (proj2 OK)), (proj1 (proj2 (proj2 OK))). reflexivity. Qed.
Lemma clip_sh n L x f : clip_holds n B L x f -> n = E -> clip_shape a B L x.
Proof. intros [Hs _] ->. unfold clip_shape. rewrite idx_eq. exact Hs. Qed.
Lemma token_holds L x f b t : clip_holds E B L x f -> b < B -> t < L -> token a x b t = f b t.
Proof.
  intros [_ Hx] Hb Ht. destruct (Hx b t Hb Ht) as [Lx Vx]. unfold token. rewrite (list_nth_seq (f b t) k0), Lx.
  apply map_ext_in. intros e He. apply in_seq in He. rewrite idx_eq. apply Vx. lia.
Qed.
Lemma tokens_holds L x f b : clip_holds E B L x f -> b < B -> map (token a x b) (seq 0 L) = clip_tokens L f b.
Proof. intros Hx Hb. unfold clip_tokens. apply map_ext_in. intros t Ht. apply in_seq in Ht. apply token_holds with L; auto; lia. Qed.
Lemma clip_nth L (f : nat -> nat -> list K) b i : i < L -> nth i (clip_tokens L f b) [] = f b i.
Proof. intros Hi. unfold clip_tokens. rewrite nth_map_seq by exact Hi. reflexivity. Qed.
Lemma attend_len ts i : length (attend p ts i) = E.
Proof. unfold attend. rewrite map_length, seq_length. reflexivity. Qed.
Lemma attend_nth ts i e : e < E -> nth e (attend p ts i) k0 = mha_entry a (nth i ts []) ts ts e.
Proof. intros He. unfold attend. rewrite nth_map_seq by exact He. reflexivity. Qed.

Lemma attn_forward L x f : clip_holds E B L x f ->
  exists y, b_forward a x x x = Ok y /\ clip_holds E B L y (fun b t => attend p (clip_tokens L f b) t).
Proof.
  intros Hx. pose proof (clip_sh _ _ _ _ Hx eq_refl) as Sx.
  destruct (b_forward_ok a B L L x x x HB (proj1 OK) Sx Sx Sx) as (y & Ey & Sy & Vy).
  exists y. split; [exact Ey|]. unfold clip_shape in Sy. rewrite idx_eq in Sy. split; [exact Sy|].
  intros b t Hb Ht. split; [apply attend_len|]. intros e He. specialize (Vy b t e Hb Ht He). rewrite idx_eq in Vy. rewrite Vy, attend_nth by exact He.
  rewrite (tokens_holds L x f) by assumption. rewrite clip_nth by exact Ht. rewrite (token_holds L x f) by assumption. reflexivity.
Qed.
Lemma attn_forward_single L x f qi : clip_holds E B L x f -> (- Z.of_nat L <= qi < Z.of_nat L)%Z ->
  exists y, s_forward a true qi x x x = Ok y
    /\ clip_holds E B 1 y (fun b _ => attend p (clip_tokens L f b) (Z.to_nat (if Z.ltb qi 0 then qi + Z.of_nat L else qi))).
Proof.
  intros Hx Hq. pose proof (clip_sh _ _ _ _ Hx eq_refl) as Sx.
  destruct (s_forward_single a B L L x x x qi HB (proj1 OK) Sx Sx Sx Hq) as (y & Ey & Sy & Vy).
  set (j := Z.to_nat (if Z.ltb qi 0 then qi + Z.of_nat L else qi)) in *.
  assert (Hj : j < L) by (unfold j; destruct (Z.ltb_spec qi 0); lia).
  exists y. split; [exact Ey|]. unfold clip_shape in Sy. rewrite idx_eq in Sy. split; [exact Sy|].
  intros b t Hb Ht. replace t with 0 by lia. split; [apply attend_len|]. intros e He.
  specialize (Vy b e Hb He). rewrite idx_eq in Vy. rewrite Vy, attend_nth by exact He.
  rewrite (tokens_holds L x f) by assumption. rewrite clip_nth by exact Hj. rewrite (token_holds L x f) by assumption. reflexivity.
Qed.

(** *** forward *)
Lemma clip_ext n L x f g : (forall b t, b < B -> t < L -> f b t = g b t) -> clip_holds n B L x f -> clip_holds n B L x g.
Proof. intros H [Hs Hx]. split; [exact Hs|]. intros b t Hb Ht. rewrite <- H by assumption. apply Hx; assumption. Qed.
Lemma clip_add n L x y f g : clip_holds n B L x f -> clip_holds n B L y g ->
  exists z, t_add x y = Ok z /\ clip_holds n B L z (fun b t => plus (f b t) (g b t)).
Proof. intros Hx Hy. apply th_clip in Hx, Hy. destruct (th_add _ _ _ _ _ _ _ Hx Hy) as (z & Ez & Hz). exists z. split; [exact Ez|]. apply th_clip. exact Hz. Qed.
Lemma clip_pw me m n n' L g : pw ctx me m n n' B [L] g -> forall s x f pe upd, clip_holds n B L x f ->
  exists y s', exec ctx me m s x pe upd = Ok (Some y, s') /\ clip_holds n' B L y (fun b t => g (f b t)).
Proof. intros H s x f pe upd Hx. apply th_clip in Hx. destruct (H s x _ pe upd Hx) as (y & s' & E1 & Hy). exists y, s'. split; [exact E1|]. apply th_clip. exact Hy. Qed.
Lemma frame_pw me m n n' g : pw ctx me m n n' B [] g -> forall s x f pe upd, frame_holds n B x f ->
  exists y s', exec ctx me m s x pe upd = Ok (Some y, s') /\ frame_holds n' B y (fun b => g (f b)).
Proof. intros H s x f pe upd Hx. apply th_frame in Hx. destruct (H s x _ pe upd Hx) as (y & s' & E1 & Hy). exists y, s'. split; [exact E1|]. apply th_frame. exact Hy. Qed.
Lemma clip_not_empty n L x f : clip_holds n B L x f -> empty_batch x = false.
Proof. intros H. apply th_clip in H. apply (th_not_empty _ _ _ _ _ HB H). Qed.
Lemma frame_not_empty n x f : frame_holds n B x f -> empty_batch x = false.
Proof. intros H. apply th_frame in H. apply (th_not_empty _ _ _ _ _ HB H). Qed.
Lemma clip_shape_eq n L x f : clip_holds n B L x f -> sh x = [B; n; L].
Proof. intros [H _]. exact H. Qed.

(** A layer is a residual, an attention and a pointwise part. *)
Definition st1 (s : tstate K) : tstate K := hd SNone (kids (hd SNone (kids s))).
Definition st2 (s : tstate K) : tstate K := hd SNone (tl (kids (hd SNone (kids s)))).
Definition st3 (s : tstate K) : tstate K := hd SNone (tl (kids s)).
Definition shaped (lp : bool) (m1 m2 po : tmod K) : tmod K := MSeq [MBR lp [m1; m2]; po].
Lemma shaped_some me (lp : bool) m1 m2 po s x pe upd y1 s1 y2 s2 z w s3 :
  empty_batch x = false -> empty_batch y1 = false -> empty_batch y2 = false -> empty_batch z = false ->
  exec ctx me m1 (st1 s) x pe upd = Ok (Some y1, s1) -> exec ctx me m2 (st2 s) x pe upd = Ok (Some y2, s2) ->
  (if lp then t_sum_last [y1; y2] else t_reduce_sum [y1; y2]) = Ok z ->
  exec ctx me po (st3 s) z pe upd = Ok (Some w, s3) ->
  exec ctx me (shaped lp m1 m2 po) s x pe upd = Ok (Some w, SList [SList [s1; s2]; s3]).
Proof.
  intros B0 B1 B2 B3 E1 E2 Ez Ew. unfold shaped. cbn [exec]. rewrite chain_cons, B0. unfold st1, st2, st3 in *. cbn [exec fan].
  rewrite E1. cbn [bind]. rewrite E2. cbn [bind]. unfold t_reduce. cbn [somes option_map existsb]. rewrite B1, B2. cbn [orb].
  rewrite Ez. cbn [bind]. rewrite chain_cons, B3. rewrite Ew. cbn [bind chain]. destruct me; reflexivity.
Qed.
Lemma shaped_none lp m1 m2 po s x pe upd y1 s1 y2 s2 : y1 = None \/ y2 = None ->
  exec ctx Step m1 (st1 s) x pe upd = Ok (y1, s1) -> exec ctx Step m2 (st2 s) x pe upd = Ok (y2, s2) ->
  exists s', exec ctx Step (shaped lp m1 m2 po) s x pe upd = Ok (None, s') /\ st1 s' = s1 /\ st2 s' = s2.
Proof.
  intros Hn E1 E2. eexists. split.
  - unfold shaped. cbn [exec]. rewrite chain_cons. unfold st1, st2 in *. cbn [exec fan].
    rewrite E1. cbn [bind]. rewrite E2. cbn [bind]. unfold t_reduce.
    destruct Hn as [-> | ->]; cbn [somes option_map]; [|destruct y1]; cbn [option_map bind]; reflexivity.
  - split; reflexivity.
Qed.

Lemma re_shaped : re_layer p = shaped false (MUni (N - 1)) (MRE a) (MLam true false (re_post_fn)).
Proof. reflexivity. Qed.
Definition so_res (qi : Z) (sof : bool) : tmod K := if sof then MDel true (so_delay N qi) else MLam false true (MFun (fun v => v)).
Lemma so_shaped qi sof : so_layer p qi sof = shaped true (so_res qi sof) (MSO a qi sof) so_post.
Proof. reflexivity. Qed.

Lemma re_forward L x f s pe upd : 0 < L -> clip_holds E B L x f ->
  exists y s', exec ctx Forward (re_layer p) s x pe upd = Ok (Some y, s')
    /\ clip_holds E B L y (fun b t => layer_token p (clip_tokens L f b) t).
Proof.
  intros HL Hx. destruct (attn_forward L x f Hx) as (y & Ey & Hy). destruct (clip_add _ _ _ _ _ _ Hx Hy) as (z & Ez & Hz).
  destruct (clip_pw Forward (MLam true false re_post_fn) E E L (post p) (pw_lam_clip B HB ctx _ _ _ _ _ _ Forward true (or_introl eq_refl) HL (pw_re_post _))
              (st3 s) z _ pe upd Hz) as (w & s' & Ew & Hw).
  eexists w, _. split.
  - rewrite re_shaped. eapply shaped_some; [..|exact Ew].
    1: exact (clip_not_empty _ _ _ _ Hx). 1: exact (clip_not_empty _ _ _ _ Hx). 1: exact (clip_not_empty _ _ _ _ Hy). 1: exact (clip_not_empty _ _ _ _ Hz).
    + reflexivity.
    + cbn [exec]. rewrite Ey. reflexivity.
    + cbn [t_reduce_sum t_sum]. rewrite Ez. reflexivity.
  - apply clip_ext with (2 := Hw). intros b t Hb Ht. unfold layer_token. rewrite clip_nth by exact Ht. reflexivity.
Qed.

Lemma sum_last_same x y z : sh x = sh y -> t_add x y = Ok z -> t_sum_last [x; y] = Ok z.
Proof. intros Hs Ez. unfold t_sum_last. rewrite Hs, same_refl. cbn [t_sum]. rewrite Ez. reflexivity. Qed.

Lemma select_one L x f j : clip_holds E B L x f -> j < L -> clip_holds E B 1 (unsqueeze 2 (select 2 j x)) (fun b _ => f b j).
Proof.
  intros Hx Hj. apply th_clip in Hx. pose proof (th_select _ _ _ _ _ _ j Hj Hx) as Hs. destruct (th_unsqueeze _ _ _ _ _ Hs) as [_ Hu].
  apply th_clip. exact Hu.
Qed.

(** Single output: all tokens, or the selected one. *)
Lemma so_forward_all L x f qi s pe upd : 0 < L -> clip_holds E B L x f ->
  exists y s', exec ctx Forward (so_layer p qi false) s x pe upd = Ok (Some y, s')
    /\ clip_holds E B L y (fun b t => layer_token p (clip_tokens L f b) t).
Proof.
  intros HL Hx. destruct (attn_forward L x f Hx) as (y & Ey & Hy).
  destruct (clip_pw Forward (MLam false true (MFun (fun v => v))) E E L _ (pw_lam_fun B ctx Forward E [L] (fun v => v)) (st1 s) x f pe upd Hx) as (x' & s1 & Ex & Hx').
  destruct (clip_add _ _ _ _ _ _ Hx' Hy) as (z & Ez & Hz).
  destruct (clip_pw Forward so_post E E L (post p) (pw_so_post Forward [L] (ex_intro _ L (conj HL eq_refl))) (st3 s) z _ pe upd Hz) as (w & s' & Ew & Hw).
  eexists w, _. split.
  - rewrite so_shaped. eapply shaped_some; [..|exact Ew].
    1: exact (clip_not_empty _ _ _ _ Hx). 1: exact (clip_not_empty _ _ _ _ Hx'). 1: exact (clip_not_empty _ _ _ _ Hy). 1: exact (clip_not_empty _ _ _ _ Hz).
    + exact Ex.
    + cbn [exec s_forward]. rewrite Ey. reflexivity.
    + apply sum_last_same; [|exact Ez]. rewrite (clip_shape_eq _ _ _ _ Hx'), (clip_shape_eq _ _ _ _ Hy). reflexivity.
  - apply clip_ext with (2 := Hw). intros b t Hb Ht. cbn beta. unfold layer_token. rewrite clip_nth by exact Ht. rewrite map_id. reflexivity.
Qed.
Lemma so_forward_one L x f qi s pe upd : (- Z.of_nat L <= qi < Z.of_nat L)%Z -> (qi < 0)%Z \/ L = N -> clip_holds E B L x f ->
  exists y s', exec ctx Forward (so_layer p qi true) s x pe upd = Ok (Some y, s')
    /\ clip_holds E B 1 y (fun b _ => layer_token p (clip_tokens L f b) (chosen qi L)).
Proof.
  intros Hq HN Hx. destruct (attn_forward_single L x f qi Hx Hq) as (y & Ey & Hy). fold (chosen qi L) in Hy.
  assert (Hc : chosen qi L < L) by (unfold chosen; destruct (Z.ltb_spec qi 0); lia).
  pose proof (select_one L x f _ Hx Hc) as Hr. set (r := unsqueeze 2 (select 2 (chosen qi L) x)) in *.
  destruct (clip_add _ _ _ _ _ _ Hr Hy) as (z & Ez & Hz).
  destruct (clip_pw Forward so_post E E 1 (post p) (pw_so_post Forward [1] (ex_intro _ 1 (conj Nat.lt_0_1 eq_refl))) (st3 s) z _ pe upd Hz) as (w & s' & Ew & Hw).
  eexists w, _. split.
  - rewrite so_shaped. eapply shaped_some; [..|exact Ew].
    1: exact (clip_not_empty _ _ _ _ Hx). 1: exact (clip_not_empty _ _ _ _ Hr). 1: exact (clip_not_empty _ _ _ _ Hy). 1: exact (clip_not_empty _ _ _ _ Hz).
    + unfold so_res. cbn [exec]. unfold py_select. rewrite (clip_shape_eq _ _ _ _ Hx). cbn [length Nat.leb nth].
      assert (Ei : (-1 - Z.of_nat (so_delay N qi) <? 0)%Z = true) by lia. rewrite Ei.
      assert (Ej : Z.to_nat (-1 - Z.of_nat (so_delay N qi) + Z.of_nat L) = chosen qi L).
      { unfold so_delay, chosen. destruct (Z.ltb_spec qi 0), (Z.leb_spec 0 qi); lia. }
      assert (Ek : ((0 <=? -1 - Z.of_nat (so_delay N qi) + Z.of_nat L)%Z && (-1 - Z.of_nat (so_delay N qi) + Z.of_nat L <? Z.of_nat L)%Z) = true).
      { unfold so_delay. destruct (Z.leb_spec 0 qi); lia. }
      rewrite Ek. cbn [bind]. rewrite Ej. reflexivity.
    + cbn [exec]. rewrite Ey. reflexivity.
    + apply sum_last_same; [|exact Ez]. rewrite (clip_shape_eq _ _ _ _ Hr), (clip_shape_eq _ _ _ _ Hy). reflexivity.
  - apply clip_ext with (2 := Hw). intros b t Hb Ht. cbn beta. unfold layer_token. rewrite clip_nth by exact Hc. reflexivity.
Qed.

(** *** Streams *)
Definition step (m : tmod K) (s : tstate K) (x : tens K) := exec ctx Step m s x false true.

Definition self3 (x : tens K) : step3 K := (x, x, x).
(** Streams of frames as streams of queries, keys and values. *)
Lemma row_holds x f b : frame_holds E B x f -> b < B -> row a x b = f b.
Proof.
  intros [_ Hx] Hb. destruct (Hx b Hb) as [Lx Vx]. unfold row. rewrite (list_nth_seq (f b) k0), Lx.
  apply map_ext_in. intros e He. apply in_seq in He. apply Vx. lia.
Qed.

(** The single-output layer. *)
(** The retroactive layer. *)
Lemma residual_le d n i : d <= n -> i <= d -> residual_time d n i <= n.
Proof.
  intros Hd Hi. unfold residual_time. destruct (n <? 2 * d); [lia|]. destruct (i <? d - 1 - n mod d) eqn:E1; [lia|].
  destruct (i =? d - 1 - n mod d); lia.
Qed.
Lemma windows_frames L fs g : length fs = L -> 0 < L -> (forall t x, nth_error fs t = Some x -> frame_holds E B x (fun b => g b t)) ->
  clip_holds E B L (window_tens fs) g.
Proof.
  intros HL H0 H. apply th_clip. unfold window_tens.
  assert (E2 : length (sh (hd (T [] []) fs)) = 2).
  { destruct fs as [|x l]; [cbn in HL; lia|]. destruct (H 0 x eq_refl) as [Sx _]. cbn [hd]. rewrite Sx. reflexivity. }
  rewrite E2. refine (proj2 (th_stack E B [] fs (fun b q => g b (hd 0 q)) L HL H0 _)). intros t x Hx. cbn [hd]. apply th_frame, H, Hx.
Qed.
End Layer.
End P.
