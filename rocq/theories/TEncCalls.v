(** Steps and clips in any order. *)
From Coq Require Import List ZArith Bool Arith Lia ZifyBool ZifyNat.
From Verif Require Import Base Frames CoMod Leaf LeafProof Spec Attn AttnSpec Trans TransSpec TransProof CallMode Tensor TensorProof TConvProof
  TAttn TAttnSpec TAttnProof TPoint TPointSpec TPointProof TPointThm TEnc TEncSpec TEncProof TEncThm.
Import ListNotations.

Section P.
Context {K : Type} {NK : Num K} {NL : NumLaws K}.
Variable B : nat.
Hypothesis HB : 0 < B.
Variable ctx : option meth.

(** The last steps of a clip. *)
Lemma th_last n L sp x f c : c <= L -> th n B (L :: sp) x f -> th n B (c :: sp) (t_last c x) (fun b q => f b (L - c + hd 0 q :: tl q)).
Proof.
  intros Hc [Sx Hx]. unfold t_last. rewrite Sx. cbn [nth firstn skipn app]. replace (Nat.min c L) with c by lia.
  split; [reflexivity|]. intros b q Hb Hq. inversion Hq as [|t ? q' ? Ht Hq']; subst q. cbn [hd tl].
  destruct (Hx b (L - c + t :: q') Hb) as [Lx Vx]; [constructor; [lia|exact Hq']|]. split; [exact Lx|]. intros e He.
  rewrite get_mk by (repeat constructor; assumption). cbn [nth firstn skipn app]. apply Vx. exact He.
Qed.

(** A stream: the tensors [F t] hold the tokens [f b t] for times before [T]. *)
Variables (n0 : nat) (F : nat -> tens K) (T : nat) (f : nat -> nat -> list K).
Hypothesis HF : forall t, t < T -> frame_holds n0 B (F t) (fun b => f b t).

(** A clip of the stream. *)
Definition part (i L : nat) (x : tens K) : Prop :=
  0 < L /\ i + L <= T /\ clip_holds n0 B L x (fun b t => f b (i + t)) /\ map (fun t => select 2 t x) (seq 0 L) = map F (seq i L).

(** A module with latency [N - 1]: [J n] holds of its state after [n] steps, and the output
    for time [n] holds [g n]. *)
Definition first (N i : nat) : nat := Nat.max i (N - 1).
Definition streams (m : tmod K) (J : nat -> tstate K -> Prop) (n' : nat) (sp : list nat) (N : nat) (g : nat -> nat -> list nat -> list K) : Prop :=
  J 0 SNone
  /\ (forall i s, i < T -> J i s -> exists o s', exec ctx Step m s (F i) false true = Ok (o, s') /\ J (i + 1) s'
        /\ if i + 1 <? N then o = None else exists y, o = Some y /\ th n' B sp y (g i))
  /\ (forall i s L x, J i s -> part i L x -> exists o s', exec ctx Steps m s x false true = Ok (o, s') /\ J (i + L) s'
        /\ if i + L <? N then o = None
           else exists y, o = Some y /\ th n' B (i + L - first N i :: sp) y (fun b q => g (first N i + hd 0 q) b (tl q))).

Lemma part_ne i L x : part i L x -> empty_batch x = false.
Proof. intros (_ & _ & Hx & _). exact (clip_not_empty B HB _ _ _ _ Hx). Qed.

(** Modules without memory. *)
Lemma streams_pw m g : pw ctx Step m n0 n0 B [] g -> (forall L, 0 < L -> pw ctx Steps m n0 n0 B [L] g) ->
  streams m (fun _ _ => True) n0 [] 1 (fun i b _ => g (f b i)).
Proof.
  intros H1 H2. split; [exact I|]. split.
  - intros i s Hi _. destruct (frame_pw B ctx Step m n0 n0 g H1 s (F i) _ false true (HF i Hi)) as (y & s' & E & Hy).
    exists (Some y), s'. split; [exact E|]. split; [exact I|]. replace (i + 1 <? 1) with false by lia. exists y. split; [reflexivity|].
    apply th_frame in Hy. exact Hy.
  - intros i s L x _ (HL & HT & Hx & _). destruct (clip_pw B ctx Steps m n0 n0 L g (H2 L HL) s x _ false true Hx) as (y & s' & E & Hy).
    exists (Some y), s'. split; [exact E|]. split; [exact I|]. replace (i + L <? 1) with false by lia. exists y. split; [reflexivity|].
    unfold first. replace (Nat.max i (1 - 1)) with i by lia. replace (i + L - i) with L by lia. apply th_clip in Hy. exact Hy.
Qed.

(** Residual, module, pointwise rest. *)
Lemma streams_shaped (lp : bool) m1 m2 po J1 J2 n sp N1 N g1 g2 h :
  N1 <= N -> lp = true \/ N1 = N -> 0 < N ->
  streams m1 J1 n sp N1 g1 -> streams m2 J2 n sp N g2 ->
  pw ctx Step po n n B sp h -> (forall L, 0 < L -> pw ctx Steps po n n B (L :: sp) h) ->
  streams (shaped lp m1 m2 po) (fun i s => J1 i (st1 s) /\ J2 i (st2 s)) n sp N (fun i b q => h (plus (g1 i b q) (g2 i b q))).
Proof.
  intros HN1 Hlp HN (A0 & A1 & A2) (B0 & B1 & B2) P1 P2. split; [split; [exact A0|exact B0]|]. split.
  - intros i s Hi [I1 I2]. destruct (A1 i _ Hi I1) as (o1 & s1 & E1 & I1' & V1). destruct (B1 i _ Hi I2) as (o2 & s2 & E2 & I2' & V2).
    destruct (Nat.ltb_spec (i + 1) N) as [Hc|Hc].
    + subst o2. destruct (shaped_none ctx lp m1 m2 po s (F i) false true o1 s1 None s2 (or_intror eq_refl) E1 E2) as (s' & Es & R1 & R2).
      exists None, s'. rewrite R1, R2. auto.
    + replace (i + 1 <? N1) with false in V1 by lia. destruct V1 as (y1 & -> & H1), V2 as (y2 & -> & H2).
      destruct (th_add _ _ _ _ _ _ _ H1 H2) as (z & Ez & Hz). destruct (P1 (st3 s) z _ false true Hz) as (w & s3 & Ew & Hw).
      exists (Some w), (SList [SList [s1; s2]; s3]). split; [|split; [split; assumption|exists w; split; [reflexivity|exact Hw]]].
      eapply shaped_some; [apply (frame_not_empty B HB _ _ _ (HF i Hi))|exact (th_not_empty _ _ _ _ _ HB H1)|exact (th_not_empty _ _ _ _ _ HB H2)|exact (th_not_empty _ _ _ _ _ HB Hz)|exact E1|exact E2| |exact Ew].
      destruct lp; [|cbn [t_reduce_sum t_sum]; rewrite Ez; reflexivity].
      apply sum_last_same; [|exact Ez]. destruct H1 as [-> _], H2 as [-> _]. reflexivity.
  - intros i s L x [I1 I2] Hx. destruct (A2 i _ L x I1 Hx) as (o1 & s1 & E1 & I1' & V1). destruct (B2 i _ L x I2 Hx) as (o2 & s2 & E2 & I2' & V2).
    pose proof (part_ne _ _ _ Hx) as Hne. destruct Hx as (HL & HT & _).
    destruct (Nat.ltb_spec (i + L) N) as [Hc|Hc].
    + subst o2. assert (Hs : exists s', exec ctx Steps (shaped lp m1 m2 po) s x false true = Ok (None, s') /\ st1 s' = s1 /\ st2 s' = s2).
      { eexists. split; [|split; cycle 1].
        - unfold shaped. cbn [exec]. rewrite chain_cons, Hne. unfold st1, st2 in *. cbn [exec fan].
          rewrite E1. cbn [bind]. rewrite E2. cbn [bind]. unfold t_reduce. destruct o1; cbn [somes option_map bind]; reflexivity.
        - reflexivity.
        - reflexivity. }
      destruct Hs as (s' & Es & R1 & R2). exists None, s'. rewrite R1, R2. auto.
    + replace (i + L <? N1) with false in V1 by lia. destruct V1 as (y1 & -> & H1), V2 as (y2 & -> & H2).
      set (c := i + L - first N i) in *. assert (Hc0 : 0 < c) by (unfold c, first; lia).
      assert (Hc1 : c <= i + L - first N1 i) by (unfold c, first; lia).
      assert (H' : exists y1' y2', th n B (c :: sp) y1' (fun b q => g1 (first N i + hd 0 q) b (tl q))
                /\ th n B (c :: sp) y2' (fun b q => g2 (first N i + hd 0 q) b (tl q))
                /\ forall z, t_add y1' y2' = Ok z -> (if lp then t_sum_last [y1; y2] else t_reduce_sum [y1; y2]) = Ok z).
      { destruct (list_eq_dec Nat.eq_dec (sh y1) (sh y2)) as [Es|Es].
        - exists y1, y2. assert (Ec : i + L - first N1 i = c) by (destruct H1 as [S1 _], H2 as [S2 _]; congruence). split; [|split; [exact H2|]].
          + rewrite Ec in H1. apply th_ext with (2 := H1). intros b q _ _. f_equal. unfold c, first in *. lia.
          + intros z Ez. destruct lp; [apply sum_last_same; assumption|cbn [t_reduce_sum t_sum]; rewrite Ez; reflexivity].
        - destruct Hlp as [-> | ->]; [|exfalso; apply Es; destruct H1 as [-> _], H2 as [-> _]; reflexivity].
          exists (t_last c y1), (t_last c y2). split; [|split].
          + apply th_ext with (2 := th_last _ _ _ _ _ c Hc1 H1). intros b q _ _. cbn [hd tl]. f_equal. unfold c, first. lia.
          + apply th_ext with (2 := th_last _ _ _ _ _ c (Nat.le_refl c) H2). intros b q _ _. cbn [hd tl]. f_equal. lia.
          + intros z Ez. unfold t_sum_last. replace (same_shape (sh y1) (sh y2)) with false
              by (unfold same_shape; destruct (list_eq_dec _ _ _); [contradiction|reflexivity]).
            destruct H1 as [S1 _]. assert (S2 := proj1 H2). cbn [mapM]. rewrite S1, S2. cbn [nth_error bind fold_right hd].
            fold c. replace (Nat.min (i + L - first N1 i) (Nat.min c (i + L - first N1 i))) with c by lia.
            cbn [map t_sum]. rewrite Ez. reflexivity. }
      destruct H' as (y1' & y2' & H1' & H2' & Hred). destruct (th_add _ _ _ _ _ _ _ H1' H2') as (z & Ez & Hz).
      destruct (P2 c Hc0 (st3 s) z _ false true Hz) as (w & s3 & Ew & Hw).
      exists (Some w), (SList [SList [s1; s2]; s3]). split; [|split; [split; assumption|exists w; split; [reflexivity|exact Hw]]].
      eapply shaped_some; [exact Hne|exact (th_not_empty _ _ _ _ _ HB H1)|exact (th_not_empty _ _ _ _ _ HB H2)|exact (th_not_empty _ _ _ _ _ HB Hz)|exact E1|exact E2|exact (Hred z Ez)|exact Ew].
Qed.

(** A module followed by modules without memory. *)
Lemma streams_seq m l J n n' sp sp' N g h :
  streams m J n sp N g ->
  (forall ss x k, th n B sp x k -> exists y ss', chain Step (fun m s x => exec ctx Step m s x false true) l ss x = Ok (Some y, ss') /\ th n' B sp' y (h k)) ->
  (forall L ss x k, 0 < L -> th n B (L :: sp) x k -> exists y ss', chain Steps (fun m s x => exec ctx Steps m s x false true) l ss x = Ok (Some y, ss')
      /\ th n' B (L :: sp') y (fun b q => h (fun b q' => k b (hd 0 q :: q')) b (tl q))) ->
  0 < N ->
  streams (MSeq (m :: l)) (fun i s => J i (hd SNone (kids s))) n' sp' N (fun i => h (g i)).
Proof.
  intros (A0 & A1 & A2) H1 H2 HN. split; [exact A0|]. split.
  - intros i s Hi Is. destruct (A1 i _ Hi Is) as (o & s1 & E1 & I1 & V1). destruct (i + 1 <? N).
    + subst o. exists None, (SList (s1 :: tl (kids s))). split; [|split; [exact I1|reflexivity]].
      cbn [exec]. rewrite chain_cons. rewrite E1. cbn [bind]. destruct l; reflexivity.
    + destruct V1 as (y & -> & Hy). destruct (H1 (tl (kids s)) y _ Hy) as (w & ss & Ew & Hw).
      exists (Some w), (SList (s1 :: ss)). split; [|split; [exact I1|exists w; split; [reflexivity|exact Hw]]].
      cbn [exec]. rewrite chain_cons. rewrite E1. cbn [bind]. rewrite Ew. reflexivity.
  - intros i s L x Is Hx. pose proof (part_ne _ _ _ Hx) as Hne. destruct (A2 i _ L x Is Hx) as (o & s1 & E1 & I1 & V1).
    destruct (Nat.ltb_spec (i + L) N) as [Hc|Hc].
    + subst o. exists None, (SList (s1 :: tl (kids s))). split; [|split; [exact I1|reflexivity]].
      cbn [exec]. rewrite chain_cons, Hne. rewrite E1. cbn [bind]. destruct l; reflexivity.
    + destruct V1 as (y & -> & Hy). assert (Hc0 : 0 < i + L - first N i) by (destruct Hx as (? & _); unfold first; lia).
      destruct (H2 _ (tl (kids s)) y _ Hc0 Hy) as (w & ss & Ew & Hw).
      exists (Some w), (SList (s1 :: ss)). split; [|split; [exact I1|exists w; split; [reflexivity|]]].
      * cbn [exec]. rewrite chain_cons, Hne. rewrite E1. cbn [bind]. rewrite Ew. reflexivity.
      * apply th_ext with (2 := Hw). intros b q _ _. reflexivity.
Qed.


(** *** Attention *)
Section Att.
Variable p : layer K.
Hypothesis OK : layer_ok p.
Notation a := (l_a p). Notation E := (t_H (l_a p) * t_D (l_a p)). Notation N := (t_N (l_a p)).
Hypothesis HE : n0 = E.

Lemma t_run_app {S} (fs : option S -> tens K -> tens K -> tens K -> bool -> cells -> res (option (tens K) * option S * cells)) ts1 ts2 : forall o h,
  t_run fs o (ts1 ++ ts2) h = ('(y1, o, h) <- t_run fs o ts1 h ;; '(y2, o, h) <- t_run fs o ts2 h ;; Ok (y1 ++ y2, o, h)).
Proof.
  induction ts1 as [|[[q k] v] ts1 IH]; intros o h; cbn [app t_run bind].
  - destruct (t_run fs o ts2 h) as [[[y2 o2] h2]|]; reflexivity.
  - destruct (fs o q k v true h) as [[[y1 o1] h1]|]; [|reflexivity]. cbn [bind]. rewrite IH.
    destruct (t_run fs o1 ts1 h1) as [[[y2 o2] h2]|]; [|reflexivity]. cbn [bind].
    destruct (t_run fs o2 ts2 h2) as [[[y3 o3] h3]|]; reflexivity.
Qed.

(** The frames [ts] hold the tokens of the stream up to time [i]. *)
Definition fed (i : nat) (ts : list (step3 K)) : Prop :=
  frames_ok a B ts /\ length ts = i
  /\ forall b t, b < B -> t < i -> q_at a ts b t = f b t /\ k_at a ts b t = f b t /\ v_at a ts b t = f b t.
Lemma at_app (g : step3 K -> list K) ts1 ts2 t :
  nth t (map g (ts1 ++ ts2)) [] = if t <? length ts1 then nth t (map g ts1) [] else nth (t - length ts1) (map g ts2) [].
Proof.
  rewrite map_app. destruct (Nat.ltb_spec t (length ts1)).
  - rewrite app_nth1 by (rewrite map_length; assumption). reflexivity.
  - rewrite app_nth2 by (rewrite map_length; assumption). rewrite map_length. reflexivity.
Qed.
Lemma fed_app i j ts1 ts2 : fed i ts1 -> frames_ok a B ts2 -> length ts2 = j ->
  (forall b t, b < B -> t < j -> q_at a ts2 b t = f b (i + t) /\ k_at a ts2 b t = f b (i + t) /\ v_at a ts2 b t = f b (i + t)) -> fed (i + j) (ts1 ++ ts2).
Proof.
  intros (A1 & <- & A3) B1 <- B3. split; [|split].
  - apply Forall_app. split; assumption.
  - apply app_length.
  - intros b t Hb Ht. unfold q_at, k_at, v_at in *. rewrite !at_app. destruct (Nat.ltb_spec t (length ts1)).
    + apply A3; assumption.
    + replace (f b t) with (f b (length ts1 + (t - length ts1))) by (f_equal; lia). apply (B3 b (t - length ts1) Hb). lia.
Qed.
Lemma fed_frame i ts : fed i ts -> i < T -> fed (i + 1) (ts ++ [self3 (F i)]).
Proof.
  intros H Hi. pose proof (HF i Hi) as Hx. rewrite HE in Hx. apply fed_app; [exact H| |reflexivity|].
  - repeat constructor; unfold frame_shape; apply Hx.
  - intros b t Hb Ht. assert (t = 0) by lia. subst t. rewrite Nat.add_0_r. unfold q_at, k_at, v_at, self3. cbn [map nth fst snd].
    rewrite (row_holds B HB p (F i) (fun b => f b i) b Hx Hb). auto.
Qed.
Lemma fed_win i ts b n : fed i ts -> b < B -> n < i -> N <= n + 1 ->
  map (k_at a ts b) (times a n) = window_tokens N n f b /\ map (v_at a ts b) (times a n) = window_tokens N n f b.
Proof.
  intros (_ & _ & H) Hb Hn HN. unfold times, window_tokens. split; apply map_ext_in; intros t Ht; apply in_seq in Ht; apply H; lia.
Qed.
Lemma then_win i L ts x b n : fed i ts -> clip_holds E B L x (fun b t => f b (i + t)) -> b < B -> n < i + L ->
  then_clip a (q_at a) ts x b n = f b n /\ then_clip a (k_at a) ts x b n = f b n /\ then_clip a (v_at a) ts x b n = f b n.
Proof.
  intros (_ & <- & H) Hx Hb Hn. unfold then_clip. destruct (Nat.ltb_spec n (length ts)); [apply H; assumption|].
  rewrite (token_holds B HB p OK L x _ b (n - length ts) Hx Hb) by lia. replace (length ts + (n - length ts)) with n by lia. auto.
Qed.
Lemma clip_left {S} fs i L x ts o h (o2 : option S) h2 outs : fed i ts -> clip_holds E B L x (fun b t => f b (i + t)) ->
  t_run fs None ts [] = Ok (outs, o, h) -> left_as_steps a fs B L x x x o h o2 h2 ->
  exists ts' outs', fed (i + L) ts' /\ t_run fs None ts' [] = Ok (outs', o2, h2).
Proof.
  intros Hts Hx Er (fr & outs2 & F1 & F2 & F3 & F4). exists (ts ++ fr), (outs ++ outs2). split.
  - apply fed_app; [exact Hts|exact F1|exact F2|]. intros b t Hb Ht. destruct (F3 b t Hb Ht) as (-> & -> & ->).
    rewrite (token_holds B HB p OK L x _ b t Hx Hb Ht). auto.
  - rewrite t_run_app, Er. cbn [bind]. rewrite F4. reflexivity.
Qed.

Definition so_J (qi : Z) (i : nat) (s : tstate K) : Prop :=
  exists ts outs, fed i ts /\ t_run (s_forward_step a (ts_sdpa a qi)) None ts [] = Ok (outs, fst (so_of s), snd (so_of s)).

Lemma streams_so qi sof : 0 < N -> (- Z.of_nat N <= qi < Z.of_nat N)%Z ->
  streams (MSO a qi sof) (so_J qi) E [] N (fun i b _ => attend p (window_tokens N i f b) (chosen qi N)).
Proof.
  intros HN Hq. assert (Hch : chosen qi N < N) by (unfold chosen; destruct (Z.ltb_spec qi 0); lia).
  assert (Hqp : forall n, N <= n + 1 -> qpos a qi n = n + 1 - N + chosen qi N)
    by (intros n Hn; unfold qpos, chosen; destruct (Z.leb_spec 0 qi), (Z.ltb_spec qi 0); lia).
  split; [|split].
  - exists [], []. split; [|reflexivity]. split; [constructor|]. split; [reflexivity|]. intros b t Hb Ht. lia.
  - intros i s Hi (ts & outs & Hts & Er). pose proof (fed_frame i ts Hts Hi) as Hts'.
    destruct (s_steps_ok a B qi (ts ++ [self3 (F i)]) [] HB (proj1 OK) HN Hq (proj1 Hts')) as (outs' & o' & h' & Er' & Lo & Vo).
    rewrite t_run_app, Er in Er'. cbn [bind t_run self3] in Er'.
    destruct (s_forward_step a (ts_sdpa a qi) (fst (so_of s)) (F i) (F i) (F i) true (snd (so_of s))) as [[[y o1] h1]|] eqn:Ey; [|discriminate].
    cbn [bind] in Er'. injection Er' as <- <- <-. exists y, (SSo o1 h1). split; [cbn [exec]; rewrite Ey; reflexivity|].
    assert (L1 : length outs = i) by (rewrite app_length in Lo; cbn [length] in Lo; rewrite (proj1 (proj2 Hts')) in Lo; lia).
    specialize (Vo i None). rewrite (proj1 (proj2 Hts')) in Vo. specialize (Vo ltac:(lia)).
    rewrite app_nth2, L1, Nat.sub_diag in Vo by lia. cbn [nth] in Vo. split.
    + exists (ts ++ [self3 (F i)]), (outs ++ [y]). split; [exact Hts'|]. cbn [so_of fst snd]. rewrite t_run_app, Er. cbn [bind t_run self3]. rewrite Ey. reflexivity.
    + destruct (Nat.ltb_spec (i + 1) N) as [Hc|Hc]; [exact Vo|]. destruct Vo as (z & -> & Sz & Vz). exists z. split; [reflexivity|].
      apply th_frame. split; [exact Sz|]. intros b Hb. split; [apply attend_len|]. intros e He. rewrite Vz by assumption. rewrite attend_nth by exact He.
      destruct (fed_win _ _ b i Hts' Hb ltac:(lia) Hc) as [-> ->]. rewrite window_nth by exact Hch. rewrite Hqp by exact Hc.
      destruct Hts' as (_ & _ & Ht). destruct (Ht b (i + 1 - N + chosen qi N) Hb ltac:(lia)) as (-> & _). reflexivity.
  - intros i s L x (ts & outs & Hts & Er) (HL & HT & Hx & _). rewrite HE in Hx. pose proof (clip_sh B p OK _ _ _ _ Hx eq_refl) as Sx.
    destruct (s_clip a B qi ts x x x L [] HB (proj1 OK) HN Hq (proj1 Hts) Sx Sx Sx HL (or_introl (proj1 (proj2 OK)))) as (outs' & o & h1 & y & o2 & h2 & R1 & R2 & R3 & R4).
    rewrite Er in R1. injection R1 as <- Eo Eh. rewrite <- Eo, <- Eh in *. exists y, (SSo o2 h2). split; [cbn [exec]; rewrite R2; reflexivity|]. split.
    + destruct (clip_left _ i L x ts _ _ o2 h2 outs Hts Hx Er R3) as (ts' & outs2 & Hts' & Er'). exists ts', outs2. split; assumption.
    + unfold clip_result in R4. rewrite (proj1 (proj2 Hts)) in R4. destruct (Nat.ltb_spec (i + L) N) as [Hc|Hc]; [exact R4|].
      destruct R4 as (z & -> & Sz & Vz). exists z. split; [reflexivity|].
      change (first_time a i) with (first N i) in *. unfold clip_shape in Sz. rewrite (idx_eq p OK) in Sz.
      apply (th_clip E B _ z (fun b t => attend p (window_tokens N (first N i + t) f b) (chosen qi N))). split; [exact Sz|].
      intros b t Hb Ht. split; [apply attend_len|]. intros e He. specialize (Vz b t e Hb Ht He). cbn zeta in Vz. rewrite (idx_eq p OK) in Vz. rewrite Vz.
      assert (Hn : N <= first N i + t + 1 /\ first N i + t < i + L) by (unfold first in *; lia). destruct Hn as [Hn1 Hn2].
      rewrite attend_nth by exact He. rewrite window_nth by exact Hch. rewrite Hqp by exact Hn1.
      rewrite (proj1 (then_win i L ts x b (first N i + t + 1 - N + chosen qi N) Hts Hx Hb ltac:(lia))).
      replace (map (then_clip a (k_at a) ts x b) (times a (first N i + t))) with (window_tokens N (first N i + t) f b).
      2:{ unfold times, window_tokens. apply map_ext_in. intros t' Ht'. apply in_seq in Ht'. symmetry. apply (then_win i L ts x b t' Hts Hx Hb). lia. }
      replace (map (then_clip a (v_at a) ts x b) (times a (first N i + t))) with (window_tokens N (first N i + t) f b).
      2:{ unfold times, window_tokens. apply map_ext_in. intros t' Ht'. apply in_seq in Ht'. symmetry. apply (then_win i L ts x b t' Hts Hx Hb). lia. }
      reflexivity.
Qed.

Definition re_J (i : nat) (s : tstate K) : Prop :=
  exists ts outs, fed i ts /\ t_run (r_forward_step a (tr_sdpa a)) None ts [] = Ok (outs, fst (re_of s), snd (re_of s)).

Lemma streams_re : 2 <= N ->
  streams (MRE a) re_J E [N] N (fun i b q => attend p (window_tokens N i f b) (hd 0 q)).
Proof.
  intros HN. split; [|split].
  - exists [], []. split; [|reflexivity]. split; [constructor|]. split; [reflexivity|]. intros b t Hb Ht. lia.
  - intros i s Hi (ts & outs & Hts & Er). pose proof (fed_frame i ts Hts Hi) as Hts'.
    destruct (r_steps_ok a B (ts ++ [self3 (F i)]) [] HB (proj1 OK) HN (proj1 Hts')) as (outs' & o' & h' & Er' & Lo & Vo).
    rewrite t_run_app, Er in Er'. cbn [bind t_run self3] in Er'.
    destruct (r_forward_step a (tr_sdpa a) (fst (re_of s)) (F i) (F i) (F i) true (snd (re_of s))) as [[[y o1] h1]|] eqn:Ey; [|discriminate].
    cbn [bind] in Er'. injection Er' as <- <- <-. exists y, (SRe o1 h1). split; [cbn [exec]; rewrite Ey; reflexivity|].
    assert (L1 : length outs = i) by (rewrite app_length in Lo; cbn [length] in Lo; rewrite (proj1 (proj2 Hts')) in Lo; lia).
    specialize (Vo i None). rewrite (proj1 (proj2 Hts')) in Vo. specialize (Vo ltac:(lia)).
    rewrite app_nth2, L1, Nat.sub_diag in Vo by lia. cbn [nth] in Vo. split.
    + exists (ts ++ [self3 (F i)]), (outs ++ [y]). split; [exact Hts'|]. cbn [re_of fst snd]. rewrite t_run_app, Er. cbn [bind t_run self3]. rewrite Ey. reflexivity.
    + destruct (Nat.ltb_spec (i + 1) N) as [Hc|Hc]; [exact Vo|]. destruct Vo as (z & -> & Sz & Vz). exists z. split; [reflexivity|].
      unfold clip_shape in Sz. rewrite (idx_eq p OK) in Sz.
      apply (th_clip E B N z (fun b t => attend p (window_tokens N i f b) t)). split; [exact Sz|].
      intros b t Hb Ht. split; [apply attend_len|]. intros e He. specialize (Vz b t e Hb Ht He). rewrite (idx_eq p OK) in Vz. rewrite Vz, attend_nth by exact He.
      destruct (fed_win _ _ b i Hts' Hb ltac:(lia) Hc) as [-> ->]. rewrite window_nth by exact Ht.
      destruct Hts' as (_ & _ & Hw). destruct (Hw b (i + 1 - N + t) Hb ltac:(lia)) as (-> & _). reflexivity.
  - intros i s L x (ts & outs & Hts & Er) (HL & HT & Hx & _). rewrite HE in Hx. pose proof (clip_sh B p OK _ _ _ _ Hx eq_refl) as Sx.
    destruct (r_clip a B ts x x x L [] HB (proj1 OK) HN (proj1 Hts) Sx Sx Sx HL) as (outs' & o & h1 & y & o2 & h2 & R1 & R2 & R3 & R4).
    rewrite Er in R1. injection R1 as <- Eo Eh. rewrite <- Eo, <- Eh in *. exists y, (SRe o2 h2). split; [cbn [exec]; rewrite R2; reflexivity|]. split.
    + destruct (clip_left _ i L x ts _ _ o2 h2 outs Hts Hx Er R3) as (ts' & outs2 & Hts' & Er'). exists ts', outs2. split; assumption.
    + unfold clip_result in R4. rewrite (proj1 (proj2 Hts)) in R4. destruct (Nat.ltb_spec (i + L) N) as [Hc|Hc]; [exact R4|].
      destruct R4 as (z & -> & Sz & Vz). exists z. split; [reflexivity|].
      change (first_time a i) with (first N i) in *.
      assert (Er4 : forall b j t e, ridx a b j t e = [b; e; j; t]) by (intros; unfold ridx; rewrite (proj1 (proj2 OK)), (proj1 (proj2 (proj2 OK))); reflexivity).
      rewrite Er4 in Sz. split; [exact Sz|].
      intros b q Hb Hq'. inversion Hq' as [|j ? q' ? Hj Hq1]; subst q. inversion Hq1 as [|t ? q'' ? Ht Hq2]; subst q'. inversion Hq2; subst q''. cbn [hd tl].
      split; [apply attend_len|]. intros e He. specialize (Vz b j t e Hb Hj Ht He). cbn zeta in Vz. rewrite Er4 in Vz. rewrite Vz.
      assert (Hn : N <= first N i + j + 1 /\ first N i + j < i + L) by (unfold first in *; lia). destruct Hn as [Hn1 Hn2].
      rewrite attend_nth by exact He. rewrite window_nth by exact Ht.
      rewrite (proj1 (then_win i L ts x b (first N i + j + 1 - N + t) Hts Hx Hb ltac:(lia))).
      replace (map (then_clip a (k_at a) ts x b) (times a (first N i + j))) with (window_tokens N (first N i + j) f b).
      2:{ unfold times, window_tokens. apply map_ext_in. intros t' Ht'. apply in_seq in Ht'. symmetry. apply (then_win i L ts x b t' Hts Hx Hb). lia. }
      replace (map (then_clip a (v_at a) ts x b) (times a (first N i + j))) with (window_tokens N (first N i + j) f b).
      2:{ unfold times, window_tokens. apply map_ext_in. intros t' Ht'. apply in_seq in Ht'. symmetry. apply (then_win i L ts x b t' Hts Hx Hb). lia. }
      reflexivity.
Qed.
End Att.

(** *** Residuals *)
Definition hz (z : Z) : tens K := if Z.ltb z 0 then make_padding Zeros (F 0) else F (Z.to_nat z).
Lemma stack_part (G : nat -> tens K) (g : nat -> nat -> list nat -> list K) sp i L s : 0 < L ->
  (forall t, t < L -> th n0 B sp (G (i + t)) (g (i + t))) ->
  exists y, stacked (Some (map G (seq i L)), s) = Ok (Some y, SObj s) /\ th n0 B (L :: sp) y (fun b q => g (i + hd 0 q) b (tl q)).
Proof.
  intros HL H. destruct (th_stack n0 B sp (map G (seq i L)) (fun b q => g (i + hd 0 q) b (tl q)) L) as [Es Hs].
  - rewrite map_length, seq_length. reflexivity.
  - exact HL.
  - intros t x Hx. assert (Ht : t < L) by (rewrite <- (seq_length L i), <- (map_length G); apply nth_error_Some; congruence).
    rewrite nth_error_map, (nth_error_nth' _ 0) in Hx by (rewrite seq_length; exact Ht). rewrite seq_nth in Hx by exact Ht. injection Hx as <-.
    cbn [hd tl]. apply H. exact Ht.
  - eexists. split; [|exact Hs]. unfold stacked. cbn [fst snd]. rewrite Es. reflexivity.
Qed.
Lemma somes_tail {A} (G : nat -> A) d i L :
  Base.somes (map (fun n => if d <=? n then Some (G n) else None) (seq i L)) = map G (seq (Nat.max i d) (i + L - Nat.max i d)).
Proof.
  revert i. induction L as [|L IH]; intros i; [replace (i + 0 - Nat.max i d) with 0 by lia; reflexivity|].
  cbn [seq map]. destruct (Nat.leb_spec d i) as [Hd|Hd]; cbn [Base.somes]; rewrite IH.
  - replace (Nat.max i d) with i by lia. replace (Nat.max (S i) d) with (S i) by lia. replace (i + S L - i) with (S (S i + L - S i)) by lia. reflexivity.
  - replace (Nat.max (S i) d) with (Nat.max i d) by lia. f_equal. f_equal. lia.
Qed.

Definition del_J (d i : nat) (s : tstate K) : Prop := d = 0 \/ obj_of s = delay_O d ShNo hz i.
Lemma streams_del sel d : streams (MDel sel d) (del_J d) n0 [] (d + 1) (fun i b _ => f b (i - d)).
Proof.
  destruct (Nat.eq_dec d 0) as [->|Hd].
  - split; [left; reflexivity|]. split.
    + intros i s Hi _. exists (Some (F i)). eexists. split; [reflexivity|]. split; [left; reflexivity|]. replace (i + 1 <? 0 + 1) with false by lia.
      exists (F i). split; [reflexivity|]. rewrite Nat.sub_0_r. apply (th_frame n0 B (F i) (fun b => f b i)). apply HF. exact Hi.
    + intros i s L x _ (HL & HT & Hx & _). exists (Some x), s. split; [reflexivity|]. split; [left; reflexivity|]. replace (i + L <? 0 + 1) with false by lia.
      exists x. split; [reflexivity|]. unfold first. replace (Nat.max i (0 + 1 - 1)) with i by lia. replace (i + L - i) with L by lia.
      apply th_clip in Hx. apply th_ext with (2 := Hx). intros b q _ _. cbn beta. rewrite Nat.sub_0_r. reflexivity.
  - assert (Hd0 : 0 < d) by lia. assert (Eb : Nat.eqb d 0 = false) by lia.
    assert (Hh : forall z, (z < 0)%Z -> hz z = make_padding Zeros (hz 0)).
    { intros z Hz. unfold hz. replace (Z.ltb z 0) with true by lia. reflexivity. }
    assert (Hn : forall n, hz (Z.of_nat n) = F n) by (intros n; unfold hz; replace (Z.ltb _ 0) with false by lia; rewrite Nat2Z.id; reflexivity).
    assert (C1 : forall n, 0 <= n -> delay_fstep d Zeros ShNo (hz (Z.of_nat n)) (delay_S d ShNo hz n) = Ok (delay_out d ShNo hz n, delay_S d ShNo hz (S n)))
      by (intros n _; apply delay_closed; auto).
    assert (C2 : forall n, 0 <= n -> obj_get (delay_O d ShNo hz n) = delay_S d ShNo hz n) by (intros n _; apply delay_get; auto).
    assert (C3 : forall n, 0 <= n -> exists s, delay_S d ShNo hz (S n) = Some s /\ forall m, 0 <= m <= n -> obj_set (delay_O d ShNo hz m) s = delay_O d ShNo hz (S n))
      by (intros n _; apply delay_Ob).
    assert (Ho : forall n, delay_out d ShNo hz n = if d <=? n then Some (F (n - d)) else None).
    { intros n. unfold delay_out. cbn [delay_lim]. destruct (Nat.leb_spec d n); [|reflexivity]. rewrite <- Hn. do 2 f_equal. lia. }
    split; [right; reflexivity|]. split.
    + intros i s Hi [Hs|Hs]; [lia|].
      pose proof (co_forward_step_closed obj_get obj_set _ _ _ _ 0 C1 _ C2 C3 i (Nat.le_0_l i)) as Es. cbn beta in Es. rewrite Hn in Es.
      eexists _, _. split; [cbn [exec]; unfold delay_forward_step; rewrite Eb, Hs, Es; reflexivity|].
      split; [right; cbn [obj_of]; f_equal; lia|]. rewrite Ho. destruct (Nat.ltb_spec (i + 1) (d + 1)), (Nat.leb_spec d i); try lia; [reflexivity|].
      exists (F (i - d)). split; [reflexivity|]. apply (th_frame n0 B (F (i - d)) (fun b => f b (i - d))). apply HF. lia.
    + intros i s L x [Hs|Hs] (HL & HT & Hx & Hfr); [lia|].
      pose proof (co_forward_steps_closed obj_get obj_set _ _ _ _ 0 C1 _ C2 C3 (make_padding Zeros) d i L (Nat.le_0_l i) HL) as Es.
      unfold clip in Es. rewrite (map_ext (fun n => hz (Z.of_nat n)) F Hn) in Es. rewrite (map_ext _ _ Ho), (somes_tail (fun n => F (n - d))) in Es.
      assert (Ex : exec ctx Steps (MDel sel d) s x false true
        = stacked (stack_outs (map (fun n => F (n - d)) (seq (Nat.max i d) (i + L - Nat.max i d))), delay_O d ShNo hz (i + L))).
      { cbn [exec]. rewrite Eb. apply th_clip in Hx. rewrite (th_frames _ _ _ _ _ _ Hx). cbn [bind]. rewrite Hfr, Hs. unfold delay_forward_steps. rewrite Eb, Es. reflexivity. }
      rewrite Ex. unfold first. replace (d + 1 - 1) with d by lia. destruct (Nat.ltb_spec (i + L) (d + 1)) as [Hc|Hc].
      * replace (i + L - Nat.max i d) with 0 by lia. cbn [seq map stack_outs]. eexists _, _. split; [reflexivity|]. split; [right; reflexivity|reflexivity].
      * set (c := i + L - Nat.max i d). assert (Hc0 : 0 < c) by (unfold c; lia).
        destruct (stack_part (fun n => F (n - d)) (fun n b _ => f b (n - d)) [] (Nat.max i d) c (delay_O d ShNo hz (i + L)) Hc0) as (y & Ey & Hy).
        { intros t Ht. apply (th_frame n0 B _ (fun b => f b (Nat.max i d + t - d))). apply HF. unfold c in Ht. lia. }
        replace (stack_outs (map (fun n => F (n - d)) (seq (Nat.max i d) c))) with (Some (map (fun n => F (n - d)) (seq (Nat.max i d) c)))
          by (destruct c; [lia|reflexivity]).
        exists (Some y), (SObj (delay_O d ShNo hz (i + L))). split; [exact Ey|]. split; [right; reflexivity|]. exists y. split; [reflexivity|exact Hy].
Qed.


Notation past i := (map F (seq 0 i)).
Lemma past_len i : length (past i) = i.
Proof. rewrite map_length, seq_length. reflexivity. Qed.
Lemma past_S i : past (i + 1) = past i ++ [F i].
Proof. rewrite Nat.add_1_r, seq_S, map_app. reflexivity. Qed.
Lemma past_nth i t : t < i -> nth_error (past i) t = Some (F t).
Proof. intros Ht. rewrite nth_error_map, (nth_error_nth' _ 0) by (rewrite seq_length; exact Ht). rewrite seq_nth by exact Ht. reflexivity. Qed.

Definition uni_J (d i : nat) (s : tstate K) : Prop := uinv d (past i) (obj_of s).
(** The window after step [i]. *)
Definition uni_win (d i : nat) : tens K := window_tens (match unity_out d (past (i + 1)) with Some l => l | None => [] end).
Lemma uni_out_some d i : unity_out d (past (i + 1)) = if d <=? i then Some (match unity_out d (past (i + 1)) with Some l => l | None => [] end) else None.
Proof. unfold unity_out. rewrite past_len. replace (i + 1 - 1) with i by lia. destruct (Nat.ltb_spec i d), (Nat.leb_spec d i); try lia; [reflexivity|]. destruct (i <? 2 * d); reflexivity. Qed.
Lemma uni_win_ok d i : 1 <= d -> d <= i -> i < T -> th n0 B [d + 1] (uni_win d i) (fun b q => f b (residual_time d i (hd 0 q))).
Proof.
  intros Hd Hi HT. unfold uni_win, unity_out. rewrite past_len. replace (i + 1 - 1) with i by lia. replace (i <? d) with false by lia.
  assert (G : forall l, length l = d + 1 -> (forall t, t < d + 1 -> nth_error l t = Some (F (residual_time d i t))) ->
    th n0 B [d + 1] (window_tens l) (fun b q => f b (residual_time d i (hd 0 q)))).
  { intros l Ll Hl. unfold window_tens. assert (E2 : length (sh (hd (TAttn.T [] []) l)) = 2).
    { destruct l as [|x l']; [cbn in Ll; lia|]. specialize (Hl 0 ltac:(lia)). cbn [nth_error] in Hl. injection Hl as ->. cbn [hd].
      rewrite (proj1 (HF (residual_time d i 0) ltac:(pose proof (residual_le B HB d i 0 ltac:(lia) ltac:(lia)); lia))). reflexivity. }
    rewrite E2. refine (proj2 (th_stack n0 B [] l (fun b q => f b (residual_time d i (hd 0 q))) (d + 1) Ll ltac:(lia) _)).
    intros t x Hx. assert (Ht : t < d + 1) by (rewrite <- Ll; apply nth_error_Some; congruence). rewrite (Hl t Ht) in Hx. injection Hx as <-. cbn [hd].
    apply (th_frame n0 B _ (fun b => f b (residual_time d i t))). apply HF. pose proof (residual_le B HB d i t ltac:(lia) ltac:(lia)). lia. }
  destruct (i <? 2 * d) eqn:E2; apply G.
  - apply window_length; rewrite ?past_len; lia.
  - intros t Ht. rewrite nth_error_window by lia. replace (t <? d + 1) with true by lia. rewrite past_nth by lia.
    unfold residual_time. rewrite E2. do 2 f_equal. lia.
  - apply stale_length; rewrite ?past_len; lia.
  - intros t Ht. rewrite stale_nth by (rewrite ?past_len; lia). apply past_nth. pose proof (residual_le B HB d i t ltac:(lia) ltac:(lia)). change (src d i t) with (residual_time d i t). lia.
Qed.
Lemma uni_step d i o : 1 <= d -> uinv d (past i) o ->
  exists o', tu_fstep d (F i) (obj_get o) = Ok (if d <=? i then Some (uni_win d i) else None, Some o') /\ uinv d (past (i + 1)) o' /\ obj_get o' = Some o'.
Proof.
  intros Hd Ho. destruct (unity_step_ok d Zeros (past i) o (F i) Hd Ho) as (o' & E1 & I1).
  unfold unity_forward_step in E1. replace (Nat.eqb d 0) with false in E1 by lia.
  destruct (unity_fstep d Zeros (F i) (obj_get o)) as [[out st]|] eqn:Es; [|discriminate]. cbn [bind] in E1.
  assert (Hst : exists u, st = Some u).
  { unfold unity_fstep in Es. destruct (setz _ _ _); [|discriminate]. cbn [bind] in Es.
    destruct (if Z.ltb 0 _ then _ else _) in Es; [|discriminate]. cbn [bind] in Es. injection Es as _ <-. eauto. }
  destruct Hst as [u ->]. injection E1 as -> <-. unfold obj_set in *. rewrite <- past_S in I1.
  exists u. split; [|split; [exact I1|]].
  - unfold tu_fstep. rewrite Es. cbn [bind]. rewrite <- past_S. unfold uni_win.
    rewrite uni_out_some. destruct (d <=? i); reflexivity.
  - unfold uinv in I1. destruct (past (i + 1)) eqn:Ep.
    + apply (f_equal (@length _)) in Ep. rewrite past_len in Ep. cbn in Ep. lia.
    + unfold obj_get. destruct (o_buf u); [cbn in I1; lia|reflexivity].
Qed.
Lemma uni_loop d L : 1 <= d -> forall i o, uinv d (past i) o ->
  exists o', co_loop (tu_fstep d) (map F (seq i L)) (obj_get o)
      = Ok (Base.somes (map (fun n => if d <=? n then Some (uni_win d n) else None) (seq i L)), if L =? 0 then obj_get o else Some o')
    /\ uinv d (past (i + L)) o' /\ (L = 0 -> o' = o).
Proof.
  intros Hd. induction L as [|L IH]; intros i o Ho.
  - exists o. rewrite Nat.add_0_r. auto.
  - destruct (uni_step d i o Hd Ho) as (o1 & E1 & I1 & G1). rewrite Nat.add_1_r in I1. destruct (IH (S i) o1 I1) as (o2 & E2 & I2 & Z2).
    exists o2. split; [|split; [replace (i + S L) with (S i + L) by lia; exact I2|discriminate]].
    cbn [seq map co_loop]. rewrite E1. cbn [bind]. rewrite <- G1, E2. cbn [bind Base.somes].
    assert (Eo : (if L =? 0 then obj_get o1 else Some o2) = Some o2) by (destruct (Nat.eqb_spec L 0) as [El|]; [rewrite (Z2 El); exact G1|reflexivity]).
    rewrite Eo. cbn [Nat.eqb]. destruct (d <=? i); reflexivity.
Qed.
Lemma streams_uni d : 1 <= d -> streams (MUni d) (uni_J d) n0 [d + 1] (d + 1) (fun i b q => f b (residual_time d i (hd 0 q))).
Proof.
  intros Hd. assert (Eb : Nat.eqb d 0 = false) by lia. split; [reflexivity|]. split.
  - intros i s Hi Is. destruct (uni_step d i _ Hd Is) as (o' & E1 & I1 & _). eexists _, (SObj o'). split.
    + cbn [exec]. unfold tu_forward_step. rewrite Eb. unfold co_forward_step. rewrite E1. reflexivity.
    + split; [exact I1|]. destruct (Nat.ltb_spec (i + 1) (d + 1)), (Nat.leb_spec d i); try lia; [reflexivity|].
      eexists. split; [reflexivity|]. apply uni_win_ok; lia.
  - intros i s L x Is (HL & HT & Hx & Hfr). destruct (uni_loop d L Hd i _ Is) as (o' & E1 & I1 & _). replace (L =? 0) with false in E1 by lia.
    rewrite somes_tail in E1.
    assert (Ex : exec ctx Steps (MUni d) s x false true
        = stacked (stack_outs (map (uni_win d) (seq (Nat.max i d) (i + L - Nat.max i d))), o')).
    { cbn [exec]. rewrite Eb. apply th_clip in Hx. rewrite (th_frames _ _ _ _ _ _ Hx). cbn [bind]. rewrite Hfr. unfold co_forward_steps. rewrite E1. cbn [bind].
      rewrite app_nil_r. reflexivity. }
    rewrite Ex. unfold first. replace (d + 1 - 1) with d by lia. destruct (Nat.ltb_spec (i + L) (d + 1)) as [Hc|Hc].
    + replace (i + L - Nat.max i d) with 0 by lia. cbn [seq map stack_outs]. eexists _, _. split; [reflexivity|]. split; [exact I1|reflexivity].
    + set (c := i + L - Nat.max i d). assert (Hc0 : 0 < c) by (unfold c; lia).
      destruct (stack_part (uni_win d) (fun n b q => f b (residual_time d n (hd 0 q))) [d + 1] (Nat.max i d) c o' Hc0) as (y & Ey & Hy).
      { intros t Ht. apply uni_win_ok; unfold c in Ht; lia. }
      replace (stack_outs (map (uni_win d) (seq (Nat.max i d) c))) with (Some (map (uni_win d) (seq (Nat.max i d) c))) by (destruct c; [lia|reflexivity]).
      exists (Some y), (SObj o'). split; [exact Ey|]. split; [exact I1|]. exists y. split; [reflexivity|exact Hy].
Qed.

(** *** Layers *)
Section Layers.
Variable p : layer K.
Hypothesis OK : layer_ok p.
Notation a := (l_a p). Notation E := (t_H (l_a p) * t_D (l_a p)). Notation N := (t_N (l_a p)).
Hypothesis HE : n0 = E.

Definition so_layer_J (qi : Z) (sof : bool) (i : nat) (s : tstate K) : Prop :=
  (if sof then del_J (so_delay N qi) i (st1 s) else True) /\ so_J p qi i (st2 s).
Lemma streams_ext m J n sp N' g g' : (forall i b q, i < T -> N' <= i + 1 -> b < B -> inr q sp -> g i b q = g' i b q) -> streams m J n sp N' g -> streams m J n sp N' g'.
Proof.
  intros Hg (A0 & A1 & A2). split; [exact A0|]. split.
  - intros i s Hi Is. destruct (A1 i s Hi Is) as (o & s' & E1 & I1 & V1). exists o, s'. split; [exact E1|]. split; [exact I1|].
    destruct (Nat.ltb_spec (i + 1) N'); [exact V1|]. destruct V1 as (y & Ey & Hy). exists y. split; [exact Ey|].
    apply th_ext with (2 := Hy). intros b q Hb Hq. apply Hg; assumption.
  - intros i s L x Is Hx. destruct (A2 i s L x Is Hx) as (o & s' & E1 & I1 & V1). exists o, s'. split; [exact E1|]. split; [exact I1|].
    destruct (Nat.ltb_spec (i + L) N'); [exact V1|]. destruct V1 as (y & Ey & Hy). exists y. split; [exact Ey|].
    apply th_ext with (2 := Hy). intros b q Hb Hq. inversion Hq as [|j ? q' ? Hj Hq']; subst q. cbn [hd tl]. destruct Hx as (HL & HT & _).
    apply Hg; [unfold first in *; lia|unfold first in *; lia|exact Hb|exact Hq'].
Qed.
Lemma streams_so_layer qi sof : 0 < N -> (- Z.of_nat N <= qi < Z.of_nat N)%Z -> sof = true \/ qi = (-1)%Z ->
  streams (so_layer p qi sof) (so_layer_J qi sof) E [] N (fun i b _ => layer_token p (window_tokens N i f b) (chosen qi N)).
Proof.
  intros HN Hq Hs. rewrite so_shaped. assert (Hch : chosen qi N < N) by (unfold chosen; destruct (Z.ltb_spec qi 0); lia).
  assert (P1 : pw ctx Step (so_post p) E E B [] (post p)) by (apply (pw_so_post B HB ctx p OK Step []); reflexivity).
  assert (P2 : forall L, 0 < L -> pw ctx Steps (so_post p) E E B [L] (post p)).
  { intros L HL. apply (pw_so_post B HB ctx p OK Steps [L]). exists L. auto. }
  pose proof (streams_so p OK HE qi sof HN Hq) as HS. rewrite <- HE in HS, P1, P2 |- *. destruct sof.
  - apply streams_ext with (g := fun i b q => post p (plus (f b (i - so_delay N qi)) (attend p (window_tokens N i f b) (chosen qi N)))).
    + intros i b q Hi HN' Hb _. unfold layer_token. rewrite window_nth by exact Hch. do 3 f_equal.
      unfold so_delay, chosen. destruct (Z.leb_spec 0 qi), (Z.ltb_spec qi 0); lia.
    + refine (streams_shaped true _ _ _ _ _ n0 [] (so_delay N qi + 1) N _ _ _ _ (or_introl eq_refl) HN (streams_del true (so_delay N qi)) HS P1 P2).
      unfold so_delay. destruct (Z.leb_spec 0 qi); lia.
  - destruct Hs as [Hs | ->]; [discriminate|].
    apply streams_ext with (g := fun i b q => post p (plus (map (fun v => v) (f b i)) (attend p (window_tokens N i f b) (chosen (-1) N)))).
    + intros i b q Hi HN' Hb _. unfold layer_token. rewrite window_nth by exact Hch. rewrite map_id. do 3 f_equal.
      unfold chosen. cbn [Z.ltb Z.compare]. lia.
    + refine (streams_shaped true _ _ _ _ _ n0 [] 1 N _ _ _ HN (or_introl eq_refl) HN (streams_pw _ (map (fun v => v)) _ _) HS P1 P2).
      * apply (pw_lam_fun B ctx Step n0 [] (fun v => v)).
      * intros L _. apply (pw_lam_fun B ctx Steps n0 [L] (fun v => v)).
Qed.

Definition re_layer_J (i : nat) (s : tstate K) : Prop := uni_J (N - 1) i (st1 s) /\ re_J p i (st2 s).
Definition re_row (i b j : nat) : list K := post p (plus (f b (residual_time (N - 1) i j)) (attend p (window_tokens N i f b) j)).
Lemma streams_re_layer : 2 <= N -> streams (re_layer p) re_layer_J E [N] N (fun i b q => re_row i b (hd 0 q)).
Proof.
  intros HN. rewrite re_shaped. assert (HN0 : 0 < N) by lia.
  assert (P1 : pw ctx Step (MLam true false (re_post_fn p)) E E B [N] (post p)).
  { apply (pw_lam_clip B HB ctx); [auto|exact HN0|]. apply pw_re_post; assumption. }
  assert (P2 : forall L, 0 < L -> pw ctx Steps (MLam true false (re_post_fn p)) E E B [L; N] (post p)).
  { intros L HL. apply (pw_lam_clips B HB ctx); [exact HL|exact HN0|]. apply pw_re_post; assumption. }
  pose proof (streams_re p OK HE HN) as HS. assert (Hu := streams_uni (N - 1) ltac:(lia)). replace (N - 1 + 1) with N in Hu by lia.
  rewrite <- HE in HS, P1, P2 |- *.
  exact (streams_shaped false _ _ _ _ _ n0 [N] N N _ _ _ (Nat.le_refl N) (or_intror eq_refl) HN0 Hu HS P1 P2).
Qed.
End Layers.
End P.
