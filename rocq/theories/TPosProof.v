(** Transformers for streams: proofs. *)
From Coq Require Import List ZArith Bool Arith Lia ZifyBool ZifyNat.
From Verif Require Import Base Attn AttnSpec CallMode Tensor TAttn TAttnSpec TAttnProof TPoint TEnc TEncSpec TEncProof TEncThm TEncMix TPosSpec.
Import ListNotations.

Section P.
Context {K : Type} {NK : Num K} {NL : NumLaws K}.
Variable B : nat.
Hypothesis HB : 0 < B.
Variables (C E O P : nat) (we : list K) (be : option (list K)) (wh : list K) (bh : option (list K)) (emb : nat -> list K) (steps : nat).
Hypothesis HP : 0 < P.
Hypothesis HE : forall j, length (emb j) = E.
Variable enc : tmod K.
Notation net := (stream_net C E O P we be emb steps enc wh bh).
Notation embed := (affine C E we be).
Notation head := (affine E O wh bh).

Lemma pos_clip ctx me x L f k : L <= P -> clip_holds E B L x f -> me = Forward \/ me = Steps ->
  exists y, clip_holds E B L y (fun b t => plus (f b t) (emb ((k + t) mod P)))
    /\ forall s, pos_of s = k mod P -> exec ctx me (MPos P E emb steps) s x false true
       = Ok (Some y, SPos ((k + match me with Forward => steps | _ => L end) mod P)).
Proof.
  intros HL [Sx Hx] Hm.
  exists (mk [B; E; L] (fun ix => kadd (get x ix) (nth (nth 1 ix 0) (emb ((nth 2 ix 0 + k mod P) mod P)) k0))). split.
  - split; [reflexivity|]. intros b t Hb Ht. destruct (Hx b t Hb Ht) as [Lx Vx].
    split; [apply plus_len; [exact Lx|apply HE]|]. intros e He.
    rewrite get_mk by (repeat constructor; assumption). cbn [nth]. rewrite (Vx e He).
    rewrite (plus_nth _ _ E e Lx (HE _) He). rewrite Nat.add_mod_idemp_r by lia. rewrite (Nat.add_comm t k). reflexivity.
  - intros s Hk. assert (Es : forall j, (pos_of s + j) mod P = (k + j) mod P)
      by (intros j; rewrite Hk, Nat.add_mod_idemp_l by lia; reflexivity).
    destruct Hm as [-> | ->]; cbn [exec]; unfold pos_forward; rewrite Sx; cbn [nth];
      rewrite (proj2 (Nat.leb_le L P) HL), Nat.eqb_refl, Es, Hk; reflexivity.
Qed.
Lemma pos_frame ctx x f k : frame_holds E B x f ->
  exists y, frame_holds E B y (fun b => plus (f b) (emb (k mod P)))
    /\ forall s, pos_of s = k mod P -> exec ctx Step (MPos P E emb steps) s x false true = Ok (Some y, SPos ((k + 1) mod P)).
Proof.
  intros [Sx Hx].
  exists (mk [B; E] (fun ix => kadd (get x ix) (nth (nth 1 ix 0) (emb (k mod P)) k0))). split.
  - split; [reflexivity|]. intros b Hb. destruct (Hx b Hb) as [Lx Vx].
    split; [apply plus_len; [exact Lx|apply HE]|]. intros e He.
    rewrite get_mk by (repeat constructor; assumption). cbn [nth]. rewrite (Vx e He), (plus_nth _ _ E e Lx (HE _) He). reflexivity.
  - intros s Hk. cbn [exec]. unfold pos_step. rewrite Sx, Nat.eqb_refl, Hk, Nat.add_mod_idemp_l by lia. reflexivity.
Qed.

(** Embedding and encoding, then the rest. *)
Lemma lin_clip ctx me x L f : clip_holds C B L x f -> exists y, clip_holds E B L y (fun b t => embed (f b t))
  /\ forall s, exec ctx me (MLin 1 C E we be) s x false true = Ok (Some y, s).
Proof.
  intros Hx. apply th_clip in Hx. destruct (th_lin 1 C E we be B [L] x _ (or_introl eq_refl) Hx) as (y & E1 & Hy).
  exists y. split; [apply th_clip; exact Hy|]. intros s. cbn [exec]. rewrite E1. reflexivity.
Qed.
Lemma lin_frame ctx me x f : frame_holds C B x f -> exists y, frame_holds E B y (fun b => embed (f b))
  /\ forall s, exec ctx me (MLin 1 C E we be) s x false true = Ok (Some y, s).
Proof.
  intros Hx. apply th_frame in Hx. destruct (th_lin 1 C E we be B [] x _ (or_introl eq_refl) Hx) as (y & E1 & Hy).
  exists y. split; [apply th_frame; exact Hy|]. intros s. cbn [exec]. rewrite E1. reflexivity.
Qed.
Definition ex (ctx : option meth) (me : meth) : tmod K -> tstate K -> tens K -> res (option (tens K) * tstate K) :=
  fun m s x => exec ctx me m s x false true.
Lemma front_clip ctx me x L f k : L <= P -> clip_holds C B L x f -> me = Forward \/ me = Steps ->
  exists y, clip_holds E B L y (fun b t => plus (embed (f b t)) (emb ((k + t) mod P)))
    /\ forall rest ss, pos_of (hd SNone (tl ss)) = k mod P ->
       chain me (ex ctx me) (MLin 1 C E we be :: MPos P E emb steps :: rest) ss x
       = '(z, ss') <- chain me (ex ctx me) rest (tl (tl ss)) y ;;
         Ok (z, hd SNone ss :: SPos ((k + match me with Forward => steps | _ => L end) mod P) :: ss').
Proof.
  intros HL Hx Hm. destruct (lin_clip ctx me x L f Hx) as (u & Hu & Eu). destruct (pos_clip ctx me u L _ k HL Hu Hm) as (y & Hy & Ey).
  exists y. split; [exact Hy|]. intros rest ss Hk.
  rewrite chain_cons, (clip_not_empty B HB _ _ _ _ Hx). unfold ex at 1. rewrite Eu. cbn [bind].
  rewrite chain_cons, (clip_not_empty B HB _ _ _ _ Hu). unfold ex at 1. rewrite (Ey _ Hk). cbn [bind].
  destruct me; (destruct (chain _ _ rest _ y) as [[]|]; reflexivity).
Qed.
Lemma front_frame ctx x f k : frame_holds C B x f ->
  exists y, frame_holds E B y (fun b => plus (embed (f b)) (emb (k mod P)))
    /\ forall rest ss, pos_of (hd SNone (tl ss)) = k mod P ->
       chain Step (ex ctx Step) (MLin 1 C E we be :: MPos P E emb steps :: rest) ss x
       = '(z, ss') <- chain Step (ex ctx Step) rest (tl (tl ss)) y ;; Ok (z, hd SNone ss :: SPos ((k + 1) mod P) :: ss').
Proof.
  intros Hx. destruct (lin_frame ctx Step x f Hx) as (u & Hu & Eu). destruct (pos_frame ctx u _ k Hu) as (y & Hy & Ey).
  exists y. split; [exact Hy|]. intros rest ss Hk.
  rewrite chain_cons. unfold ex at 1. rewrite Eu. cbn [bind]. rewrite chain_cons. unfold ex at 1. rewrite (Ey _ Hk). cbn [bind].
  destruct (chain _ _ rest _ y) as [[]|]; reflexivity.
Qed.

(** The head. *)
Lemma back_none ctx me ss y s : me = Step \/ me = Steps -> empty_batch y = false -> exec ctx me enc (hd SNone ss) y false true = Ok (None, s) ->
  chain me (ex ctx me) [enc; MLin 1 E O wh bh] ss y = Ok (None, s :: tl ss).
Proof. intros Hm Hy H. rewrite chain_cons, Hy. unfold ex at 1. rewrite H. destruct Hm as [-> | ->]; reflexivity. Qed.
Lemma back_clip ctx me ss y s u L f : empty_batch y = false -> exec ctx me enc (hd SNone ss) y false true = Ok (Some u, s) -> clip_holds E B L u f ->
  exists z s2, chain me (ex ctx me) [enc; MLin 1 E O wh bh] ss y = Ok (Some z, [s; s2]) /\ clip_holds O B L z (fun b t => head (f b t)).
Proof.
  intros Hy H Hu. pose proof (proj1 (th_clip _ _ _ _ _) Hu) as Hu'.
  destruct (th_lin 1 E O wh bh B [L] u _ (or_introl eq_refl) Hu') as (z & E1 & Hz). exists z, (hd SNone (tl ss)). split; [|apply th_clip; exact Hz].
  rewrite chain_cons, Hy. unfold ex at 1. rewrite H. cbn [bind]. rewrite chain_cons, (clip_not_empty B HB _ _ _ _ Hu). unfold ex at 1. cbn [exec].
  rewrite E1. destruct me; reflexivity.
Qed.
Lemma back_frame ctx ss y s u f : exec ctx Step enc (hd SNone ss) y false true = Ok (Some u, s) -> frame_holds E B u f ->
  exists z s2, chain Step (ex ctx Step) [enc; MLin 1 E O wh bh] ss y = Ok (Some z, [s; s2]) /\ frame_holds O B z (fun b => head (f b)).
Proof.
  intros H Hu. pose proof (proj1 (th_frame _ _ _ _) Hu) as Hu'.
  destruct (th_lin 1 E O wh bh B [] u _ (or_introl eq_refl) Hu') as (z & E1 & Hz). exists z, (hd SNone (tl ss)). split; [|apply th_frame; exact Hz].
  rewrite chain_cons. unfold ex at 1. rewrite H. cbn [bind]. rewrite chain_cons. unfold ex at 1. cbn [exec]. rewrite E1. reflexivity.
Qed.

Lemma clip_same n L x f1 f2 : clip_holds n B L x f1 -> clip_holds n B L x f2 -> forall b t, b < B -> t < L -> f1 b t = f2 b t.
Proof.
  intros [_ H1] [_ H2] b t Hb Ht. destruct (H1 b t Hb Ht) as [L1 V1]. destruct (H2 b t Hb Ht) as [L2 V2].
  apply (nth_ext _ _ k0 k0); [congruence|]. intros e He. rewrite <- V1, <- V2 by lia. reflexivity.
Qed.

Variable N : nat.
Variable r : nat -> nat -> list K.
Variable wl : nat -> nat.
Variable w : nat -> (nat -> nat -> list K) -> nat -> nat -> list K.
Notation R := (fun n y => frame_holds E B y (r n)).
Notation Rs := (fun n c y => clip_holds E B c y (fun b j => r (n + j) b)).
Notation W := (fun x y => forall L h, clip_holds E B L x h -> clip_holds E B (wl L) y (w L h)).
Notation R2 := (fun n y => frame_holds O B y (fun b => head (r n b))).
Notation Rs2 := (fun n c y => clip_holds O B c y (fun b j => head (r (n + j) b))).
Notation W2 := (fun k x y => forall L h, clip_holds C B L x h ->
  clip_holds O B (wl L) y (fun b t => head (w L (fun b t => plus (embed (h b t)) (emb ((k + t) mod P))) b t))).

Lemma exec_net ctx me s x : exec ctx me net s x false true
  = '(y, ss) <- chain me (ex ctx me) [MLin 1 C E we be; MPos P E emb steps; enc; MLin 1 E O wh bh] (kids s) x ;; Ok (y, SList ss).
Proof. reflexivity. Qed.

Lemma run : forall l k i f g, input_holds (fun _ => True) C B i l f -> clips_fit P l ->
  (forall b t, t < length (positions steps k l) -> g b (i + t) = plus (embed (f b (i + t))) (emb (nth t (positions steps k l) 0 mod P))) ->
  exists l', input_holds (fun _ => True) E B i l' g /\ map ctx_of l' = map ctx_of l
    /\ forall sE outs sE', calls enc sE l' = Ok (outs, sE') -> answers N R Rs W i l' outs ->
       forall s, pos_of (hd SNone (tl (kids s))) = k mod P -> hd SNone (tl (tl (kids s))) = sE ->
       exists outs2 s2, calls net s l = Ok (outs2, s2) /\ answers_at steps N R2 Rs2 W2 k i l outs2.
Proof.
  induction l as [|c l IH]; intros k i f g Hl HF Hg.
  - exists []. split; [exact I|]. split; [reflexivity|]. intros sE outs sE' _ _ s _ _. exists [], s. split; [reflexivity|exact I].
  - inversion HF as [|? ? HF1 HF2]; subst. destruct c as [ctx x|ctx x|ctx x]; cbn [input_holds positions] in Hl, Hg.
    + destruct Hl as [Hx Hl]. destruct (front_frame ctx x _ k Hx) as (y & Hy & Ey).
      destruct (IH (k + 1) (i + 1) f g Hl HF2) as (l' & Hl' & Hc & HR).
      { intros b t Ht. specialize (Hg b (S t)). cbn [length nth] in Hg. replace (i + 1 + t) with (i + S t) by lia. apply Hg. lia. }
      exists (CFrame ctx y :: l'). split.
      { split; [|exact Hl']. destruct Hy as [S1 H1]. split; [exact S1|]. intros b Hb.
        specialize (Hg b 0). cbn [length nth] in Hg. rewrite Nat.add_0_r in Hg. rewrite Hg by lia. apply H1. exact Hb. }
      split; [cbn [map ctx_of]; rewrite Hc; reflexivity|].
      intros sE outs sE' E1 A s Hk Hs. cbn [calls call] in E1.
      destruct (exec ctx Step enc sE y false true) as [[o s1]|] eqn:Ee; [|discriminate]. cbn [bind] in E1.
      destruct (calls enc s1 l') as [[outs' s3]|] eqn:E2; [|discriminate]. cbn [bind] in E1. injection E1 as <- <-.
      cbn [answers] in A. destruct A as [A1 A2]. rewrite <- Hs in Ee.
      assert (HS : exists o2 ss2, chain Step (ex ctx Step) [enc; MLin 1 E O wh bh] (tl (tl (kids s))) y = Ok (o2, s1 :: ss2)
                     /\ if Nat.ltb (i + 1) N then o2 = None else exists y, o2 = Some y /\ R2 i y).
      { destruct (Nat.ltb (i + 1) N).
        - subst o. exists None, (tl (tl (tl (kids s)))). split; [|reflexivity]. apply back_none; [auto|exact (frame_not_empty B HB _ _ _ Hy)|exact Ee].
        - destruct A1 as (u & -> & Hu). destruct (back_frame ctx _ y s1 u _ Ee Hu) as (z & s2 & E3 & Hz). exists (Some z), [s2].
          split; [exact E3|]. exists z. split; [reflexivity|exact Hz]. }
      destruct HS as (o2 & ss2 & E3 & Ho). 
      destruct (HR s1 outs' s3 E2 A2 (SList (hd SNone (kids s) :: SPos ((k + 1) mod P) :: s1 :: ss2)) eq_refl eq_refl) as (outs2 & s4 & E4 & A4).
      exists (o2 :: outs2), s4. split; [|split; [exact Ho|exact A4]].
      cbn [calls call]. rewrite exec_net, (Ey _ _ Hk), E3. cbn [bind]. rewrite E4. reflexivity.
    + destruct Hl as (L & HL & Hx & Hl). assert (EL : frames_in x = L) by (unfold frames_in; rewrite (proj1 Hx); reflexivity).
      cbn in HF1. rewrite EL in *.
      destruct (front_clip ctx Steps x L _ k HF1 Hx (or_intror eq_refl)) as (y & Hy & Ey).
      destruct (IH (k + L) (i + L) f g Hl HF2) as (l' & Hl' & Hc & HR).
      { intros b t Ht. specialize (Hg b (L + t)). rewrite app_length, seq_length in Hg.
        rewrite app_nth2 in Hg by (rewrite seq_length; lia). rewrite seq_length in Hg. replace (L + t - L) with t in Hg by lia.
        replace (i + L + t) with (i + (L + t)) by lia. apply Hg. lia. }
      exists (CClip ctx y :: l'). split.
      { exists L. split; [exact HL|]. split; [|exact Hl']. destruct Hy as [S1 H1]. split; [exact S1|]. intros b t Hb Ht.
        specialize (Hg b t). rewrite app_length, seq_length in Hg. rewrite app_nth1 in Hg by (rewrite seq_length; lia).
        rewrite seq_nth in Hg by exact Ht. rewrite Hg by lia. apply H1; assumption. }
      split; [cbn [map ctx_of]; rewrite Hc; reflexivity|].
      intros sE outs sE' E1 A s Hk Hs. cbn [calls call] in E1.
      destruct (exec ctx Steps enc sE y false true) as [[o s1]|] eqn:Ee; [|discriminate]. cbn [bind] in E1.
      destruct (calls enc s1 l') as [[outs' s3]|] eqn:E2; [|discriminate]. cbn [bind] in E1. injection E1 as <- <-.
      cbn [answers] in A. rewrite (proj1 Hy) in A. cbn [nth] in A. destruct A as [A1 A2]. rewrite <- Hs in Ee.
      assert (HS : exists o2 ss2, chain Steps (ex ctx Steps) [enc; MLin 1 E O wh bh] (tl (tl (kids s))) y = Ok (o2, s1 :: ss2)
                     /\ if Nat.ltb (i + L) N then o2 = None else exists y, o2 = Some y /\ Rs2 (Nat.max i (N - 1)) (i + L - Nat.max i (N - 1)) y).
      { destruct (Nat.ltb (i + L) N).
        - subst o. exists None, (tl (tl (tl (kids s)))). split; [|reflexivity]. apply back_none; [auto|exact (clip_not_empty B HB _ _ _ _ Hy)|exact Ee].
        - destruct A1 as (u & -> & Hu). destruct (back_clip ctx Steps _ y s1 u _ _ (clip_not_empty B HB _ _ _ _ Hy) Ee Hu) as (z & s2 & E3 & Hz).
          exists (Some z), [s2]. split; [exact E3|]. exists z. split; [reflexivity|exact Hz]. }
      destruct HS as (o2 & ss2 & E3 & Ho).
      destruct (HR s1 outs' s3 E2 A2 (SList (hd SNone (kids s) :: SPos ((k + L) mod P) :: s1 :: ss2)) eq_refl eq_refl) as (outs2 & s4 & E4 & A4).
      exists (o2 :: outs2), s4. split; [|cbn [answers_at]; rewrite EL; split; [exact Ho|exact A4]].
      cbn [calls call]. rewrite exec_net, (Ey _ _ Hk), E3. cbn [bind]. rewrite E4. reflexivity.
    + destruct Hl as [(L & h & HL & _ & Hx) Hl]. assert (EL : frames_in x = L) by (unfold frames_in; rewrite (proj1 Hx); reflexivity).
      cbn in HF1. rewrite EL in *.
      destruct (front_clip ctx Forward x L _ k HF1 Hx (or_introl eq_refl)) as (y & Hy & Ey).
      destruct (IH (k + steps) i f g Hl HF2 Hg) as (l' & Hl' & Hc & HR).
      exists (CForward ctx y :: l'). split.
      { split; [|exact Hl']. exists L, (fun b t => plus (embed (h b t)) (emb ((k + t) mod P))). split; [exact HL|]. split; [exact I|exact Hy]. }
      split; [cbn [map ctx_of]; rewrite Hc; reflexivity|].
      intros sE outs sE' E1 A s Hk Hs. cbn [calls call] in E1.
      destruct (exec ctx Forward enc sE y false true) as [[o s1]|] eqn:Ee; [|discriminate]. cbn [bind] in E1.
      destruct (calls enc s1 l') as [[outs' s3]|] eqn:E2; [|discriminate]. cbn [bind] in E1. injection E1 as <- <-.
      cbn [answers] in A. destruct A as [(u & -> & Hu) A2]. rewrite <- Hs in Ee. 
      destruct (back_clip ctx Forward _ y s1 u _ _ (clip_not_empty B HB _ _ _ _ Hy) Ee (Hu L _ Hy)) as (z & s2 & E3 & Hz).
      destruct (HR s1 outs' s3 E2 A2 (SList (hd SNone (kids s) :: SPos ((k + steps) mod P) :: s1 :: [s2])) eq_refl eq_refl) as (outs2 & s4 & E4 & A4).
      exists (Some z :: outs2), s4. split.
      * cbn [calls call]. rewrite exec_net, (Ey _ _ Hk), E3. cbn [bind]. rewrite E4. reflexivity.
      * split; [|exact A4]. exists z. split; [reflexivity|]. intros L2 h2 Hx2.
        assert (EL2 : L2 = L) by (destruct Hx as [S1 _]; destruct Hx2 as [S2 _]; congruence). subst L2.
        assert (Hy2 : clip_holds E B L y (fun b t => plus (embed (h2 b t)) (emb ((k + t) mod P)))).
        { apply (clip_ext B _ _ _ _ _) with (2 := Hy). intros b t Hb Ht. rewrite (clip_same _ _ _ _ _ Hx Hx2 b t Hb Ht). reflexivity. }
        destruct (back_clip ctx Forward _ y s1 u _ _ (clip_not_empty B HB _ _ _ _ Hy) Ee (Hu L _ Hy2)) as (z' & s2' & E3' & Hz').
        rewrite E3 in E3'. injection E3' as <- _. exact Hz'.
Qed.
End P.

Section Q.
Context {K : Type} {NK : Num K} {NL : NumLaws K}.
Variable B : nat.
Hypothesis HB : 0 < B.
Variables (C O P : nat) (we : list K) (be : option (list K)) (wh : list K) (bh : option (list K)) (emb : nat -> list K) (steps : nat).
Hypothesis HP : 0 < P.

Lemma ctx_all (ok : option meth -> Prop) (l l' : list (tcall K)) : map ctx_of l' = map ctx_of l ->
  Forall (fun c => ok (ctx_of c)) l -> Forall (fun c => ok (ctx_of c)) l'.
Proof. intros E H. apply Forall_map in H. rewrite <- E in H. apply Forall_map. exact H. Qed.

Lemma net_one p norm i0 s l f :
  let N := t_N (l_a p) in let E := t_H (l_a p) * t_D (l_a p) in
  let g := encoded P emb (fun t => nth t (positions steps i0 l) 0) (fun b t => affine C E we be (f b t)) in
  layer_ok p -> norm_ok E norm -> 0 < N -> (forall j, length (emb j) = E) -> i0 < P -> at_index i0 s ->
  input_holds (fun _ => True) C B 0 l f -> clips_fit P l ->
  exists outs s', calls (stream_net C E O P we be emb steps (encoder1 p norm) wh bh) s l = Ok (outs, s')
    /\ answers_at steps N
         (fun n y => frame_holds O B y (fun b => affine E O wh bh (normed norm (layer_token p (window_tokens N n g b) (N - 1)))))
         (fun n c y => clip_holds O B c y (fun b j => affine E O wh bh (normed norm (layer_token p (window_tokens N (n + j) g b) (N - 1)))))
         (fun k x y => forall L h, clip_holds C B L x h -> clip_holds O B L y (fun b t => affine E O wh bh (normed norm
            (layer_token p (clip_tokens L (encoded P emb (fun t => k + t) (fun b t => affine C E we be (h b t))) b) t))))
         i0 0 l outs.
Proof.
  intros N E g OK NO HN HE Hi HA Hl HF.
  destruct (run B HB C E O P we be wh bh emb steps HP HE (encoder1 p norm) N
    (fun n b => normed norm (layer_token p (window_tokens N n g b) (N - 1))) (fun L => L)
    (fun L k b t => normed norm (layer_token p (clip_tokens L k b) t)) l i0 0 f g Hl HF) as (l' & Hl' & Hc & HR).
  { intros b t _. reflexivity. }
  destruct (enc1_calls B HB p OK norm l' g HN NO Hl') as (outs & s' & E1 & A1).
  destruct (HR SNone outs s' E1 A1 s) as (outs2 & s2 & E2 & A2).
  { rewrite (Nat.mod_small _ _ Hi). destruct HA as [-> | [-> ->]]; reflexivity. }
  { destruct HA as [-> | [-> ->]]; reflexivity. }
  exists outs2, s2. split; [exact E2|]. exact A2.
Qed.

Lemma net_two p1 p2 norm i0 s l f :
  let N := t_N (l_a p1) in let E := t_H (l_a p1) * t_D (l_a p1) in
  let g := encoded P emb (fun t => nth t (positions steps i0 l) 0) (fun b t => affine C E we be (f b t)) in
  layer_ok p1 -> layer_ok p2 -> t_H (l_a p2) * t_D (l_a p2) = E -> norm_ok E norm -> 2 <= N -> (forall j, length (emb j) = E) -> i0 < P -> at_index i0 s ->
  input_holds (fun _ => True) C B 0 l f -> clips_fit P l -> Forall (fun c => ctx_of c = None \/ ctx_of c = Some Forward) l ->
  exists outs s', calls (stream_net C E O P we be emb steps (encoder2 p1 p2 norm) wh bh) s l = Ok (outs, s')
    /\ answers_at steps N
         (fun n y => frame_holds O B y (fun b => affine E O wh bh (normed norm (layer_token p2 (first_tokens p1 n g b) (N - 1)))))
         (fun n c y => clip_holds O B c y (fun b j => affine E O wh bh (normed norm (layer_token p2 (first_tokens p1 (n + j) g b) (N - 1)))))
         (fun k x y => forall L h, clip_holds C B L x h -> clip_holds O B 1 y (fun b _ => affine E O wh bh (normed norm
            (two_layers p1 p2 (clip_tokens L (encoded P emb (fun t => k + t) (fun b t => affine C E we be (h b t))) b) (L - 1)))))
         i0 0 l outs.
Proof.
  intros N E g OK1 OK2 EE NO HN HE Hi HA Hl HF HC.
  destruct (run B HB C E O P we be wh bh emb steps HP HE (encoder2 p1 p2 norm) N
    (fun n b => normed norm (layer_token p2 (first_tokens p1 n g b) (N - 1))) (fun L => 1)
    (fun L k b _ => normed norm (two_layers p1 p2 (clip_tokens L k b) (L - 1))) l i0 0 f g Hl HF) as (l' & Hl' & Hc & HR).
  { intros b t _. reflexivity. }
  destruct (enc2_calls B HB p1 p2 norm OK1 OK2 EE NO l' g HN Hl' (ctx_all (fun c => c = None \/ c = Some Forward) l l' Hc HC)) as (outs & s' & E1 & A1).
  destruct (HR SNone outs s' E1 A1 s) as (outs2 & s2 & E2 & A2).
  { rewrite (Nat.mod_small _ _ Hi). destruct HA as [-> | [-> ->]]; reflexivity. }
  { destruct HA as [-> | [-> ->]]; reflexivity. }
  exists outs2, s2. split; [exact E2|]. exact A2.
Qed.

Lemma long_clip E enc ctx me s x L h : me = Forward \/ me = Steps -> clip_holds C B L x h -> P < L ->
  exec ctx me (stream_net C E O P we be emb steps enc wh bh) s x false true = Err AssertionError.
Proof.
  intros Hm Hx HL. destruct (lin_clip B C E we be ctx me x L h Hx) as (u & Hu & Eu).
  rewrite exec_net, chain_cons, (clip_not_empty B HB _ _ _ _ Hx). unfold ex at 1. rewrite Eu. cbn [bind].
  rewrite chain_cons, (clip_not_empty B HB _ _ _ _ Hu). unfold ex at 1.
  assert (E1 : exec ctx me (MPos P E emb steps) (hd SNone (tl (kids s))) u false true = Err AssertionError).
  { destruct Hm as [-> | ->]; cbn [exec]; unfold pos_forward; rewrite (proj1 Hu), (proj2 (Nat.leb_gt L P) HL); reflexivity. }
  rewrite E1. destruct me; reflexivity.
Qed.

Lemma positions_no_forward l k : Forall (fun c => match c with CForward _ _ => steps = 0 | _ => True end) l ->
  positions steps k l = seq k (length (positions (K := K) steps k l)).
Proof.
  revert k. induction l as [|c l IH]; intros k H; [reflexivity|]. inversion H as [|? ? H1 H2]; subst.
  destruct c; cbn [positions].
  - cbn [length seq]. f_equal. replace (S k) with (k + 1) by lia. apply IH. exact H2.
  - rewrite app_length, seq_length, seq_app. f_equal. apply IH. exact H2.
  - rewrite H1, Nat.add_0_r. rewrite H1 in IH. apply IH. rewrite H1 in H2. exact H2.
Qed.

Lemma window_shift N n (f g : nat -> nat -> list K) b : N <= n + 1 -> (forall t, t < N -> f b (n + 1 - N + t) = g b t) ->
  window_tokens N n f b = clip_tokens N g b.
Proof.
  intros HN H. unfold window_tokens, clip_tokens. apply (nth_ext _ _ [] []); [rewrite !map_length, !seq_length; reflexivity|].
  intros i Hi. rewrite map_length, seq_length in Hi.
  rewrite !(nth_indep _ [] (f b 0)) by (rewrite map_length, seq_length; exact Hi). rewrite map_nth, seq_nth by exact Hi. rewrite H by exact Hi.
  rewrite (nth_indep _ _ (g b 0)) by (rewrite map_length, seq_length; exact Hi). rewrite map_nth, seq_nth by exact Hi. reflexivity.
Qed.
Lemma stream_input (xs : list (tens K)) f : stream_holds C B xs f -> forall i, (forall t x, nth_error xs t = Some x -> frame_holds C B x (fun b => f b (i + t))) ->
  input_holds (fun _ => True) C B i (map (CFrame None) xs) f.
Proof.
  intros _. induction xs as [|x xs IH]; intros i H; [exact I|]. split.
  - specialize (H 0 x eq_refl). rewrite Nat.add_0_r in H. exact H.
  - apply IH. intros t y Hy. replace (i + 1 + t) with (i + S t) by lia. apply H. exact Hy.
Qed.
Lemma frames_fit (xs : list (tens K)) : clips_fit P (map (CFrame None) xs).
Proof. induction xs; constructor; auto. Qed.
Lemma frames_positions k (xs : list (tens K)) : positions steps k (map (CFrame None) xs) = seq k (length xs).
Proof. revert k. induction xs; intros k; cbn; [reflexivity|]. f_equal. replace (S k) with (k + 1) by lia. auto. Qed.
Lemma answers_last N R Rs W (xs : list (tens K)) : forall k i outs, 0 < length xs -> N <= i + length xs -> 
  answers_at steps N R Rs W k i (map (CFrame None) xs) outs -> exists y, last outs None = Some y /\ R (i + length xs - 1) y.
Proof.
  induction xs as [|x xs IH]; intros k i outs HL HN A; [cbn in HL; lia|]. destruct outs as [|o outs]; [destruct A|]. destruct A as [A1 A2].
  destruct xs as [|x2 xs].
  - destruct outs as [|? ?]; [|destruct A2]. cbn [length] in *. replace (Nat.ltb (i + 1) N) with false in A1 by lia.
    destruct A1 as (y & -> & Hy). exists y. split; [reflexivity|]. replace (i + 1 - 1) with i by lia. exact Hy.
  - destruct (IH (k + 1) (i + 1) outs ltac:(cbn; lia) ltac:(cbn [length] in *; lia) A2) as (y & Ey & Hy). exists y.
    split; [|replace (i + length (x :: x2 :: xs) - 1) with (i + 1 + length (x2 :: xs) - 1) by (cbn [length]; lia); exact Hy].
    destruct outs; [destruct A2|exact Ey].
Qed.

Lemma shift_mod n N j : 0 < P -> N <= n + 1 -> ((n + 1 - N) mod P + j) mod P = (n + 1 - N + j) mod P.
Proof. intros H _. rewrite Nat.add_mod_idemp_l by lia. reflexivity. Qed.

Lemma step_forward_one p norm s s0 xs f x :
  let N := t_N (l_a p) in let E := t_H (l_a p) * t_D (l_a p) in let n := length xs - 1 in
  let net := stream_net C E O P we be emb steps (encoder1 p norm) wh bh in
  layer_ok p -> norm_ok E norm -> 0 < N -> (forall j, length (emb j) = E) -> at_index 0 s0 -> at_index ((n + 1 - N) mod P) s ->
  stream_holds C B xs f -> N <= length xs -> N <= P -> clip_holds C B N x (fun b t => f b (n + 1 - N + t)) ->
  exists outs s1 y z s2, calls net s0 (map (CFrame None) xs) = Ok (outs, s1) /\ last outs None = Some y
    /\ by_name Forward net s x = Ok (Some z, s2) /\ forall b o, b < B -> o < O -> get y [b; o] = get z [b; o; N - 1].
Proof.
  intros N E n net OK NO HN HE H0 HA Hs HL HNP Hx.
  destruct (net_one p norm 0 s0 (map (CFrame None) xs) f OK NO HN HE HP H0 (stream_input xs f Hs 0 Hs) (frames_fit xs)) as (outs & s1 & E1 & A1).
  destruct (answers_last _ _ _ _ xs 0 0 outs ltac:(lia) HL A1) as (y & Ey & Hy).
  assert (HM : (n + 1 - N) mod P < P) by (apply Nat.mod_upper_bound; lia).
  assert (Hc : input_holds (fun _ => True) C B 0 [CForward None x] f).
  { split; [|exact I]. exists N, (fun b t => f b (n + 1 - N + t)). split; [exact HN|]. split; [exact I|exact Hx]. }
  destruct (net_one p norm ((n + 1 - N) mod P) s [CForward None x] f OK NO HN HE HM HA Hc) as (outs2 & s2 & E2 & A2).
  { repeat constructor. unfold frames_in. rewrite (proj1 Hx). exact HNP. }
  change (('(y, s) <- by_name Forward net s x ;; '(ys, s) <- calls net s [] ;; Ok (y :: ys, s)) = Ok (outs2, s2)) in E2.
  destruct (by_name Forward net s x) as [[o s3]|] eqn:E3; [|discriminate]. change (Ok ([o], s3) = Ok (outs2, s2)) in E2. injection E2 as <- <-.
  cbn [answers_at] in A2. destruct A2 as [(z & -> & Hz) _]. specialize (Hz N _ Hx).
  exists outs, s1, y, z, s3. split; [exact E1|]. split; [exact Ey|]. split; [reflexivity|]. intros b o Hb Ho.
  destruct (proj2 Hy b Hb) as [_ V1]. destruct (proj2 Hz b (N - 1) Hb ltac:(lia)) as [_ V2]. rewrite (V1 o Ho), (V2 o Ho).
  assert (EW : window_tokens N n (encoded P emb (fun t => nth t (positions steps 0 (map (CFrame None) xs)) 0) (fun b t => affine C E we be (f b t))) b
    = clip_tokens N (encoded P emb (fun t => (n + 1 - N) mod P + t) (fun b t => affine C E we be (f b (n + 1 - N + t)))) b).
  { apply window_shift; [unfold n; lia|]. intros t Ht. unfold encoded. rewrite shift_mod by (unfold n; lia).
    rewrite frames_positions, seq_nth by (unfold n; lia). reflexivity. }
  change (0 + length xs - 1) with n. unfold N, E in EW. rewrite EW. reflexivity.
Qed.
Lemma step_forward_two p1 p2 norm s s0 xs f x :
  let N := t_N (l_a p1) in let E := t_H (l_a p1) * t_D (l_a p1) in let n := length xs - 1 in
  let net := stream_net C E O P we be emb steps (encoder2 p1 p2 norm) wh bh in
  layer_ok p1 -> layer_ok p2 -> t_H (l_a p2) * t_D (l_a p2) = E -> norm_ok E norm -> 2 <= N -> (forall j, length (emb j) = E) ->
  at_index 0 s0 -> at_index ((n + 1 - N) mod P) s ->
  stream_holds C B xs f -> N <= length xs -> length xs <= 2 * (N - 1) -> N <= P -> clip_holds C B N x (fun b t => f b (n + 1 - N + t)) ->
  exists outs s1 y z s2, calls net s0 (map (CFrame None) xs) = Ok (outs, s1) /\ last outs None = Some y
    /\ by_name Forward net s x = Ok (Some z, s2) /\ forall b o, b < B -> o < O -> get y [b; o] = get z [b; o; 0].
Proof.
  intros N E n net OK1 OK2 EE NO HN HE H0 HA Hs HL HL2 HNP Hx.
  assert (HC : forall l : list (tens K), Forall (fun c => ctx_of c = None \/ ctx_of c = Some Forward) (map (CFrame None) l))
    by (induction l; constructor; auto).
  destruct (net_two p1 p2 norm 0 s0 (map (CFrame None) xs) f OK1 OK2 EE NO HN HE HP H0 (stream_input xs f Hs 0 Hs) (frames_fit xs) (HC xs)) as (outs & s1 & E1 & A1).
  destruct (answers_last _ _ _ _ xs 0 0 outs ltac:(lia) HL A1) as (y & Ey & Hy).
  assert (HM : (n + 1 - N) mod P < P) by (apply Nat.mod_upper_bound; lia).
  assert (Hc : input_holds (fun _ => True) C B 0 [CForward None x] f).
  { split; [|exact I]. exists N, (fun b t => f b (n + 1 - N + t)). split; [lia|]. split; [exact I|exact Hx]. }
  destruct (net_two p1 p2 norm ((n + 1 - N) mod P) s [CForward None x] f OK1 OK2 EE NO HN HE HM HA Hc) as (outs2 & s2 & E2 & A2).
  { repeat constructor. unfold frames_in. rewrite (proj1 Hx). exact HNP. }
  { repeat constructor. }
  change (('(y, s) <- by_name Forward net s x ;; '(ys, s) <- calls net s [] ;; Ok (y :: ys, s)) = Ok (outs2, s2)) in E2.
  destruct (by_name Forward net s x) as [[o s3]|] eqn:E3; [|discriminate]. change (Ok ([o], s3) = Ok (outs2, s2)) in E2. injection E2 as <- <-.
  cbn [answers_at] in A2. destruct A2 as [(z & -> & Hz) _]. specialize (Hz N _ Hx).
  exists outs, s1, y, z, s3. split; [exact E1|]. split; [exact Ey|]. split; [reflexivity|]. intros b o Hb Ho.
  destruct (proj2 Hy b Hb) as [_ V1]. destruct (proj2 Hz b 0 Hb ltac:(lia)) as [_ V2]. rewrite (V1 o Ho), (V2 o Ho).
  assert (EW : window_tokens N n (encoded P emb (fun t => nth t (positions steps 0 (map (CFrame None) xs)) 0) (fun b t => affine C E we be (f b t))) b
    = clip_tokens N (encoded P emb (fun t => (n + 1 - N) mod P + t) (fun b t => affine C E we be (f b (n + 1 - N + t)))) b).
  { apply window_shift; [unfold n; lia|]. intros t Ht. unfold encoded. rewrite shift_mod by (unfold n; lia).
    rewrite frames_positions, seq_nth by (unfold n; lia). reflexivity. }
  change (0 + length xs - 1) with n. unfold N, E in EW. rewrite (stale_early p1 p2) by (unfold n; lia). rewrite EW. reflexivity.
Qed.
End Q.
