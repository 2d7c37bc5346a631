(** The two-layer encoder inside of a [co.call_mode] context. *)
From Coq Require Import List ZArith Bool Arith Lia ZifyBool ZifyNat.
From Verif Require Import Base Frames CoMod Leaf LeafProof Spec Attn AttnSpec Trans TransSpec TransProof CallMode Tensor TensorProof TConvProof
  TAttn TAttnSpec TAttnProof TPoint TPointSpec TPointProof TPointThm TEnc TEncSpec TEncProof TEncThm TEncNet TEncCalls TEncRun TEncMix.
Import ListNotations.

Section P.
Context {K : Type} {NK : Num K} {NL : NumLaws K}.
Variable B : nat.
Hypothesis HB : 0 < B.
Variables p1 p2 : layer K.
Variable norm : option (list K -> list K).
Hypothesis OK1 : layer_ok p1.
Hypothesis OK2 : layer_ok p2.
Notation E := (t_H (l_a p1) * t_D (l_a p1)). Notation N := (t_N (l_a p1)).
Hypothesis EE : t_H (l_a p2) * t_D (l_a p2) = E.
Hypothesis NO : norm_ok E norm.
Hypothesis HN : 2 <= N.

(** forward_step: the second layer gets a window as its step. *)
Lemma delay_first d (x : tens K) : exists o st, delay_forward_step d Zeros ShNo obj_init x true = Ok (o, st).
Proof.
  clear NO EE OK2.
  unfold delay_forward_step. destruct (Nat.eqb_spec d 0) as [->|Hd]; [eauto|]. unfold co_forward_step, delay_fstep. replace (d =? 0) with false by lia.
  cbn [obj_get obj_init o_buf delay_init o_idx]. replace (0 <=? - Z.of_nat d)%Z with false by lia. cbn [bind].
  replace (- Z.of_nat d mod Z.of_nat d)%Z with 0%Z by (rewrite Z.mod_opp_l_z; [reflexivity|lia|apply Z.mod_same; lia]).
  unfold setz. rewrite repeat_length. replace (Z.to_nat 0 <? d) with true by lia. cbn [Z.ltb Z.compare bind]. eauto.
Qed.
Lemma step_of_clip L (y : tens K) k : clip_holds E B L y k ->
  exec (Some Step) Step (so_layer p2 (-1) true) SNone y false true = Err AssertionError.
Proof.
  clear NO EE OK2.
  intros [Sy _]. rewrite so_shaped. unfold shaped. cbn [exec]. rewrite chain_cons. cbn [exec fan so_res kids hd tl obj_of].
  destruct (delay_first (so_delay (t_N (l_a p2)) (-1)) y) as (o & st & ->). cbn [bind].
  unfold s_forward_step, b_forward_step, shapes2. rewrite Sy. reflexivity.
Qed.

Section Stream.
Variables (F : nat -> tens K) (T : nat) (f : nat -> nat -> list K).
Hypothesis HF : forall t, t < T -> frame_holds E B (F t) (fun b => f b t).
Definition fresh2 (i : nat) (s : tstate K) : Prop := enc2_J B F f p1 i s /\ tl (kids (hd SNone (kids s))) = [].
Lemma ctx_step i s : i < T -> fresh2 i s ->
  if i + 1 <? N then exists s', exec (Some Step) Step (encoder2 p1 p2 norm) s (F i) false true = Ok (None, s') /\ fresh2 (i + 1) s'
  else exec (Some Step) Step (encoder2 p1 p2 norm) s (F i) false true = Err AssertionError.
Proof.
  clear NO EE OK2.
  intros Hi [Is Ht]. unfold enc2_J in Is.
  destruct (streams_re_layer B HB (Some Step) E F T f HF p1 OK1 eq_refl HN) as (_ & A1 & _).
  destruct (A1 i _ Hi Is) as (o & s1 & E1 & I1 & V1). unfold encoder2, with_norm. destruct (i + 1 <? N).
  - subst o. exists (SList (SList [s1] :: tl (kids s))). split; [|split; [exact I1|reflexivity]].
    cbn [exec]. rewrite !chain_cons. cbn [exec]. rewrite chain_cons. rewrite E1. cbn [bind]. rewrite Ht. cbn [bind].
    destruct norm; reflexivity.
  - destruct V1 as (y & -> & Hy). assert (Hc : clip_holds E B N y (fun b j => re_row f p1 i b j)) by (apply th_clip; exact Hy).
    cbn [exec]. rewrite chain_cons. cbn [exec]. rewrite chain_cons. rewrite E1. cbn [bind]. rewrite chain_cons, Ht. cbn [exec hd].
    change (mode_of (Some Step) (so_layer p2 (-1) true)) with Step. cbn [lam_forward]. unfold must. rewrite (step_of_clip N y _ Hc). reflexivity.
Qed.
Lemma ctx_steps n : forall i s, i + n <= T -> fresh2 i s ->
  if i + n <? N then exists s', calls (encoder2 p1 p2 norm) s (map (fun t => CFrame (Some Step) (F t)) (seq i n)) = Ok (repeat None n, s')
  else n = 0 \/ calls (encoder2 p1 p2 norm) s (map (fun t => CFrame (Some Step) (F t)) (seq i n)) = Err AssertionError.
Proof.
  clear NO EE OK2.
  induction n as [|n IH]; intros i s Hi Is.
  - destruct (i + 0 <? N); [exists s; reflexivity|auto].
  - pose proof (ctx_step i s ltac:(lia) Is) as H1. cbn [seq map calls call repeat]. destruct (Nat.ltb_spec (i + 1) N) as [Hc|Hc].
    + destruct H1 as (s' & E1 & I1). rewrite E1. cbn [bind]. rewrite Nat.add_1_r in I1. specialize (IH (S i) s' ltac:(lia) I1).
      replace (S i + n) with (i + S n) in IH by lia. destruct (Nat.ltb_spec (i + S n) N).
      * destruct IH as [s2 ->]. exists s2. reflexivity.
      * destruct IH as [->|IH]; [lia|]. rewrite IH. auto.
    + rewrite H1. replace (i + S n <? N) with false by lia. auto.
Qed.
End Stream.
Lemma step_context xs f : stream_holds E B xs f ->
  if length xs <? N then exists s', calls (encoder2 p1 p2 norm) SNone (map (CFrame (Some Step)) xs) = Ok (repeat None (length xs), s')
  else calls (encoder2 p1 p2 norm) SNone (map (CFrame (Some Step)) xs) = Err AssertionError.
Proof.
  clear NO EE OK2.
  intros Hx. set (F := fun t => nth t xs no_frame).
  assert (HF : forall t, t < length xs -> frame_holds E B (F t) (fun b => f b t)).
  { intros t Ht. apply Hx. unfold F. apply nth_error_nth'. exact Ht. }
  assert (I0 : fresh2 F f 0 SNone).
  { split; [|reflexivity]. exact (proj1 (streams_re_layer B HB None E F (length xs) f HF p1 OK1 eq_refl HN)). }
  pose proof (ctx_steps F (length xs) f HF (length xs) 0 SNone (Nat.le_refl _) I0) as H. cbn [Nat.add] in H.
  replace (map (fun t => CFrame (Some Step) (F t)) (seq 0 (length xs))) with (map (CFrame (Some Step)) xs) in H.
  - destruct (Nat.ltb_spec (length xs) N); [exact H|]. destruct H as [H|H]; [lia|exact H].
  - rewrite <- (map_map F (CFrame (Some Step))). f_equal. clear. unfold F. induction xs as [|x xs IH]; [reflexivity|].
    cbn [length seq map nth]. f_equal. rewrite <- seq_shift, map_map. exact IH.
Qed.

(** forward_steps: the second layer keeps a memory of its own. *)
Section Clip.
Variables (L : nat) (x : tens K) (f : nat -> nat -> list K).
Hypothesis HL : N <= L.
Hypothesis Hx : clip_holds E B L x f.
Hypothesis H2 : t_N (l_a p2) = N.
Notation R n b := (map (re_row f p1 n b) (seq 0 N)).

Lemma first_clip : exists y s1, exec (Some Steps) Steps (re_layer p1) SNone x false true = Ok (Some y, s1)
  /\ th E B [L - (N - 1); N] y (fun b q => re_row f p1 (N - 1 + hd 0 q) b (hd 0 (tl q))).
Proof.
  assert (HF : forall t, t < L -> frame_holds E B (select 2 t x) (fun b => f b t)).
  { intros t Ht. apply th_clip in Hx. apply th_frame. apply (th_select _ _ _ _ _ _ t Ht) in Hx. exact Hx. }
  destruct (streams_re_layer B HB (Some Steps) E (fun t => select 2 t x) L f HF p1 OK1 eq_refl HN) as (A0 & _ & A2).
  destruct (A2 0 SNone L x A0) as (o & s1 & E1 & _ & V1).
  { split; [lia|]. split; [cbn; lia|]. split; [exact Hx|reflexivity]. }
  cbn [Nat.add] in V1. replace (L <? N) with false in V1 by lia. destruct V1 as (y & -> & Hy). exists y, s1. split; [exact E1|].
  unfold first in Hy. cbn [Nat.max] in Hy. exact Hy.
Qed.

(** Windows given to the second layer one after the other. *)
Section Windows.
Variables (c : nat) (w : nat -> tens K) (kw : nat -> nat -> nat -> list K).
Hypothesis Hw : forall j, j < c -> clip_holds E B N (w j) (kw j).
Definition wframe (t : nat) : tens K := select 2 (t mod N) (w (t / N)).
Definition wtoken (b t : nat) : list K := kw (t / N) b (t mod N).
Lemma wframe_at j t : t < N -> wframe (j * N + t) = select 2 t (w j) /\ forall b, wtoken b (j * N + t) = kw j b t.
Proof.
  intros Ht. unfold wframe, wtoken. rewrite (Nat.add_comm (j * N)), Nat.mod_add, Nat.div_add, Nat.mod_small, Nat.div_small by lia. auto.
Qed.
Lemma wframes_hold t : t < c * N -> frame_holds E B (wframe t) (fun b => wtoken b t).
Proof.
  intros Ht. assert (Hj : t / N < c) by (apply Nat.div_lt_upper_bound; lia). assert (Hm : t mod N < N) by (apply Nat.mod_upper_bound; lia).
  unfold wframe, wtoken. pose proof (Hw _ Hj) as C1. apply th_clip in C1. apply th_frame. apply (th_select _ _ _ _ _ _ _ Hm) in C1. exact C1.
Qed.
Notation J := (so_layer_J B wframe wtoken p2 (-1) true).
Lemma window_call j s : j < c -> J (j * N) s ->
  exists y s', exec (Some Steps) Steps (so_layer p2 (-1) true) s (w j) false true = Ok (Some y, s') /\ J (S j * N) s'
    /\ if j =? 0 then clip_holds E B 1 y (fun b _ => layer_token p2 (clip_tokens N (kw 0) b) (N - 1)) else sh y = [B; E; N].
Proof.
  intros Hj Is. assert (N0 : 0 < t_N (l_a p2)) by lia.
  assert (Q2 : (- Z.of_nat (t_N (l_a p2)) <= -1 < Z.of_nat (t_N (l_a p2)))%Z) by lia.
  pose proof (streams_so_layer B HB (Some Steps) E wframe (c * N) wtoken wframes_hold p2 OK2 (eq_sym EE) (-1) true N0 Q2 (or_introl eq_refl)) as (_ & _ & A2).
  destruct (A2 (j * N) s N (w j) Is) as (o & s' & E1 & I1 & V1).
  { split; [lia|]. split; [nia|]. split.
    - apply clip_ext with (2 := Hw j Hj). intros b t _ Ht. symmetry. apply wframe_at. exact Ht.
    - apply nth_ext with (d := no_frame) (d' := no_frame); [rewrite !map_length, !seq_length; reflexivity|]. intros t Ht. rewrite map_length, seq_length in Ht.
      rewrite (nth_indep (map wframe _) no_frame (wframe 0)), (map_nth wframe), seq_nth by (rewrite ?map_length, ?seq_length; exact Ht).
      rewrite (nth_indep _ no_frame (select 2 0 (w j))), (map_nth (fun t => select 2 t (w j))), seq_nth by (rewrite ?map_length, ?seq_length; exact Ht).
      symmetry. apply (wframe_at j t Ht). }
  rewrite H2, EE in V1. unfold first in V1. replace (j * N + N <? N) with false in V1 by lia. destruct V1 as (y & -> & V1).
  exists y, s'. split; [exact E1|]. split; [replace (S j * N) with (j * N + N) by lia; exact I1|]. destruct (Nat.eqb_spec j 0) as [->|Hj0].
  - replace (0 * N + N - Nat.max (0 * N) (N - 1)) with 1 in V1 by lia. apply th_clip. apply th_ext with (2 := V1). intros b q Hb Hq.
    inversion Hq as [|i ? q' ? Hi Hq']; subst q. cbn [hd]. replace i with 0 by lia.
    assert (Ec : chosen (-1) N = N - 1) by (unfold chosen; cbn [Z.ltb Z.compare]; lia). rewrite Ec. f_equal.
    unfold window_tokens, clip_tokens. replace (Nat.max (0 * N) (N - 1) + 0 + 1 - N) with 0 by lia. apply map_ext_in. intros t Ht. apply in_seq in Ht.
    apply (wframe_at 0 t). lia.
  - destruct V1 as [-> _]. do 3 f_equal. nia.
Qed.
Lemma windows_calls n : forall j s, j + n <= c -> J (j * N) s ->
  exists ys s', each (must (fun s x => exec (Some Steps) Steps (so_layer p2 (-1) true) s x false true)) s (map w (seq j n)) = Ok (ys, s')
    /\ length ys = n /\ forall i y, nth_error ys i = Some y ->
       if j + i =? 0 then clip_holds E B 1 y (fun b _ => layer_token p2 (clip_tokens N (kw 0) b) (N - 1)) else sh y = [B; E; N].
Proof.
  induction n as [|n IH]; intros j s Hj Is.
  - exists [], s. split; [reflexivity|]. split; [reflexivity|]. intros [|i] y Hy; discriminate.
  - destruct (window_call j s ltac:(lia) Is) as (y & s1 & E1 & I1 & V1). destruct (IH (S j) s1 ltac:(lia) I1) as (ys & s2 & E2 & Ly & V2).
    exists (y :: ys), s2. split.
    + cbn [seq map each]. unfold must at 1. rewrite E1. cbn [bind]. rewrite E2. reflexivity.
    + split; [cbn [length]; lia|]. intros [|i] z Hz.
      * injection Hz as <-. rewrite Nat.add_0_r. exact V1.
      * specialize (V2 i z Hz). replace (j + S i) with (S j + i) by lia. exact V2.
Qed.
Lemma windows_start : J 0 SNone.
Proof.
  assert (N0 : 0 < t_N (l_a p2)) by lia.
  assert (Q2 : (- Z.of_nat (t_N (l_a p2)) <= -1 < Z.of_nat (t_N (l_a p2)))%Z) by lia.
  exact (proj1 (streams_so_layer B HB (Some Steps) E wframe (c * N) wtoken wframes_hold p2 OK2 (eq_sym EE) (-1) true N0 Q2 (or_introl eq_refl))).
Qed.
End Windows.

Lemma second_over y : th E B [L - (N - 1); N] y (fun b q => re_row f p1 (N - 1 + hd 0 q) b (hd 0 (tl q))) ->
  if L =? N then exists z s, over_time (must (fun s x => exec (Some Steps) Steps (so_layer p2 (-1) true) s x false true)) SNone y = Ok (z, s)
     /\ th E B [1; 1] z (fun b _ => layer_token p2 (map (re_row f p1 (N - 1) b) (seq 0 N)) (N - 1))
  else over_time (must (fun s x => exec (Some Steps) Steps (so_layer p2 (-1) true) s x false true)) SNone y = Err RuntimeError.
Proof.
  intros Hy. set (c := L - (N - 1)) in *. unfold over_time. rewrite (th_frames _ _ _ _ _ _ Hy). cbn [bind].
  assert (Hw : forall j, j < c -> clip_holds E B N (select 2 j y) (fun b t => re_row f p1 (N - 1 + j) b t)).
  { intros j Hj. apply th_clip. pose proof (th_select _ _ _ _ _ _ j Hj Hy) as H. exact H. }
  destruct (windows_calls c (fun j => select 2 j y) (fun j b t => re_row f p1 (N - 1 + j) b t) Hw c 0 SNone (Nat.le_refl _) (windows_start c _ _ Hw)) as (ys & s & Ey & Ly & Vy).
  rewrite Ey. cbn [bind]. destruct (Nat.eqb_spec L N) as [El|El].
  - assert (c = 1) by (unfold c; lia).
    destruct ys as [|y1 [|y2 ys]]; cbn [length] in Ly; try lia. pose proof (Vy 0 y1 eq_refl) as V1. cbn [Nat.add Nat.eqb] in V1.
    destruct (th_stack E B [1] [y1] (fun b q => layer_token p2 (map (re_row f p1 (N - 1) b) (seq 0 N)) (N - 1)) 1 eq_refl ltac:(lia)) as [E2 V2].
    { intros [|t] z Hz; [|destruct t; discriminate]. injection Hz as <-. apply th_clip in V1. apply th_ext with (2 := V1). intros b q _ _. unfold clip_tokens. rewrite Nat.add_0_r. reflexivity. }
    eexists _, _. rewrite E2. split; [reflexivity|exact V2].
  - assert (Hc : 2 <= c) by (unfold c; lia).
    destruct ys as [|y1 [|y2 ys]]; cbn [length] in Ly; try lia. pose proof (Vy 0 y1 eq_refl) as [V1 _]. pose proof (Vy 1 y2 eq_refl) as V2. cbn [Nat.add Nat.eqb] in V2.
    unfold t_stack. cbn [forallb]. rewrite same_refl. replace (same_shape (sh y1) (sh y2)) with false; [reflexivity|].
    unfold same_shape. rewrite V1, V2. destruct (list_eq_dec _ _ _) as [e|]; [|reflexivity]. injection e as e. lia.
Qed.
Lemma clip_context :
  if L =? N then exists y s', exec (Some Steps) Steps (encoder2 p1 p2 norm) SNone x false true = Ok (Some y, s')
     /\ clip_holds E B 1 y (fun b _ => normed norm (two_layers p1 p2 (clip_tokens N f b) (N - 1)))
  else exec (Some Steps) Steps (encoder2 p1 p2 norm) SNone x false true = Err RuntimeError.
Proof.
  destruct first_clip as (y & s1 & E1 & Hy). pose proof (second_over y Hy) as H. pose proof (clip_not_empty B HB _ _ _ _ Hx) as Ne.
  pose proof (th_not_empty _ _ _ _ _ HB Hy) as Ny.
  assert (Em : exec (Some Steps) Steps (MLam true true (so_layer p2 (-1) true)) SNone y false true
    = ('(z, s) <- over_time (must (fun s x => exec (Some Steps) Steps (so_layer p2 (-1) true) s x false true)) SNone y ;; Ok (Some z, s))) by reflexivity.
  destruct (Nat.eqb_spec L N) as [El|El].
  - destruct H as (z & s2 & E2 & Hz). rewrite E2 in Em. cbn [bind] in Em. assert (Hz' := th_squeeze_3 B HB _ _ _ _ Hz).
    assert (E3 : length (sh z) - 1 = 3) by (destruct Hz as [-> _]; reflexivity).
    destruct (pws_tail B HB (Some Steps) Steps E norm [1] (ex_intro _ 1 (conj eq_refl Nat.lt_0_1)) NO [] _ _ false true Hz') as (w & ss & Ew & Hw).
    eexists w, _. split.
    + apply seq_of. eapply chain_some; [exact Ne|apply seq_of|exact Ew]. eapply chain_some; [exact Ne|exact E1|]. eapply chain_some; [exact Ny|exact Em|].
      eapply chain_some; [exact (th_not_empty _ _ _ _ _ HB Hz)|cbn [exec]; rewrite E3; reflexivity|reflexivity].
    + apply th_clip. apply th_ext with (2 := Hw). intros b q _ _. cbn [hd]. f_equal.
      assert (Et : clip_tokens N f b = window_tokens N (N - 1) f b) by (unfold clip_tokens, window_tokens; replace (N - 1 + 1 - N) with 0 by lia; reflexivity).
      rewrite Et. apply (stale_early p1 p2 (N - 1) f b); lia.
  - rewrite H in Em. cbn [bind] in Em. unfold encoder2, with_norm. cbn [exec]. rewrite chain_cons, Ne. cbn [exec]. rewrite chain_cons, Ne. cbn [kids hd].
    rewrite E1. cbn [bind]. rewrite chain_cons, Ny. cbn [tl hd]. rewrite Em. reflexivity.
Qed.
End Clip.
End P.
