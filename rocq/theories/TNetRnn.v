(** Recurrent leaves of networks of tensor modules (C65). *)
From Coq Require Import List ZArith Bool Arith Lia.
From Verif Require Import Base Attn Frames CoMod Leaf Spec LeafSpec LeafProof LeafMore NetRel RelProof NetOk Ring Tensor TensorProof
  TConv TConvSpec TConvProof TPool TPoolSpec TPoolProof TAttn TAttnProof TRnn TRnnSpec TRnnProof TNet TNetSpec TNetProof TNetLeaf.
Import ListNotations.

Section Rnn.
Context {K : Type} {SC : Scal K} {SL : ScalLaws K} (NK : Num K) {NL : NumLaws K} (sig tnh : K -> K) (n : trnn K) (W : nat -> lweights K).
Hypothesis Hd : n_bidir n = false.
Hypothesis Hp : proj_ok n.
Hypothesis Hw : has_weights n W.
Hypothesis HL : 0 < n_L n.
Hypothesis Hbf : n_bf n = true.
Notation out := (out_size n).
Notation d0 := (T [] [] : tens K).

Lemma tens_ext s (x y : tens K) : sh x = s -> sh y = s -> length (dat x) = size s -> length (dat y) = size s ->
  (forall ix, inr ix s -> get x ix = get y ix) -> x = y.
Proof.
  intros Ex Ey Lx Ly H. destruct x as [sx dx], y as [sy dy]. cbn [sh dat] in *. subst sx sy. f_equal.
  apply (at_ext (SC := num_scal NK) s); assumption.
Qed.
Lemma frame_ext B C (x y : tens K) : fr B C [] x -> fr B C [] y -> (forall b j, b < B -> j < C -> get x [b; j] = get y [b; j]) -> x = y.
Proof.
  intros [Ex Lx] [Ey Ly] H. apply (tens_ext [B; C]); auto. intros ix Hi. destruct (inr2 _ _ _ _ Hi) as (b & j & q & -> & Hb & Hj & Hq).
  inversion Hq; subst. apply H; assumption.
Qed.
Lemma state_det B o o' s : state_ok n B (Some o) -> state_ok n B (Some o') -> says n B (Some o) s -> says n B (Some o') s -> o = o'.
Proof.
  intros Ho Ho' Hs Hs'.
  assert (N1 : ndir n = 1) by (unfold ndir; rewrite Hd; reflexivity).
  assert (G : forall k b j, b < B -> k < n_L n ->
    (j < out -> fst (hidden (Some o) b k) j = fst (hidden (Some o') b k) j) /\
    (n_kind n = Lstm -> j < n_H n -> snd (hidden (Some o) b k) j = snd (hidden (Some o') b k) j)).
  { intros k b j Hb Hk. destruct (Hs b k j Hb Hk) as [A1 A2], (Hs' b k j Hb Hk) as [B1 B2]. split.
    - intros Hj. rewrite A1, B1 by exact Hj. reflexivity.
    - intros Hn Hj. rewrite A2, B2 by assumption. reflexivity. }
  clear Hs Hs'. cbn [state_ok] in Ho, Ho'. rewrite N1, Nat.mul_1_r in Ho, Ho'.
  assert (T1 : forall A (h h' : tens K), shaped [n_L n; B; A] h -> shaped [n_L n; B; A] h' ->
     (forall k b j, b < B -> k < n_L n -> j < A -> get h [k; b; j] = get h' [k; b; j]) -> h = h').
  { intros A h h' [E1 L1] [E2 L2] Hg. apply (tens_ext [n_L n; B; A]); auto. intros ix Hi.
    destruct (inr2 _ _ _ _ Hi) as (k & b & q & -> & Hk & Hb & Hq). inversion Hq as [|j x q' y Hj Hq']; subst. inversion Hq'; subst. apply Hg; assumption. }
  destruct o as [|h [|c [|]]]; try (destruct (n_kind n); contradiction);
  destruct o' as [|h' [|c' [|]]]; try (destruct (n_kind n); contradiction).
  - f_equal. destruct (n_kind n); try contradiction; (apply (T1 out); [exact Ho|exact Ho'|]; intros k b j Hb Hk Hj; exact (proj1 (G k b j Hb Hk) Hj)).
  - destruct (n_kind n) eqn:En; try contradiction. destruct Ho as [Ho1 Ho2], Ho' as [Ho1' Ho2']. f_equal; [|f_equal].
    + apply (T1 out); [exact Ho1|exact Ho1'|]. intros k b j Hb Hk Hj. exact (proj1 (G k b j Hb Hk) Hj).
    + apply (T1 (n_H n)); [exact Ho2|exact Ho2'|]. intros k b j Hb Hk Hj. exact (proj2 (G k b j Hb Hk) eq_refl Hj).
Qed.

Variable B : nat.
Variable xs : list (tens K).
Hypothesis HF : Forall (fr B (n_in n) []) xs.
Definition X (b t i : nat) : K := get (nth t xs d0) [b; i].
Notation s := (hidden (K:=K) None).
Notation M := (KRnn NK sig tnh n).

Lemma rnn_feed : forall l a o, (forall t, t < length l -> nth t l d0 = nth (a + t) xs d0) -> Forall (fr B (n_in n) []) l ->
  state_ok n B o -> says n B o (fun b k => state_at sig tnh n W k (X b) (s b) a) ->
  exists ys o', feed kstep (M o) l = Ok (map Some ys, M o') /\ length ys = length l /\ Forall (fr B out []) ys /\
    (forall t b j, t < length l -> b < B -> j < out -> get (nth t ys d0) [b; j] = out_at sig tnh n W (X b) (s b) (a + t) j) /\
    state_ok n B o' /\ says n B o' (fun b k => state_at sig tnh n W k (X b) (s b) (a + length l)) /\ (l <> [] -> o' <> None).
Proof.
  induction l as [|x l IH]; intros a o Hn Hl Ho Hs.
  - exists [], o. cbn [feed map length]. rewrite Nat.add_0_r. split; [reflexivity|]. split; [reflexivity|]. split; [constructor|].
    split; [intros; lia|]. split; [exact Ho|]. split; [exact Hs|]. intros Q. congruence.
  - inversion Hl as [|? ? Hx Hl']; subst.
    destruct (step_ok sig tnh n W Hd Hp Hw HL Hbf B x (fun b t => X b (a + t)) o (fun b k => state_at sig tnh n W k (X b) (s b) a)) as (y & hs & E & Sy & Ry & So & Sa).
    { exact Hx. }
    { intros b i Hb Hi. unfold X. pose proof (Hn 0 ltac:(cbn; lia)) as Q. cbn [nth] in Q. rewrite <- Q. reflexivity. }
    { exact Ho. }
    { exact Hs. }
    destruct (IH (S a) (Some hs)) as (ys & o' & F1 & F2 & F3 & F4 & F5 & F6 & F7).
    { intros t Ht. specialize (Hn (S t) ltac:(cbn; lia)). cbn [nth] in Hn. rewrite Hn. f_equal. lia. }
    { exact Hl'. }
    { exact So. }
    { eapply says_ext; [exact Sa|]. intros b k. cbn beta. rewrite state_app. f_equal. lia. }
    exists (y :: ys), o'. cbn [feed kstep]. unfold r_forward_step. rewrite E. cbn [bind]. rewrite F1. cbn [bind map length].
    split; [reflexivity|]. split; [lia|]. split; [constructor; [exact Sy|exact F3]|]. split; [|split; [exact F5|split]].
    + intros [|t] b j Ht Hb Hj; cbn [nth].
      * rewrite (Ry b j Hb Hj). unfold out_at. rewrite input_app. reflexivity.
      * rewrite F4 by (assumption || lia). f_equal. lia.
    + rewrite Nat.add_succ_r. exact F6.
    + intros _ ->. destruct l as [|x2 l]; [|apply (F7 ltac:(discriminate)); reflexivity]. cbn [feed] in F1. apply ok_inj in F1. congruence.
Qed.

Lemma get_clip C (l : list (tens K)) b i t : Forall (fr B C []) l -> b < B -> i < C -> t < length l ->
  get (clip B C [] l) [b; i; t] = get (nth t l d0) [b; i].
Proof.
  intros Hf Hb Hi Ht. assert (Hn : fr B C [] (nth t l d0)) by (rewrite Forall_forall in Hf; apply Hf, nth_In, Ht). destruct Hn as [En Ln].
  unfold get. rewrite En. cbn [clip sh dat].
  rewrite (at_indep (num_scal NK) SC); [|rewrite stack_len, map_length; reflexivity|repeat constructor; assumption].
  change (map Z.of_nat [b; i; t]) with (map Z.of_nat (b :: i :: t :: [])). rewrite (at_clip B C [] l b i t [] d0) by (auto; repeat constructor; assumption).
  apply at_indep; [exact Ln|repeat constructor; assumption].
Qed.

(** A call of forward_steps on a prefix of the stream. *)
Lemma rnn_clip l : l <> [] -> (forall t, t < length l -> nth t l d0 = nth t xs d0) -> Forall (fr B (n_in n) []) l ->
  exists y hs, r_forward sig tnh n (clip B (n_in n) [] l) None = Ok (y, hs) /\ shaped [B; out; length l] y /\
    (forall b j t, b < B -> j < out -> t < length l -> get y [b; j; t] = out_at sig tnh n W (X b) (s b) t j) /\
    state_ok n B (Some hs) /\ says n B (Some hs) (fun b k => state_at sig tnh n W k (X b) (s b) (length l)).
Proof.
  intros Hne Hn Hl. apply (fwd_ok sig tnh n W Hd Hp Hw HL Hbf B (length l)).
  - reflexivity.
  - intros b t i Hb Ht Hi. rewrite get_clip by assumption. rewrite Hn by exact Ht. reflexivity.
  - destruct l; [congruence|cbn; lia].
  - exact I.
  - apply says_refl.
Qed.
(** The frames of its result. *)
Lemma rnn_frames (l : list (tens K)) y (ys : list (tens K)) : length ys = length l -> Forall (fr B out []) ys -> shaped [B; out; length l] y ->
  (forall t b j, t < length l -> b < B -> j < out -> get (nth t ys d0) [b; j] = get y [b; j; t]) -> y = clip B out [] ys.
Proof.
  intros E Hy [S1 S2] H. apply (tens_ext [B; out; length l]).
  - exact S1.
  - cbn [clip sh]. rewrite E. reflexivity.
  - exact S2.
  - cbn [clip dat]. rewrite stack_len, map_length, E. reflexivity.
  - intros ix Hi. destruct (inr2 _ _ _ _ Hi) as (b & j & q & -> & Hb & Hj & Hq). inversion Hq as [|t x q' y' Ht Hq']; subst. inversion Hq'; subst.
    rewrite get_clip by (assumption || lia). symmetry. apply H; assumption.
Qed.

Lemma rnn_run : xs <> [] -> exists ys, Forall (fr B out []) ys /\ length ys = length xs /\
  kfwd (M None) (clip B (n_in n) [] xs) = Ok (clip B out [] ys) /\
  (forall k, k <= length xs -> exists m', feed kstep (M None) (firstn k xs) = Ok (map Some (firstn k ys), m') /\
     (1 <= k -> forall pe, ksteps pe (M None) (clip B (n_in n) [] (firstn k xs)) = Ok (Some (clip B out [] (firstn k ys)), m'))).
Proof.
  intros Hne.
  assert (P : forall k, k <= length xs -> forall t, t < length (firstn k xs) -> nth t (firstn k xs) d0 = nth (0 + t) xs d0).
  { intros k Hk t Ht. rewrite firstn_length in Ht. cbn [Nat.add]. clear -Ht. revert t k Ht. induction xs as [|x l IH]; intros t [|k] Ht; cbn in *; try lia.
    destruct t; [reflexivity|]. apply IH. lia. }
  destruct (rnn_feed xs 0 None (fun _ _ => eq_refl) HF I (says_refl n B None)) as (ys & o' & F1 & F2 & F3 & F4 & _).
  destruct (rnn_clip xs Hne (fun _ _ => eq_refl) HF) as (y & hs & E & Sy & Ry & _).
  exists ys. split; [exact F3|]. split; [exact F2|]. split.
  - cbn [kfwd]. rewrite E. cbn [bind]. f_equal. apply (rnn_frames xs); auto. intros t b j Ht Hb Hj. rewrite F4, Ry by assumption. reflexivity.
  - intros k Hk. destruct (rnn_feed (firstn k xs) 0 None (P k Hk) (firstn_fr _ _ _ _ _ HF) I (says_refl n B None)) as (zs & o2 & G1 & G2 & G3 & G4 & G5 & G6 & G7).
    rewrite firstn_length_le in G2, G4, G6 by exact Hk.
    assert (Ez : zs = firstn k ys).
    { apply nth_ext with (d := d0) (d' := d0); [rewrite firstn_length_le by lia; exact G2|]. rewrite G2. intros t Ht.
      assert (Hz : fr B out [] (nth t zs d0)) by (rewrite Forall_forall in G3; apply G3, nth_In; lia).
      assert (Hy : fr B out [] (nth t ys d0)) by (rewrite Forall_forall in F3; apply F3, nth_In; lia).
      assert (En : nth t (firstn k ys) d0 = nth t ys d0).
      { clear -Ht. revert t k Ht. induction ys as [|x l IH]; intros t [|k] Ht; cbn in *; try lia; [destruct t; reflexivity|].
        destruct t; [reflexivity|]. apply IH. lia. }
      rewrite En. apply (frame_ext B out); auto. intros b j Hb Hj. rewrite G4, F4 by (assumption || lia). reflexivity. }
    subst zs. exists (M o2). split; [exact G1|]. intros Hk1 pe.
    assert (Hne' : firstn k xs <> []) by (intros Q; apply (f_equal (@length _)) in Q; rewrite firstn_length_le in Q by exact Hk; cbn in Q; lia).
    destruct (rnn_clip (firstn k xs) Hne' (P k Hk) (firstn_fr _ _ _ _ _ HF)) as (y2 & hs2 & E2 & Sy2 & Ry2 & So2 & Sa2).
    rewrite firstn_length_le in Sy2, Ry2, Sa2 by exact Hk.
    cbn [ksteps]. unfold r_forward_steps. rewrite E2. cbn [bind]. f_equal. f_equal.
    + f_equal. apply (rnn_frames (firstn k xs)); rewrite ?firstn_length_le by lia; auto.
      intros t b j Ht Hb Hj. rewrite G4, Ry2 by assumption. reflexivity.
    + f_equal. destruct o2 as [h2|]; [|exfalso; apply (G7 Hne'); reflexivity]. f_equal. apply (state_det B _ _ _ So2 G5 Sa2 G6).
Qed.
End Rnn.

Section Good.
Context {K : Type} {SC : Scal K} {SL : ScalLaws K}.
Lemma rnn_good B (NK : Num K) sig tnh n C sp t : kok B (KRnn NK sig tnh n None) C sp -> 1 <= t ->
  good B (KRnn NK sig tnh n None) C sp (out_size n) [] t.
Proof.
  intros (_ & NL & -> & -> & Hd & Hbf & HL & Hp & W & Hw) Ht. constructor; cbn [kstr klen kdel]; try lia.
  intros xs Hl HF. assert (Hne : xs <> []) by (destruct xs; [cbn in Hl; lia|discriminate]).
  destruct (rnn_run NK sig tnh n W Hd Hp Hw HL Hbf B xs HF Hne) as (ys & F1 & F2 & F3 & F4). rewrite <- Hl.
  exists ys. split; [exact F1|]. split; [exact F2|]. split; [exact F3|]. split.
  - intros k Hk. destruct (F4 k Hk) as (m' & G1 & G2). exists m'. unfold sched. cbn [kstr kdel]. rewrite sched01 by lia.
    split; [exact G1|]. intros Hk1. rewrite (G2 Hk1). rewrite somes_some, (clip_of_clip B (out_size n) []).
    + reflexivity.
    + apply firstn_fr; exact F1.
    + intros E. apply (f_equal (@length _)) in E. rewrite firstn_length_le in E by lia. cbn in E. lia.
  - destruct (F4 (length xs) (le_n _)) as (m' & _ & G2). exists m'. specialize (G2 ltac:(lia) true). rewrite !firstn_all2 in G2 by lia. exact G2.
Qed.
End Good.
