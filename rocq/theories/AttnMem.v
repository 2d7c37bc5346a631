(** How much an attention module stores, after any history of calls. *)
From Coq Require Import List ZArith Bool Arith Lia.
From Verif Require Import Base Attn AttnSpec AttnProof AttnMemSpec.
Import ListNotations.

Section AttnMem.
Context {K : Type} {NK : Num K} {NL : NumLaws K}.

Lemma roll_in_len {A} (l l' : list A) x : roll_in l x = Ok l' -> length l' = length l.
Proof. destruct l; intros H; inversion H. rewrite app_length. cbn. lia. Qed.
Lemma map3_len {A B C D} (f : A -> B -> C -> D) : forall a b c, length (map3 f a b c) = Nat.min (length a) (Nat.min (length b) (length c)).
Proof. induction a; intros [|b0 b] [|c0 c]; cbn [map3 length]; try lia. rewrite IHa. lia. Qed.

(** A step of a head keeps its sizes. *)
Definition steady (p : sdpa K) (sz : p_state p -> list nat) : Prop :=
  forall s q k v o s', sz s = sz (p_default p) -> p_step p s q k v = Ok (o, s') -> sz s' = sz (p_default p).

Lemma so_steady c qi : steady (so_sdpa c qi) so_rows.
Proof.
  intros s q k v o s' H. cbn [so_sdpa p_step p_default] in *. unfold so_step. intros E.
  destruct (roll_in (so_K s) k) as [K'|] eqn:EK; [|discriminate]. destruct (roll_in (so_V s) v) as [V'|] eqn:EV; [|discriminate].
  cbn [bind] in E. inversion E; subst. rewrite <- H. unfold so_rows. cbn [so_Q so_K so_V].
  rewrite (roll_in_len _ _ _ EK), (roll_in_len _ _ _ EV). f_equal. destruct (so_Q s); [reflexivity|]. rewrite app_length. cbn. lia.
Qed.
Lemma re_steady c : steady (re_sdpa c) re_rows.
Proof.
  intros s q k v o s' H. cbn [re_sdpa p_step p_default] in *. unfold re_step. intros E.
  destruct (first_row (re_K s)) as [k0'|] eqn:E1; [|discriminate]. cbn [bind] in E.
  destruct (roll_in (re_Q s) (map (c_scale c) q)) as [Q'|] eqn:E2; [|discriminate]. cbn [bind] in E.
  destruct (roll_in (re_K s) k) as [K'|] eqn:E3; [|discriminate]. cbn [bind] in E.
  destruct (first_row (re_V s)) as [v0|] eqn:E4; [|discriminate]. cbn [bind] in E.
  destruct (roll_in (re_V s) v) as [V'|] eqn:E5; [|discriminate]. cbn [bind] in E.
  inversion E; subst. clear E. pose proof H as H0. unfold re_rows, re_default in H0. cbn [re_d re_AV re_Q re_K re_V] in H0.
  rewrite !repeat_length in H0. assert (D : length (re_d s) = c_N c - 1 /\ length (re_AV s) = c_N c - 1 /\ length (re_Q s) = c_N c - 1 /\ length (re_K s) = c_N c /\ length (re_V s) = c_N c) by (repeat split; congruence). destruct D as (D1 & D2 & D3 & D4 & D5).
  unfold re_rows, re_default. cbn [re_d re_AV re_Q re_K re_V]. rewrite !repeat_length.
  rewrite (roll_in_len _ _ _ E2), (roll_in_len _ _ _ E3), (roll_in_len _ _ _ E5), D3, D4, D5.
  assert (T : forall A (l : list A), length (tl l) = length l - 1) by (intros A [|]; cbn; lia).
  rewrite !T, !app_length, !map3_len, !map_length, D1, D2, D3. cbn [length]. rewrite !Nat.min_id, Nat.add_sub. reflexivity.
Qed.

Section Mod.
Context (c : cfg K) (p : sdpa K) (sz : p_state p -> list nat) (st : steady p sz).

Definition held_ok (o : option (mstate p)) : Prop :=
  match o with None => True | Some (mem, _) => map sz mem = repeat (sz (p_default p)) (c_H c) end.

Lemma heads_len : forall ss qs ks vs os ss', heads_step p ss qs ks vs = Ok (os, ss') -> length ss' = length ss.
Proof.
  induction ss as [|s ss IH]; intros [|q qs] [|k ks] [|v vs] os ss' H; cbn [heads_step] in H; try discriminate; [inversion H; reflexivity|].
  destruct (p_step p s q k v) as [[o s1]|]; [|discriminate]. cbn [bind] in H.
  destruct (heads_step p ss qs ks vs) as [[os1 ss1]|] eqn:E; [|discriminate]. cbn [bind] in H. inversion H; subst. cbn. f_equal. eapply IH, E.
Qed.
Lemma heads_sz : forall n ss qs ks vs os ss', map sz ss = repeat (sz (p_default p)) n -> heads_step p ss qs ks vs = Ok (os, ss') ->
  map sz ss' = repeat (sz (p_default p)) n.
Proof.
  induction n as [|n IH]; intros [|s ss] [|q qs] [|k ks] [|v vs] os ss' H E; cbn [heads_step] in E; try discriminate; [inversion E; reflexivity|].
  destruct (p_step p s q k v) as [[o s1]|] eqn:E1; [|discriminate]. cbn [bind] in E.
  destruct (heads_step p ss qs ks vs) as [[os1 ss1]|] eqn:E2; [|discriminate]. cbn [bind] in E. inversion E; subst. cbn [map repeat] in *.
  assert (H1 : sz s = sz (p_default p)) by congruence. assert (H2 : map sz ss = repeat (sz (p_default p)) n) by congruence.
  rewrite (st _ _ _ _ _ _ H1 E1), (IH _ _ _ _ _ _ H2 E2). reflexivity.
Qed.
Lemma mh_sz ss t o ss' : map sz ss = repeat (sz (p_default p)) (c_H c) -> mh_forward_step c p ss t = Ok (o, ss') ->
  map sz ss' = repeat (sz (p_default p)) (c_H c).
Proof.
  destruct t as [[q k] v]. unfold mh_forward_step. intros H E. destruct (c_zero_attn c); [discriminate|]. destruct (negb (c_packed c)); [discriminate|].
  destruct (c_bias c); [discriminate|]. destruct (heads_step p ss (c_q c q) (c_k c k) (c_v c v)) as [[os ss1]|] eqn:E1; [|discriminate].
  cbn [bind] in E. inversion E; subst. eapply heads_sz; eauto.
Qed.
Lemma map_repeat' {A B} (f : A -> B) x n : map f (repeat x n) = repeat (f x) n.
Proof. induction n; cbn; [reflexivity|f_equal; assumption]. Qed.
Lemma fstep_held t o h out s' h' : held_ok o -> m_fstep c p t o h = Ok (out, s', h') -> held_ok (Some s').
Proof.
  intros H E. unfold m_fstep in E. destruct o as [[mem r]|].
  - destruct (mh_forward_step c p mem t) as [[o mem']|] eqn:E1; [|discriminate]. cbn [bind] in E. inversion E; subst. cbn. eapply mh_sz; eauto.
  - destruct (cell_new h (- Z.of_nat (c_N c))) as [r h1]. cbv beta iota zeta in E.
    destruct (mh_forward_step c p (repeat (p_default p) (c_H c)) t) as [[o mem']|] eqn:E1; [|discriminate]. cbn [bind] in E. inversion E; subst. cbn.
    eapply mh_sz; [|exact E1]. apply map_repeat'.
Qed.
Lemma loop_held : forall ts o h outs o' h', held_ok o -> m_loop c p ts o h = Ok (outs, o', h') -> held_ok o'.
Proof.
  induction ts as [|t ts IH]; intros o h outs o' h' H E; cbn [m_loop] in E; [inversion E; subst; exact H|].
  destruct (m_fstep c p t o h) as [[[o1 s1] h1]|] eqn:E1; [|discriminate]. cbn [bind] in E.
  destruct (m_loop c p ts (Some s1) h1) as [[[os2 s2] h2]|] eqn:E2; [|discriminate]. cbn [bind] in E. inversion E; subst.
  eapply IH; [|exact E2]. eapply fstep_held; eauto.
Qed.
Lemma clone_held (s : mstate p) h : held_ok (Some s) -> held_ok (Some (fst (m_clone s h))).
Proof. destruct s. exact (fun x => x). Qed.
Lemma acall_held o h a : held_ok o -> held_ok (fst (acall c p o h a)).
Proof.
  intros H. destruct a as [t u|ts u|]; cbn [acall]; [| |exact I].
  - destruct (m_forward_step c p o t u h) as [[[out o'] h']|] eqn:E; [|exact H]. cbn [fst]. unfold m_forward_step in E. destruct u.
    + assert (E' : exists s, m_fstep c p t o h = Ok (out, s, h') /\ o' = Some s).
      { destruct o; (destruct (m_fstep c p t _ h) as [[[? s] ?]|]; [|discriminate]); cbn [bind] in E; inversion E; subst; eauto. }
      destruct E' as (s & E' & ->). eapply fstep_held; eauto.
    + destruct o as [s|].
      * destruct (m_clone s h) as [b h1] eqn:EC. destruct (m_fstep c p t (Some s) h1) as [[[? s1] ?]|]; [|discriminate]. cbn [bind] in E. inversion E; subst.
        replace b with (fst (m_clone s h)) by (rewrite EC; reflexivity). apply clone_held, H.
      * destruct (m_fstep c p t None h) as [[[? s1] ?]|]; discriminate.
  - destruct (m_forward_steps c p o ts u h) as [[[out o'] h']|] eqn:E; [|exact H]. cbn [fst]. unfold m_forward_steps in E.
    assert (G : forall (outs : list (list (vec K))) (o1 : option (mstate p)) h1, match outs, ts with
        | [], [] => Err UnboundLocalError | [], _ => Ok (None, o1, h1) | _, _ => Ok (Some outs, o1, h1) end = Ok (out, o', h') -> o' = o1).
    { intros [|] o1 h1; destruct ts; intros X; inversion X; reflexivity. }
    destruct u.
    + assert (E' : exists outs s h1, m_loop c p ts o h = Ok (outs, Some s, h1) /\ o' = Some s).
      { destruct o; (destruct (m_loop c p ts _ h) as [[[os2 s2] h2]|]; [|discriminate]); cbn [bind] in E; (destruct s2; [|discriminate]); cbn [bind] in E; apply G in E; subst; eauto. }
      destruct E' as (outs & s & h1 & E' & ->). eapply loop_held; eauto.
    + destruct o as [s|].
      * destruct (m_clone s h) as [b h1] eqn:EC. destruct (m_loop c p ts (Some s) h1) as [[[? s1] ?]|]; [|discriminate]. cbn [bind] in E. apply G in E. subst.
        replace b with (fst (m_clone s h)) by (rewrite EC; reflexivity). apply clone_held, H.
      * destruct (m_loop c p ts None h) as [[[? s1] ?]|]; discriminate.
Qed.
Lemma ahist_held l : forall o h, held_ok o -> held_ok (fst (ahist c p o h l)).
Proof.
  induction l as [|a l IH]; intros o h H; cbn [ahist]; [exact H|]. pose proof (acall_held o h a H). destruct (acall c p o h a). apply IH. assumption.
Qed.
End Mod.

Lemma so_memory c qi l : match fst (ahist c (so_sdpa c qi) None [] l) with
  | None => True
  | Some (heads, _) => map so_rows heads = repeat [so_delay (c_N c) qi; c_N c; c_N c] (c_H c) end.
Proof.
  pose proof (ahist_held c (so_sdpa c qi) so_rows (so_steady c qi) l None [] I) as H.
  destruct (fst (ahist c (so_sdpa c qi) None [] l)) as [[heads r]|]; [|exact I]. refine (eq_trans H _).
  cbn [so_sdpa p_default]. unfold so_rows, so_default. cbn. rewrite !repeat_length. reflexivity.
Qed.
Lemma re_memory c l : match fst (ahist c (re_sdpa c) None [] l) with
  | None => True
  | Some (heads, _) => map re_rows heads = repeat [c_N c - 1; c_N c - 1; c_N c - 1; c_N c; c_N c] (c_H c) end.
Proof.
  pose proof (ahist_held c (re_sdpa c) re_rows (re_steady c) l None [] I) as H.
  destruct (fst (ahist c (re_sdpa c) None [] l)) as [[heads r]|]; [|exact I]. refine (eq_trans H _).
  cbn [re_sdpa p_default]. unfold re_rows, re_default. cbn. rewrite !repeat_length. reflexivity.
Qed.
End AttnMem.
