(** Proofs for C83. *)
From Coq Require Import List ZArith Bool Arith Lia ZifyBool ZifyNat Ring.
From Verif Require Import Base Attn AttnSpec AttnProof AttnThm Dropout.
Import ListNotations.

(** *** Steps that do not look at the dropout probability *)
Lemma step_fstep {K} {NK : Num K} (c : cfg K) (p : sdpa K) o t h :
  m_forward_step c p o t true h = ('(out, s, h) <- m_fstep c p t o h ;; Ok (out, Some s, h)).
Proof. unfold m_forward_step. destruct o; reflexivity. Qed.

Section Blind.
Context {K : Type} {NK : Num K}.
Variable c : cfg K.
Variable p : sdpa K.
Variable st : option K -> nat -> p_state p -> list K -> list K -> list K -> res (list (list K) * p_state p * nat).
Variable training : bool.
Variable dp : option K.
Variable blind : forall pos s q k v, st (if training then dp else None) pos s q k v = ('(o, s) <- p_step p s q k v ;; Ok (o, s, pos)).
Let d := Dsdpa (p_state p) (p_default p) st.

Lemma blind_heads ss : forall qs ks vs pos,
  heads_step_d d (if training then dp else None) pos ss qs ks vs = ('(o, s) <- heads_step p ss qs ks vs ;; Ok (o, s, pos)).
Proof.
  induction ss as [|s ss IH]; intros [|q qs] [|k ks] [|v vs] pos; try reflexivity.
  cbn [heads_step_d heads_step d_step d]. rewrite blind. destruct (p_step p s q k v) as [[o s']|]; [|reflexivity]. cbn [bind].
  rewrite IH. destruct (heads_step p ss qs ks vs) as [[os ss']|]; reflexivity.
Qed.

Lemma blind_fstep t (o : option (mstate p)) h pos :
  m_fstep_d c training dp d t o h pos = ('(out, s, h) <- m_fstep c p t o h ;; Ok (out, s, h, pos)).
Proof.
  unfold m_fstep_d, m_fstep. cbn [d_state d_default d].
  assert (core : forall mem r h1,
    ('(o, mem, pos) <- mh_forward_step_d c training dp d pos mem t ;;
     let h := if Z.ltb (cell_get h1 r) 0 then set_nth h1 r (cell_get h1 r + 1)%Z else h1 in
     Ok (if Z.ltb (cell_get h r) 0 then None else Some o, (mem, r), h, pos))
    = ('(out, s, h) <- ('(o, mem) <- mh_forward_step c p mem t ;;
        let h := if Z.ltb (cell_get h1 r) 0 then set_nth h1 r (cell_get h1 r + 1)%Z else h1 in
        Ok (if Z.ltb (cell_get h r) 0 then None else Some o, (mem, r), h)) ;; Ok (out, s, h, pos))).
  { intros mem r h1. unfold mh_forward_step_d, mh_forward_step. destruct t as [[q k] v].
  destruct (c_zero_attn c); [reflexivity|]. destruct (negb (c_packed c)); [reflexivity|].
  destruct (match c_bias c with Some _ => true | None => false end); [reflexivity|].
  rewrite blind_heads. destruct (heads_step p mem (c_q c q) (c_k c k) (c_v c v)) as [[os ss]|]; reflexivity. }
  destruct o as [[mem r]|]; [|cbn [cell_new]]; apply core.
Qed.

Lemma blind_run ts : forall o h pos,
  m_run_d c training dp d o ts h pos = ('(outs, o, h) <- m_run c p o ts h ;; Ok (outs, o, h, pos)).
Proof.
  induction ts as [|t ts IH]; intros o h pos; [reflexivity|].
  cbn [m_run_d m_run]. rewrite blind_fstep. rewrite step_fstep.
  destruct (m_fstep c p t o h) as [[[out s] h1]|]; [|reflexivity]. cbn [bind].
  transitivity ('(outs, o, h, pos) <- ('(outs, o, h) <- m_run c p (Some s) ts h1 ;; Ok (outs, o, h, pos)) ;; Ok (out :: outs, o, h, pos)).
  - rewrite IH. reflexivity.
  - destruct (m_run c p (Some s) ts h1) as [[[outs o'] h']|]; reflexivity.
Qed.
End Blind.

Section Kinds.
Context {K : Type} {NK : Num K}.

Lemma re_dropout_run (c : cfg K) training dp o ts h pos :
  m_run_d c training dp (re_dsdpa c) o ts h pos
  = ('(outs, o, h) <- m_run c (re_sdpa c) o ts h ;; Ok (outs, o, h, pos)).
Proof. apply (blind_run c (re_sdpa c) (re_step_d (c_E c) (c_scale c))). reflexivity. Qed.

Lemma so_step_none coin E scale pos s q k v :
  so_step_d coin E scale (@None K) pos s q k v = ('(o, s) <- so_step E scale s q k v ;; Ok (o, s, pos)).
Proof.
  unfold so_step_d, so_step. destruct (roll_in (so_K s) k); [|reflexivity]. cbn [bind]. destruct (roll_in (so_V s) v); [|reflexivity].
  cbn [bind drop drawn]. rewrite Nat.add_0_r. reflexivity.
Qed.
Lemma so_eval_run coin (c : cfg K) training dp qi o ts h pos : training = false \/ dp = None ->
  m_run_d c training dp (so_dsdpa coin c qi) o ts h pos
  = ('(outs, o, h) <- m_run c (so_sdpa c qi) o ts h ;; Ok (outs, o, h, pos)).
Proof.
  intros Hd. apply (blind_run c (so_sdpa c qi) (so_step_d coin (c_E c) (c_scale c))). intros.
  replace (if training then dp else None) with (@None K) by (destruct Hd as [->| ->]; [|destruct training]; reflexivity).
  apply so_step_none.
Qed.
Lemma map_combine_seq {A B} (f : A -> B) l : forall n, map (fun '(_, x) => f x) (combine (seq n (length l)) l) = map f l.
Proof. induction l as [|a l IH]; intros n; [reflexivity|]. cbn [length seq combine map]. f_equal. apply IH. Qed.
Lemma forward_eval coin (c : cfg K) training dp pos qs ks vs : training = false \/ dp = None ->
  mha_forward_d coin c training dp pos qs ks vs = mha_forward c qs ks vs.
Proof.
  intros Hd. unfold mha_forward_d.
  replace (if training then dp else None) with (@None K) by (destruct Hd as [->| ->]; [|destruct training]; reflexivity).
  unfold mha_forward. cbn [drop]. apply map_combine_seq.
Qed.

(** *** A single-output step never writes a draw to its memory *)
Lemma so_heads_mem coin (c : cfg K) qi dp ss : forall qs ks vs pos,
  match heads_step (so_sdpa c qi) ss qs ks vs with
  | Ok (_, ss') => exists os pos', heads_step_d (so_dsdpa coin c qi) dp pos ss qs ks vs = Ok (os, ss', pos')
  | Err e => heads_step_d (so_dsdpa coin c qi) dp pos ss qs ks vs = Err e
  end.
Proof.
  induction ss as [|s ss IH]; intros [|q qs] [|k ks] [|v vs] pos; cbn [heads_step heads_step_d]; try reflexivity.
  - eexists _, _. reflexivity.
  - cbn [p_step so_sdpa d_step so_dsdpa]. unfold so_step, so_step_d.
    destruct (roll_in (so_K s) k); [|reflexivity]. cbn [bind]. destruct (roll_in (so_V s) v); [|reflexivity]. cbn [bind].
    match goal with |- context [heads_step_d _ _ ?p1 ss qs ks vs] => specialize (IH qs ks vs p1) end.
    destruct (heads_step (so_sdpa c qi) ss qs ks vs) as [[os ss']|].
    + destruct IH as (os' & pos' & ->). eexists _, _. reflexivity.
    + rewrite IH. reflexivity.
Qed.
Lemma so_fstep_mem coin (c : cfg K) qi training dp t o h pos :
  match m_fstep c (so_sdpa c qi) t o h with
  | Ok (out, s, h') => exists out' pos', m_fstep_d c training dp (so_dsdpa coin c qi) t o h pos = Ok (out', s, h', pos') /\ (out' = None <-> out = None)
  | Err e => m_fstep_d c training dp (so_dsdpa coin c qi) t o h pos = Err e
  end.
Proof.
  unfold m_fstep_d, m_fstep. cbn [d_state d_default so_dsdpa p_state p_default so_sdpa].
  assert (core : forall (mem : list so_state) r h1,
    match ('(o, mem) <- mh_forward_step c (so_sdpa c qi) mem t ;;
        let h := if Z.ltb (cell_get h1 r) 0 then set_nth h1 r (cell_get h1 r + 1)%Z else h1 in
        Ok (if Z.ltb (cell_get h r) 0 then None else Some o, (mem, r), h)) with
    | Ok (out, s, h') => exists out' pos', ('(o, mem, pos) <- mh_forward_step_d c training dp (so_dsdpa coin c qi) pos mem t ;;
        let h := if Z.ltb (cell_get h1 r) 0 then set_nth h1 r (cell_get h1 r + 1)%Z else h1 in
        Ok (if Z.ltb (cell_get h r) 0 then None else Some o, (mem, r), h, pos)) = Ok (out', s, h', pos') /\ (out' = None <-> out = None)
    | Err e => ('(o, mem, pos) <- mh_forward_step_d c training dp (so_dsdpa coin c qi) pos mem t ;;
        let h := if Z.ltb (cell_get h1 r) 0 then set_nth h1 r (cell_get h1 r + 1)%Z else h1 in
        Ok (if Z.ltb (cell_get h r) 0 then None else Some o, (mem, r), h, pos)) = Err e
    end).
  { intros mem r h1. unfold mh_forward_step_d, mh_forward_step. destruct t as [[q k] v].
  destruct (c_zero_attn c); [reflexivity|]. destruct (negb (c_packed c)); [reflexivity|].
  destruct (match c_bias c with Some _ => true | None => false end); [reflexivity|].
  pose proof (so_heads_mem coin c qi (if training then dp else None) mem (c_q c q) (c_k c k) (c_v c v) pos) as M.
  destruct (heads_step (so_sdpa c qi) mem (c_q c q) (c_k c k) (c_v c v)) as [[os ss]|].
  - destruct M as (os' & pos' & M). cbn [bind]. unfold so_dsdpa in M |- *. cbn [d_state d_step] in M |- *. rewrite M. cbn [bind].
    eexists _, _. split; [reflexivity|].
    match goal with |- context [if ?b then None else Some _] => destruct b end; split; intros E; try reflexivity; discriminate E.
  - unfold so_dsdpa in M |- *. rewrite M. reflexivity. }
  destruct o as [[mem r]|]; [|cbn [cell_new]]; apply core.
Qed.
Lemma so_run_mem coin (c : cfg K) qi training dp ts : forall o h pos,
  match m_run c (so_sdpa c qi) o ts h with
  | Ok (outs, o', h') => exists outs' pos', m_run_d c training dp (so_dsdpa coin c qi) o ts h pos = Ok (outs', o', h', pos')
      /\ Forall2 (fun a b => a = None <-> b = None) outs' outs
  | Err e => m_run_d c training dp (so_dsdpa coin c qi) o ts h pos = Err e
  end.
Proof.
  induction ts as [|t ts IH]; intros o h pos; [exists [], pos; split; [reflexivity|constructor]|].
  cbn [m_run_d m_run]. rewrite step_fstep.
  pose proof (so_fstep_mem coin c qi training dp t o h pos) as M.
  destruct (m_fstep c (so_sdpa c qi) t o h) as [[[out s] h1]|].
  - destruct M as (out' & pos' & -> & N). cbn [bind]. specialize (IH (Some s) h1 pos').
    destruct (m_run c (so_sdpa c qi) (Some s) ts h1) as [[[outs o'] h']|].
    + destruct IH as (outs' & p2 & I & F). change (@Some (list (d_state (so_dsdpa coin c qi)) * nat) s) with (@Some (mstate (so_sdpa c qi)) s). rewrite I. cbn [bind]. eexists _, _. split; [reflexivity|]. constructor; assumption.
    + change (@Some (list (d_state (so_dsdpa coin c qi)) * nat) s) with (@Some (mstate (so_sdpa c qi)) s). rewrite IH. reflexivity.
  - rewrite M. reflexivity.
Qed.
End Kinds.

(** *** What a single-output step returns: the weights and values of each head *)
Section Weights.
Context {K : Type} {NK : Num K}.
Variable coin : nat -> bool.

(** The step with its weights and values as the output. *)
Definition rec_step (E : nat) (scale : K -> K) (s : so_state) (q k v : list K) : res (list (list K) * so_state) :=
  let q := map scale q in
  let q_sel := match so_Q s with q0 :: _ => q0 | [] => q end in
  K_new <- roll_in (so_K s) k ;;
  V_new <- roll_in (so_V s) v ;;
  Ok (softmax (map (dot E q_sel) K_new) :: V_new, SoS (match so_Q s with [] => [] | _ :: t => t ++ [q] end) K_new V_new).
Definition rec_sdpa (c : cfg K) (qi : Z) : sdpa K :=
  Sdpa so_state (so_default (c_N c) (c_E c) qi) (rec_step (c_E c) (c_scale c)).

Definition rec_out (N Nq E : nat) (scale : K -> K) (l : list (tok K)) (o : list (list K)) :=
  length (hd [] o) = N /\
  (N <= length l ->
   o = softmax (map (dot E (nth (length l - 1 - Nq) (map (map scale) (qs_of l)) [])) (lastn N (ks_of l))) :: lastn N (vs_of l)).

Lemma rec_step_ok N Nq E scale s l q k v : 0 < N -> Nq < N ->
  so_inv N Nq E scale s l ->
  exists o s', rec_step E scale s q k v = Ok (o, s')
    /\ so_inv N Nq E scale s' (l ++ [(q, k, v)])
    /\ rec_out N Nq E scale (l ++ [(q, k, v)]) o.
Proof.
  intros HN HNq Hi. pose proof (so_step_ok N Nq E scale s l q k v HN HNq Hi) as (o & s' & E1 & E2 & _).
  rewrite Hi in *. unfold so_step, rec_step in *. cbn [so_Q so_K so_V] in *.
  rewrite !roll_lastn in * by (rewrite ?app_length, ?repeat_length; lia).
  cbn [bind] in *. injection E1 as _ <-. eexists _, _. split; [reflexivity|]. split; [exact E2|]. clear E2.
  unfold rec_out.
  change (@cons (prod (prod (list K) (list K)) (list K)) (q, k, v) nil) with (@cons (tok K) (q, k, v) nil).
  rewrite (qs_snoc l (q, k, v)), (ks_snoc l (q, k, v)), (vs_snoc l (q, k, v)). split.
  { cbn [hd]. unfold softmax. rewrite !map_length, lastn_length; rewrite ?app_length, ?repeat_length; lia. }
  cbn [fst snd]. rewrite map_app; cbn [map]. 
  rewrite app_length; cbn [length]. intros Hl.
  assert (Lk : length (ks_of l) = length l) by apply map_length.
  assert (Lv : length (vs_of l) = length l) by apply map_length.
  assert (Lq : length (map (map scale) (qs_of l)) = length l)
    by (rewrite map_length; apply map_length).
  rewrite <- !app_assoc.
  rewrite (lastn_app N _ (ks_of l ++ [k])) by (rewrite app_length; cbn [length]; lia).
  rewrite (lastn_app N _ (vs_of l ++ [v])) by (rewrite app_length; cbn [length]; lia).
  do 4 f_equal. destruct (Nat.eq_dec Nq 0) as [->|Hq].
  + unfold lastn at 1. rewrite skipn_all2 by lia.
    rewrite app_nth2 by lia. replace (_ - _) with 0 by lia. reflexivity.
  + destruct (lastn_snoc Nq (repeat (zero E) Nq ++ map (map scale) (qs_of l))
                (map scale q) [] ltac:(lia)) as [E1 _].
    { rewrite app_length, repeat_length. lia. }
    rewrite E1. rewrite app_length, repeat_length, Lq.
    rewrite app_nth2 by (rewrite repeat_length; lia).
    rewrite repeat_length. rewrite app_nth1 by lia. f_equal. lia.
Qed.

Definition dropped (E : nat) (dp : option K) (N pos i : nat) (o : list (list K)) : list (list K) :=
  [wsum E (drop coin dp (pos + i * drawn dp N) (hd [] o)) (tl o)].
Fixpoint dropall (E : nat) (dp : option K) (N pos i : nat) (os : list (list (list K))) : list (list (list K)) :=
  match os with [] => [] | o :: os => dropped E dp N pos i o :: dropall E dp N pos (S i) os end.

Lemma heads_rec (c : cfg K) qi dp N ss : forall qs ks vs pos i os ss',
  heads_step (rec_sdpa c qi) ss qs ks vs = Ok (os, ss') -> Forall (fun o => length (hd [] o) = N) os ->
  heads_step_d (so_dsdpa coin c qi) dp (pos + i * drawn dp N) ss qs ks vs
  = Ok (dropall (c_E c) dp N pos i os, ss', pos + (i + length ss) * drawn dp N).
Proof.
  induction ss as [|s ss IH]; intros [|q qs] [|k ks] [|v vs] pos i os ss' Hs F; cbn [heads_step heads_step_d] in *; try discriminate Hs.
  - injection Hs as <- <-. cbn [dropall length]. do 3 f_equal. lia.
  - cbn [p_step rec_sdpa d_step so_dsdpa] in *. unfold rec_step, so_step_d in *.
    destruct (roll_in (so_K s) k) as [kn|]; [|discriminate Hs]. cbn [bind] in *. destruct (roll_in (so_V s) v) as [vn|]; [|discriminate Hs]. cbn [bind] in *.
    match type of Hs with (bind ?t _ = _) => destruct t as [[os1 ss1]|] eqn:E1 end; [|discriminate Hs].
    cbn [bind] in Hs. injection Hs as <- <-. inversion F as [|x xs Fx Fxs]; subst x xs. cbn [hd] in Fx.
    rewrite Fx. specialize (IH qs ks vs pos (S i) os1 ss1 E1 Fxs).
    replace (pos + i * drawn dp N + drawn dp N) with (pos + S i * drawn dp N) by lia.
    unfold so_dsdpa in IH |- *. rewrite IH. cbn [bind dropall length].
    replace (i + S (length ss)) with (S i + length ss) by lia. reflexivity.
Qed.

(** One step of the module. *)
Variable c : cfg K.
Variable Hc : supported c.
Variable qi : Z.
Variable HN : 0 < c_N c.
Variable Hqi : (- Z.of_nat (c_N c) <= qi < Z.of_nat (c_N c))%Z.
Variable training : bool.
Variable dp0 : option K.
Let N := c_N c.
Let Nq := so_delay N qi.
Let dp := if training then dp0 else None.
Let Inv := so_inv N Nq (c_E c) (c_scale c).
Let Out := rec_out N Nq (c_E c) (c_scale c).

Lemma HNq : Nq < N.
Proof. apply so_delay_lt; auto. Qed.

Definition d_inv (o : option (list so_state * nat)) (l : list (tok K)) (h : cells) : Prop :=
  m_inv c (rec_sdpa c qi) Inv o l h.

Lemma d_fstep o l h t pos : d_inv o l h ->
  exists out s h' os, m_fstep_d c training dp0 (so_dsdpa coin c qi) t o h pos = Ok (out, s, h', pos + c_H c * drawn dp N)
    /\ d_inv (Some s) (l ++ [t]) h'
    /\ Forall2 Out (hist c (c_H c) (l ++ [t])) os
    /\ out = (if length l + 1 <? N then None else Some (join_heads c (dropall (c_E c) dp N pos 0 os))).
Proof.
  intros Hi. pose proof Hc as (HH & Hb & Hp & Hz & Lq & Lk & Lv).
  unfold m_fstep_d. cbn [d_state d_default so_dsdpa].
  assert (core : forall (mem : list so_state) r h1, Forall2 Inv mem (hist c (c_H c) l) -> r < length h1 ->
    cell_get h1 r = Z.min 0 (Z.of_nat (length l) - Z.of_nat N) ->
    exists out s h' os,
      ('(o, mem, pos) <- mh_forward_step_d c training dp0 (so_dsdpa coin c qi) pos mem t ;;
       let h := if Z.ltb (cell_get h1 r) 0 then set_nth h1 r (cell_get h1 r + 1)%Z else h1 in
       Ok (if Z.ltb (cell_get h r) 0 then None else Some o, (mem, r), h, pos)) = Ok (out, s, h', pos + c_H c * drawn dp N)
    /\ d_inv (Some s) (l ++ [t]) h'
    /\ Forall2 Out (hist c (c_H c) (l ++ [t])) os
    /\ out = (if length l + 1 <? N then None else Some (join_heads c (dropall (c_E c) dp N pos 0 os)))).
  { intros mem r h1 Hm Hr Hg.
    destruct t as [[q k] v]. unfold mh_forward_step_d. rewrite Hz, Hp, Hb. cbn [negb].
    pose proof (F2_len _ _ _ Hm) as Lm. unfold hist in Lm.
    rewrite map_length, seq_length in Lm.
    destruct (heads_ok (rec_sdpa c qi) Inv Out (fun s l q k v => rec_step_ok N Nq (c_E c) (c_scale c) s l q k v HN HNq)
      _ _ Hm (c_q c q) (c_k c k) (c_v c v))
      as (os & ss & E1 & E2 & E3);
      [rewrite Lq; symmetry; exact Lm|rewrite Lk; symmetry; exact Lm|rewrite Lv; symmetry; exact Lm|].
    pose proof (hist_snoc c (c_H c) l (q, k, v) (Lq _) (Lk _) (Lv _)) as Hs.
    cbn [fst snd] in Hs. rewrite Hs in E2, E3.
    assert (F : Forall (fun o => length (hd [] o) = N) os).
    { clear -E3. induction E3 as [|x y xs ys Ho _ IH]; constructor; [apply Ho|exact IH]. }
    assert (HR : heads_step_d (so_dsdpa coin c qi) (if training then dp0 else None) pos mem (c_q c q) (c_k c k) (c_v c v)
      = Ok (dropall (c_E c) dp N pos 0 os, ss, pos + c_H c * drawn dp N)).
    { rewrite <- Lm. pose proof (heads_rec c qi dp N mem (c_q c q) (c_k c k) (c_v c v) pos 0 os ss E1 F) as HR.
      replace (pos + 0 * drawn dp N) with pos in HR by lia. exact HR. }
    rewrite HR. cbn [bind].
    eexists _, _, _, os. split; [reflexivity|].
    split; [|split; [exact E3|]].
    - unfold d_inv. cbn [m_inv]. split; [exact E2|]. rewrite app_length. cbn [length]. fold N.
      destruct (cell_get h1 r <? 0)%Z eqn:Hlt.
      + rewrite set_nth_len. split; [exact Hr|]. rewrite cell_get_set by auto. lia.
      + split; [exact Hr|]. lia.
    - destruct (cell_get h1 r <? 0)%Z eqn:Hlt.
      + rewrite cell_get_set by auto.
        destruct (Z.ltb_spec (cell_get h1 r + 1) 0), (Nat.ltb_spec (length l + 1) N);
          try reflexivity; lia.
      + rewrite Hlt. destruct (Nat.ltb_spec (length l + 1) N); try reflexivity; lia. }
  destruct o as [[mem r]|].
  - destruct Hi as (A & B & C). apply core; auto.
  - red in Hi. cbn [m_inv] in Hi. subst l. cbn [cell_new]. apply core.
    + apply (Forall2_init c (rec_sdpa c qi) Inv). apply so_inv_init.
    + rewrite app_length; cbn; lia.
    + unfold cell_get. rewrite app_nth2, Nat.sub_diag by lia. cbn. fold N. lia.
Qed.

Lemma d_run ts : forall o l h pos, d_inv o l h ->
  exists outs o' h', m_run_d c training dp0 (so_dsdpa coin c qi) o ts h pos = Ok (outs, o', h', pos + length ts * (c_H c * drawn dp N))
    /\ length outs = length ts
    /\ (forall n d, n < length ts -> exists os, Forall2 Out (hist c (c_H c) (l ++ firstn (n + 1) ts)) os
        /\ nth n outs d = (if length l + n + 1 <? N then None else Some (join_heads c (dropall (c_E c) dp N (pos + n * (c_H c * drawn dp N)) 0 os)))).
Proof.
  induction ts as [|t ts IH]; intros o l h pos Hi.
  - exists [], o, h. cbn [m_run_d length Nat.mul]. rewrite Nat.add_0_r. repeat split; auto. intros; cbn in *; lia.
  - destruct (d_fstep o l h t pos Hi) as (out & s & h1 & os & E1 & E2 & E3 & E4).
    destruct (IH (Some s) _ _ (pos + c_H c * drawn dp N) E2) as (outs & o' & h' & F1 & F2 & F3).
    exists (out :: outs), o', h'. cbn [m_run_d]. rewrite E1. cbn [bind].
    cbn [d_state so_dsdpa] in F1 |- *. rewrite F1. cbn [bind].
    split; [cbn [length]; replace (pos + S (length ts) * (c_H c * drawn dp N)) with (pos + c_H c * drawn dp N + length ts * (c_H c * drawn dp N)) by nia; reflexivity|]. split; [cbn; lia|].
    intros [|n] d Hn.
    + cbn [nth firstn Nat.add Nat.mul]. exists os. rewrite !Nat.add_0_r. split; [exact E3|exact E4].
    + cbn [nth Nat.add firstn]. cbn [length] in Hn. destruct (F3 n d ltac:(lia)) as (os' & G1 & G2).
      rewrite <- app_assoc in G1. exists os'. split; [exact G1|]. rewrite G2, app_length. cbn [length].
      replace (length l + 1 + n + 1) with (length l + S n + 1) by lia.
      replace (pos + c_H c * drawn dp N + n * (c_H c * drawn dp N)) with (pos + S n * (c_H c * drawn dp N)) by nia. reflexivity.
Qed.

(** The attention of one query with draws from [pos] on. *)
Lemma forward_d_one pos q ks vs : length ks = N ->
  mha_forward_d coin c training dp0 pos [q] ks vs
  = [c_o c (map (fun h =>
      wsum (c_E c) (drop coin dp (pos + h * N) (softmax (map (dot (c_E c) (map (c_scale c) (nth h (c_q c q) [])))
                               (map (fun k => nth h (c_k c k) []) ks))))
         (map (fun v => nth h (c_v c v) []) vs))
    (seq 0 (c_H c)))].
Proof.
  intros L. pose proof Hc as (_ & Hb & _ & Hz & _). unfold mha_forward_d. cbn [length seq combine map]. f_equal. f_equal. apply map_ext. intros h.
  rewrite Hb, Hz, !app_nil_r, map_length, L. fold dp. replace (h * 1 + 0) with h by lia. reflexivity.
Qed.

Lemma dropall_map E N' pos (f : nat -> list (list K)) n : forall i,
  dropall E dp N' pos i (map f (seq i n)) = map (fun h => dropped E dp N' pos h (f h)) (seq i n).
Proof. induction n as [|n IH]; intros i; [reflexivity|]. cbn [seq map dropall]. f_equal. apply IH. Qed.

Lemma so_dropout ts h pos :
  exists outs o' h', m_run_d c training dp0 (so_dsdpa coin c qi) None ts h pos
      = Ok (outs, o', h', pos + length ts * (c_H c * drawn dp N))
    /\ length outs = length ts
    /\ (forall n d, n < length ts ->
        if n + 1 <? N then nth n outs d = None
        else exists r, nth n outs d = Some r
          /\ so_forward_d coin c training dp0 true qi (pos + n * (c_H c * drawn dp N))
               (window N n (qs_of ts)) (window N n (ks_of ts)) (window N n (vs_of ts)) = Ok r).
Proof.
  destruct (d_run ts None [] h pos eq_refl) as (outs & o' & h' & E1 & E2 & E4).
  exists outs, o', h'. split; [exact E1|]. split; [exact E2|].
  intros n d Hn. destruct (E4 n d Hn) as (os & F1 & F2). cbn [app length Nat.add] in F1, F2.
  destruct (n + 1 <? N) eqn:Hlt; [exact F2|].
  assert (HN1 : N <= n + 1) by lia.
  assert (Lq : length (qs_of ts) = length ts) by apply map_length.
  assert (Lk : length (ks_of ts) = length ts) by apply map_length.
  assert (Lv : length (vs_of ts) = length ts) by apply map_length.
  unfold so_forward_d.
  rewrite (py_index_window N qi n (qs_of ts) [] HN Hqi ltac:(lia) HN1). fold Nq. cbn [bind].
  eexists. rewrite F2. split; [reflexivity|]. f_equal.
  rewrite forward_d_one by (unfold window; rewrite firstn_length_le; rewrite ?skipn_length; lia).
  rewrite (Forall2_hist_map c (c_H c) (firstn (n + 1) ts) Out
    (fun h => softmax (map (dot (c_E c)
           (map (c_scale c) (nth h (c_q c (nth (n - Nq) (qs_of ts) [])) [])))
           (map (fun k => nth h (c_k c k) []) (window N n (ks_of ts))))
           :: (map (fun v => nth h (c_v c v) []) (window N n (vs_of ts)))) os); [| |exact F1].
  - rewrite dropall_map. unfold dropped. cbn [hd tl]. rewrite join_one by apply Hc. f_equal. f_equal. apply map_ext. intros h0.
    f_equal. destruct dp; reflexivity.
  - intros hd o Ho. destruct Ho as [_ Ho]. rewrite map_length, firstn_length_le in Ho by lia.
    rewrite (Ho HN1). rewrite qs_htok, ks_htok, vs_htok, !lastn_map.
    rewrite <- (lastn_window N n (ks_of ts)), <- (lastn_window N n (vs_of ts)) by lia.
    unfold ks_of, vs_of. rewrite !firstn_map. do 4 f_equal.
    rewrite (nth_map_in _ _ _ []).
    2:{ unfold qs_of. rewrite !map_length, firstn_length_le; lia. }
    f_equal. rewrite (nth_map_in _ _ _ []).
    2:{ unfold qs_of. rewrite !map_length, firstn_length_le; lia. }
    f_equal. f_equal. unfold qs_of. rewrite <- firstn_map.
    change (map (fun t => fst (fst t)) ts) with (qs_of ts).
    set (w := qs_of ts) in *. clearbody w.
    transitivity (nth (n - Nq) (firstn (n + 1) w ++ skipn (n + 1) w) []).
    + rewrite app_nth1; [f_equal; lia|].
      rewrite firstn_length_le; lia.
    + rewrite firstn_skipn. reflexivity.
Qed.
End Weights.

(** *** The mean over all draws *)
From Verif Require Import GradAttn.
Section MeanProof.
Context {K : Type} {NK : Num K} {NL : NumLaws K}.
Add Ring kring_mean : num_ring.
Variable p : K.
Variable Hp : kmul (ksub k1 p) (kdiv k1 (ksub k1 p)) = k1.

Lemma mean_ext n : forall f g, (forall m, length m = n -> f m = g m) -> mean p n f = mean p n g.
Proof.
  induction n as [|n IH]; intros f g Hf; cbn [mean]; [apply Hf; reflexivity|].
  rewrite (IH _ (fun m => g (false :: m))), (IH (fun m => f (true :: m)) (fun m => g (true :: m))); [reflexivity| |];
    intros m Hm; apply Hf; cbn [length]; lia.
Qed.
Lemma mean_const n a : mean p n (fun _ => a) = a.
Proof. induction n as [|n IH]; cbn [mean]; [reflexivity|]. rewrite IH. ring. Qed.
Lemma mean_add n : forall f g, mean p n (fun m => kadd (f m) (g m)) = kadd (mean p n f) (mean p n g).
Proof.
  induction n as [|n IH]; intros f g; cbn [mean]; [reflexivity|].
  rewrite (IH (fun m => f (false :: m))), (IH (fun m => f (true :: m))). ring.
Qed.
Lemma mean_scale n : forall f a, mean p n (fun m => kmul (f m) a) = kmul (mean p n f) a.
Proof.
  induction n as [|n IH]; intros f a; cbn [mean]; [reflexivity|].
  rewrite (IH (fun m => f (false :: m))), (IH (fun m => f (true :: m))). ring.
Qed.
Lemma mean_coin n : forall i, i < n -> mean p n (fun m => factor p (nth i m false)) = k1.
Proof.
  induction n as [|n IH]; intros i Hi; [lia|]. cbn [mean]. destruct i as [|i]; cbn [nth].
  - rewrite !mean_const. unfold factor. rewrite Hp. ring.
  - rewrite IH by lia. ring.
Qed.

Lemma mean_wsum n pos e x : forall s vs, pos <= s -> s + length x <= pos + n ->
  mean p n (fun m => ksum (map2 (fun w v => kmul w (at_ v e))
      (map2 (fun a b => kmul a (factor p b)) x (map (draws pos m) (seq s (length x)))) vs))
  = ksum (map2 (fun w v => kmul w (at_ v e)) x vs).
Proof.
  induction x as [|a x IH]; intros s vs H1 H2; cbn [length seq map map2]; [apply mean_const|].
  destruct vs as [|v vs]; cbn [ksum fold_right]; [apply mean_const|].
  rewrite mean_add. f_equal.
  - rewrite mean_scale. f_equal.
    rewrite (mean_ext n _ (fun m => kmul (factor p (nth (s - pos) m false)) a)) by (intros; unfold draws; ring).
    rewrite mean_scale, mean_coin by (cbn [length] in H2; lia). ring.
  - apply IH; cbn [length] in H2; lia.
Qed.

(** Entries of [Y] are the means of the entries of [X]. *)
Definition mrel (n : nat) (X : list bool -> list K) (Y : list K) : Prop :=
  (forall m, length (X m) = length Y) /\ (forall j, mean p n (fun m => nth j (X m) k0) = nth j Y k0).
Lemma mrel_app n X1 Y1 X2 Y2 : mrel n X1 Y1 -> mrel n X2 Y2 -> mrel n (fun m => X1 m ++ X2 m) (Y1 ++ Y2).
Proof.
  intros [A1 B1] [A2 B2]. split; [intros m; rewrite !app_length, A1, A2; reflexivity|]. intros j.
  destruct (Nat.lt_ge_cases j (length Y1)) as [H|H].
  - rewrite app_nth1 by exact H. rewrite <- B1. apply mean_ext. intros m _. rewrite app_nth1; [reflexivity|rewrite A1; exact H].
  - rewrite app_nth2 by exact H. rewrite <- B2. apply mean_ext. intros m _. rewrite app_nth2, A1; [reflexivity|rewrite A1; exact H].
Qed.
Lemma mrel_concat n (F : list bool -> nat -> list K) G l : (forall h, In h l -> mrel n (fun m => F m h) (G h)) ->
  mrel n (fun m => concat (map (F m) l)) (concat (map G l)).
Proof.
  induction l as [|h l IH]; intros Hl; cbn [map concat].
  - split; [reflexivity|]. intros j. apply mean_const.
  - apply mrel_app; [apply Hl; left; reflexivity|]. apply IH. intros h' Hh. apply Hl. right. exact Hh.
Qed.
Lemma tab_len E (f : nat -> K) : length (tab E f) = E.
Proof. unfold tab. rewrite map_length, seq_length. reflexivity. Qed.
Lemma mrel_tab n E (f : list bool -> nat -> K) g : (forall e, e < E -> mean p n (fun m => f m e) = g e) ->
  mrel n (fun m => tab E (f m)) (tab E g).
Proof.
  intros He. split; [intros m; rewrite !tab_len; reflexivity|]. intros j.
  destruct (Nat.lt_ge_cases j E) as [H|H].
  - change (nth j (tab E g) k0) with (at_ (tab E g) j). rewrite at_tab by exact H. rewrite <- (He j H). apply mean_ext. intros m _.
    change (nth j (tab E (f m)) k0) with (at_ (tab E (f m)) j). rewrite at_tab by exact H. reflexivity.
  - rewrite nth_overflow by (rewrite tab_len; exact H). rewrite (mean_ext n _ (fun _ => k0)); [apply mean_const|].
    intros m _. apply nth_overflow. rewrite tab_len. exact H.
Qed.
Lemma mean_inner n w : forall X Y, mrel n X Y -> mean p n (fun m => inner w (X m)) = inner w Y.
Proof.
  induction w as [|a w IH]; intros X Y [A B]; cbn [inner]; [apply mean_const|].
  destruct Y as [|b Y].
  - rewrite (mean_ext n _ (fun _ => k0)); [apply mean_const|]. intros m _. specialize (A m). destruct (X m); [reflexivity|discriminate A].
  - rewrite (mean_ext n _ (fun m => kadd (kmul (nth 0 (X m) k0) a) (inner w (tl (X m))))).
    + rewrite mean_add, mean_scale, B. cbn [nth]. rewrite (IH (fun m => tl (X m)) Y); [ring|]. split.
      * intros m. specialize (A m). destruct (X m); [discriminate A|]. cbn [length tl] in *. lia.
      * intros j. specialize (B (S j)). cbn [nth] in B. rewrite <- B. apply mean_ext. intros m _. specialize (A m). destruct (X m); [discriminate A|reflexivity].
    + intros m _. specialize (A m). destruct (X m); [discriminate A|]. cbn [nth tl]. ring.
Qed.

Lemma mean_forward N E (P : params K) pos qs ks vs i e : length ks = N ->
  mean p (length (wi P 0) * length qs * N)
    (fun m => nth e (nth i (mha_forward_d (draws pos m) (param_cfg N E P) true (Some p) pos qs ks vs) []) k0)
  = nth e (nth i (mha_forward (param_cfg N E P) qs ks vs) []) k0.
Proof.
  intros LN. destruct (Nat.lt_ge_cases i (length qs)) as [Hi|Hi].
  2:{ rewrite (nth_overflow (mha_forward _ _ _ _)) by (unfold mha_forward; rewrite map_length; exact Hi).
      rewrite (mean_ext _ _ (fun _ => nth e [] k0)); [apply mean_const|]. intros m _. f_equal. apply nth_overflow.
      unfold mha_forward_d. rewrite map_length, combine_length, seq_length. lia. }
  unfold mha_forward. rewrite (nth_map_in _ _ _ []) by exact Hi.
  set (n := _ * _ * N). set (q := nth i qs []).
  assert (Eq : forall m, nth i (mha_forward_d (draws pos m) (param_cfg N E P) true (Some p) pos qs ks vs) []
    = rows (wo P) (concat (map (fun h =>
        wsum E (drop (draws pos m) (Some p) (pos + (h * length qs + i) * N) (softmax (map (dot E (map (fun x => kdiv x (rt P)) (head h (map (fun ws => rows ws q) (wi P 0)))))
          (map (fun k => head h (map (fun ws => rows ws k) (wi P 1))) ks)))) (map (fun v => head h (map (fun ws => rows ws v) (wi P 2))) vs)) (seq 0 (length (wi P 0)))))).
  { intros m. unfold mha_forward_d. rewrite (nth_map_in _ _ _ (0, [])) by (rewrite combine_length, seq_length; lia).
    rewrite combine_nth by apply seq_length. rewrite seq_nth by exact Hi. fold q. cbn [c_o c_H c_E c_bias c_zero_attn c_scale c_q c_k c_v param_cfg Nat.add].
    do 2 f_equal. apply map_ext. intros h. rewrite !app_nil_r, map_length, LN. reflexivity. }
  rewrite (mean_ext n _ (fun m => nth e (rows (wo P) (concat (map (fun h =>
        wsum E (drop (draws pos m) (Some p) (pos + (h * length qs + i) * N) (softmax (map (dot E (map (fun x => kdiv x (rt P)) (head h (map (fun ws => rows ws q) (wi P 0)))))
          (map (fun k => head h (map (fun ws => rows ws k) (wi P 1))) ks)))) (map (fun v => head h (map (fun ws => rows ws v) (wi P 2))) vs)) (seq 0 (length (wi P 0)))))) k0))
    by (intros m _; rewrite Eq; reflexivity).
  clear Eq. cbn [c_o c_H c_E c_bias c_zero_attn c_scale c_q c_k c_v param_cfg].
  destruct (Nat.lt_ge_cases e (length (wo P))) as [He|He].
  2:{ rewrite nth_overflow by (unfold rows; rewrite map_length; exact He).
      rewrite (mean_ext n _ (fun _ => k0)); [apply mean_const|]. intros m _. apply nth_overflow. unfold rows. rewrite map_length. exact He. }
  unfold rows at 1. rewrite (mean_ext n _ (fun m => kadd (inner (fst (nth e (wo P) ([], k0))) (concat (map (fun h =>
        wsum E (drop (draws pos m) (Some p) (pos + (h * length qs + i) * N) (softmax (map (dot E (map (fun x => kdiv x (rt P)) (head h (map (fun ws => rows ws q) (wi P 0)))))
          (map (fun k => head h (map (fun ws => rows ws k) (wi P 1))) ks)))) (map (fun v => head h (map (fun ws => rows ws v) (wi P 2))) vs)) (seq 0 (length (wi P 0)))))) (snd (nth e (wo P) ([], k0))))).
  2:{ intros m _. rewrite (nth_map_in _ _ _ ([], k0)) by exact He. reflexivity. }
  unfold rows at 4. rewrite (nth_map_in _ _ _ ([], k0)) by exact He.
  rewrite mean_add, mean_const. f_equal. apply mean_inner. apply mrel_concat. intros h Hh. apply in_seq in Hh.
  rewrite !app_nil_r. unfold wsum. apply mrel_tab. intros e' _.
  unfold drop. apply mean_wsum; [lia|]. unfold softmax. rewrite !map_length, LN. unfold n.
  assert (A1 : S h * length qs <= length (wi P 0) * length qs) by (apply Nat.mul_le_mono_r; lia).
  assert (A2 : (h * length qs + i + 1) * N <= length (wi P 0) * length qs * N) by (apply Nat.mul_le_mono_r; lia).
  lia.
Qed.

Lemma mean_steps N E (P : params K) qi ts h pos n e :
  supported (param_cfg N E P) -> 0 < N -> (- Z.of_nat N <= qi < Z.of_nat N)%Z -> n < length ts -> N <= n + 1 ->
  mean p (length (wi P 0) * N) (fun m =>
    match m_run_d (param_cfg N E P) true (Some p) (so_dsdpa (draws (pos + n * (length (wi P 0) * N)) m) (param_cfg N E P) qi) None ts h pos with
    | Ok (outs, _, _, _) => entry outs n 0 e
    | Err _ => k0
    end)
  = match m_run (param_cfg N E P) (so_sdpa (param_cfg N E P) qi) None ts h with
    | Ok (outs, _, _) => entry outs n 0 e
    | Err _ => k0
    end.
Proof.
  intros Hc HN Hqi Hn HN1. set (c := param_cfg N E P) in *. set (pn := pos + n * (length (wi P 0) * N)).
  assert (Lq : length (qs_of ts) = length ts) by apply map_length.
  assert (Lk : length (ks_of ts) = length ts) by apply map_length.
  set (q := nth (n - so_delay N qi) (qs_of ts) []).
  rewrite (mean_ext _ _ (fun m => nth e (nth 0 (mha_forward_d (draws pn m) c true (Some p) pn [q] (window N n (ks_of ts)) (window N n (vs_of ts))) []) k0)).
  - pose proof (mean_forward N E P pn [q] (window N n (ks_of ts)) (window N n (vs_of ts)) 0 e) as M. cbn [length] in M. rewrite Nat.mul_1_r in M. fold c in M.
    rewrite M by (unfold window; rewrite firstn_length_le; rewrite ?skipn_length; lia).
    destruct (so_stream1 c qi ts h Hc HN Hqi) as (outs & o' & h' & -> & L & S1). specialize (S1 n None Hn).
    destruct (Nat.ltb_spec (n + 1) (c_N c)) as [H|_]; [unfold c in H; cbn in H; lia|]. destruct S1 as (q' & Q1 & Q2).
    change (c_N c) with N in *. rewrite (py_index_window N qi n (qs_of ts) [] HN Hqi ltac:(lia) HN1) in Q1. injection Q1 as <-. fold q in Q2.
    unfold entry. rewrite Q2. rewrite mha_forward_attn1 by exact Hc. reflexivity.
  - intros m _.
    destruct (so_dropout (draws pn m) c Hc qi HN Hqi true (Some p) ts h pos) as (outs & o' & h' & -> & L & S1). specialize (S1 n None Hn).
    destruct (Nat.ltb_spec (n + 1) (c_N c)) as [H|_]; [unfold c in H; cbn in H; lia|]. destruct S1 as (r & Q1 & Q2).
    unfold so_forward_d in Q2. change (c_N c) with N in *. rewrite (py_index_window N qi n (qs_of ts) [] HN Hqi ltac:(lia) HN1) in Q2. cbn [bind] in Q2. fold q in Q2.
    injection Q2 as <-. unfold entry. rewrite Q1. reflexivity.
Qed.
End MeanProof.
