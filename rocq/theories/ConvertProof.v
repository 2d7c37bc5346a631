From Coq Require Import List Bool Arith Lia String.
From Verif Require Import Base Convert ConvertSpec.
Import ListNotations.
Open Scope list_scope.

Section TmodInd.
Context {X W : Type}.
Variable P : @tmod X W -> Prop.
Hypothesis H1 : forall i, P (TNaive i).
Hypothesis H2 : forall i a t, P (TNorm i a t).
Hypothesis H3 : forall c, P (TConv c).
Hypothesis H4 : forall c, P (TPool c).
Hypothesis H5 : forall c, P (TLinear c).
Hypothesis H6 : forall f, P (TFunc f).
Hypothesis H7 : P TNeedsArg.
Hypothesis H8 : forall i, P (TOther i).
Hypothesis H9 : forall l, Forall (fun km => P (snd km)) l -> P (TSeq l).
Hypothesis H10 : forall c, P (CConv c).
Hypothesis H11 : forall c, P (CPool c).
Hypothesis H12 : forall c, P (CLinear c).
Hypothesis H13 : forall f, P (CLambda f).
Hypothesis H14 : forall l, Forall (fun km => P (snd km)) l -> P (CSeq l).
Fixpoint tmod_ind2 (m : @tmod X W) : P m :=
  let go := fix go l : Forall (fun km => P (snd km)) l :=
    match l with
    | [] => Forall_nil _
    | km :: l => Forall_cons _ (tmod_ind2 (snd km)) (go l) end in
  match m with
  | TNaive i => H1 i | TNorm i a t => H2 i a t | TConv c => H3 c | TPool c => H4 c
  | TLinear c => H5 c | TFunc f => H6 f | TNeedsArg => H7 | TOther i => H8 i
  | TSeq l => H9 l (go l) | CConv c => H10 c | CPool c => H11 c | CLinear c => H12 c
  | CLambda f => H13 f | CSeq l => H14 l (go l)
  end.
End TmodInd.

Section Proofs.
Context {X W : Type}.
Notation tmod := (@tmod X W).
Variable cast : nat -> nat -> W -> W.
Notation continual := (continual cast).

Lemma times_S {T} n (f : T -> T) a : times n f (f a) = f (times n f a).
Proof. induction n as [|n IH]; cbn; congruence. Qed.
Lemma times_add {T} n k (f : T -> T) a : times (n + k) f a = times n f (times k f a).
Proof. induction n as [|n IH]; cbn; congruence. Qed.

Lemma upd_spec st i j a : upd st i a j = if Nat.eqb i j then a else st j.
Proof. reflexivity. Qed.

(** What a conversion that succeeds gives. *)
Definition good (m : tmod) (st : store) (r : res tmod * store) : Prop :=
  exists m', fst r = Ok m' /\ is_valid (snd r) m' = true /\
             (is_co m' = true \/ m' = m) /\
             forall i, snd r i = times (occ i m) forward_stepping (st i).

Lemma valid_times (st st' : store) (m : tmod) n :
  (forall i, st' i = times (n i) forward_stepping (st i)) ->
  is_valid st m = true -> is_valid st' m = true.
Proof.
  intros E. unfold is_valid. rewrite !orb_true_iff. intros [H|H]; auto. right.
  destruct m; auto; rewrite E; destruct (n id) as [|k]; cbn; auto.
Qed.

Lemma children_good : forall l : list (string * tmod),
  Forall (fun km => convertible (snd km) = true -> forall st, good (snd km) st (continual (snd km) st)) l ->
  forallb (fun km => convertible (snd km)) l = true -> forall st,
  exists l', fst (children continual l st) = Ok l' /\
    map fst l' = map fst l /\
    forallb (fun km => is_valid (snd (children continual l st)) (snd km)) l' = true /\
    forall i, snd (children continual l st) i
              = times (list_sum (map (fun km => occ i (snd km)) l)) forward_stepping (st i).
Proof.
  induction 1 as [|[k m] l Hm _ IH]; intros Hc st.
  - exists []. cbn. auto.
  - cbn [forallb snd] in Hc. apply andb_true_iff in Hc. destruct Hc as [Hc1 Hc2].
    destruct (Hm Hc1 st) as (m' & E & V & _ & O). cbn [snd fst] in *. cbn [children].
    destruct (continual m st) as [r st1]. cbn [fst snd] in *. subst r.
    destruct (IH Hc2 st1) as (l' & El & Nl & Vl & Ol).
    destruct (children continual l st1) as [r st2]. cbn [fst snd] in *. subst r.
    exists ((k, m') :: l'). cbn [fst snd map forallb]. rewrite Nl, Vl, andb_true_r.
    repeat split; auto.
    + eapply valid_times; [exact Ol|exact V].
    + intros i. rewrite Ol, O. cbn [list_sum fold_right]. rewrite Nat.add_comm, times_add.
      reflexivity.
Qed.

Lemma continual_good : forall m : tmod, convertible m = true -> forall st, good m st (continual m st).
Proof.
  induction m as [i|i a t|c|c|c|f| |i|l IH|c|c|c|f|l IH] using tmod_ind2; intros Hc st;
    cbn [convertible] in Hc; try discriminate.
  - exists (TNaive i). cbn. rewrite upd_spec, Nat.eqb_refl. cbn.
    repeat split; auto. intros j. rewrite upd_spec. destruct (Nat.eqb_spec i j); subst; auto.
  - exists (TNorm i a t). cbn. rewrite Hc. cbn. rewrite upd_spec, Nat.eqb_refl. cbn.
    repeat split; auto. intros j. rewrite upd_spec. destruct (Nat.eqb_spec i j); subst; auto.
  - apply andb_true_iff in Hc. destruct Hc as [E1 E2]. unfold good. cbn [Convert.continual].
    unfold conv_build. rewrite E1, E2. cbn. eexists. repeat split; auto.
  - unfold good. cbn [Convert.continual]. unfold pool_build. apply negb_true_iff in Hc. rewrite Hc. cbn.
    eexists. repeat split; auto.
  - unfold good. cbn. eexists. repeat split; auto.
  - unfold good. cbn. eexists. repeat split; auto.
  - destruct (children_good l IH Hc st) as (l' & E & _ & V & O).
    unfold good. cbn [Convert.continual]. destruct (children continual l st) as [r st'].
    cbn [fst snd] in *. subst r. rewrite V. cbn [fst snd]. eexists. repeat split; auto.
  - exists (CConv c). cbn. auto.
  - exists (CPool c). cbn. auto.
  - exists (CLinear c). cbn. auto.
  - exists (CLambda f). cbn. auto.
  - exists (CSeq l). cbn. auto.
Qed.

Lemma continual_err : forall m : tmod, convertible m = false -> forall st,
  exists e, fst (continual m st) = Err e.
Proof.
  induction m as [i|i a t|c|c|c|f| |i|l IH|c|c|c|f|l IH] using tmod_ind2; intros Hc st;
    cbn [convertible] in Hc; try discriminate.
  - cbn. rewrite Hc. eexists. reflexivity.
  - cbn [Convert.continual]. unfold conv_build. destruct (Nat.eqb (hd 1 (cv_d c)) 1); cbn in *;
      [rewrite Hc|]; cbn; eexists; reflexivity.
  - cbn [Convert.continual]. unfold pool_build. apply negb_false_iff in Hc. rewrite Hc. cbn. eexists. reflexivity.
  - cbn. eexists. reflexivity.
  - cbn. eexists. reflexivity.
  - cbn [Convert.continual].
    assert (G : exists e, fst (children continual l st) = Err e).
    { revert st. induction IH as [|[k m] l Hm _ IHl]; [discriminate|]. intros st. cbn [children snd] in *.
      cbn [forallb snd] in Hc. apply andb_false_iff in Hc.
      destruct (convertible m) eqn:Cm.
      - destruct Hc as [Hc|Hc]; [discriminate|].
        destruct (continual m st) as [[m'|e] st1]; [|eexists; reflexivity].
        destruct (IHl Hc st1) as [e E]. destruct (children continual l st1) as [r st2].
        cbn in E. subst r. exists e. reflexivity.
      - destruct (Hm eq_refl st) as [e E]. destruct (continual m st) as [r st1]. cbn in E. subst r.
        exists e. reflexivity. }
    destruct G as [e E]. destruct (children continual l st) as [r st']. cbn in E. subst r.
    exists e. reflexivity.
Qed.

Lemma convertible_iff (m : tmod) st : convertible m = true <-> exists m' st', continual m st = (Ok m', st').
Proof.
  split.
  - intros H. destruct (continual_good m H st) as (m' & E & _). destruct (continual m st) as [r st'].
    cbn in E. subst r. eauto.
  - intros (m' & st' & E). destruct (convertible m) eqn:C; auto.
    destruct (continual_err m C st) as [e F]. rewrite E in F. discriminate.
Qed.

Lemma continual_result (m : tmod) st m' st' : continual m st = (Ok m', st') ->
  is_valid st' m' = true /\ (is_co m' = true \/ m' = m) /\
  forall i, st' i = times (occ i m) forward_stepping (st i).
Proof.
  intros E. assert (C : convertible m = true) by (apply (convertible_iff m st); eauto).
  destruct (continual_good m C st) as (m1 & E1 & V & K & O). rewrite E in *. cbn [fst snd] in *.
  injection E1 as <-. auto.
Qed.

(** A second conversion returns the module itself. *)
Lemma continual_again (m : tmod) st m' st' : continual m st = (Ok m', st') ->
  fst (continual m' st') = Ok m' /\
  (is_co m' = true -> snd (continual m' st') = st').
Proof.
  intros E. destruct (continual_result _ _ _ _ E) as (_ & [K| ->] & _).
  - destruct m'; try discriminate; cbn; auto.
  - assert (C : convertible m = true) by (apply (convertible_iff m st); eauto).
    split.
    + destruct m; cbn in *; try discriminate; auto.
      * rewrite C. reflexivity.
      * revert E. unfold conv_build. destruct (negb _); [discriminate|]. destruct (negb _); discriminate.
      * revert E. unfold pool_build. destruct (Nat.eqb _ _); discriminate.
      * destruct (children continual l st) as [[l'|e] st1]; [|discriminate].
        destruct (forallb _ l'); discriminate.
    + intros K. destruct m; try discriminate; reflexivity.
Qed.

(** *** Functions *)
Variable naive_fn : nat -> X -> res X.
Variable other_fn : nat -> X -> res X.
Variable F_conv : X -> W -> option W -> list nat -> list nat -> list nat -> nat -> nat -> res X.
Variable F_pad : list nat -> string -> X -> X.
Variable F_pool : poolf -> X -> res X.
Variable F_linear : W -> option W -> nat -> X -> res X.
Variable unsq sq : X -> X.
Variable each_step : (X -> res X) -> X -> res X.
Notation ev := (ev naive_fn unsq sq).
Notation call := (call naive_fn unsq sq).
Notation call_step := (call_step naive_fn unsq sq).
Notation fwd := (fwd naive_fn other_fn F_conv F_pad F_pool F_linear unsq sq each_step).
Notation plain := (plain naive_fn other_fn F_conv F_pad F_pool F_linear each_step).

Lemma ev_forward : forall fuel i a c x, depth c < fuel -> ev fuel i a MForward c x = naive_fn i x.
Proof.
  induction fuel as [|fuel IH]; intros i a c x H; [lia|]. destruct c as [|c]; cbn in *; auto.
  apply IH. lia.
Qed.

Lemma fold_err (f : tmod -> X -> res X) e : forall l : list (string * tmod),
  fold_left (fun r km => y <- r ;; f (snd km) y) l (Err e) = Err e.
Proof. induction l as [|[k m] l IH]; auto. Qed.

Lemma chain_fold (f g : tmod -> X -> res X) : forall l x,
  Forall (fun km => forall x, f (snd km) x = g (snd km) x) l ->
  chain f l x = fold_left (fun r km => y <- r ;; g (snd km) y) l (Ok x).
Proof.
  induction l as [|[k m] l IH]; intros x H; auto. inversion H as [|? ? H1 H2]; subst. cbn in *.
  rewrite H1. destruct (g m x) as [y|e]; cbn; auto. now rewrite fold_err.
Qed.

Lemma list_max_le_each (l : list nat) n : list_max l < n -> Forall (fun a => a < n) l.
Proof.
  induction l as [|a l IH]; intros H; constructor; cbn in H; [lia|]. apply IH.
  unfold list_max. lia.
Qed.

Lemma fwd_plain : forall fuel st m x, deepest st m < fuel -> fwd fuel st m x = plain m x.
Proof.
  intros fuel st. induction m as [i|i a t|c|c|c|f| |i|l IH|c|c|c|f|l IH] using tmod_ind2;
    intros x H; cbn [Convert.fwd ConvertSpec.plain deepest] in *; try reflexivity.
  - now apply ev_forward.
  - now apply ev_forward.
  - unfold nn_conv_forward. destruct (String.eqb (cv_mode c) "zeros"); reflexivity.
  - apply chain_fold. apply list_max_le_each in H. rewrite Forall_forall in *.
    intros km Hk y. apply IH; auto. apply H. now apply (in_map (fun km => deepest st (snd km))).
  - apply chain_fold. apply list_max_le_each in H. rewrite Forall_forall in *.
    intros km Hk y. apply IH; auto. apply H. now apply (in_map (fun km => deepest st (snd km))).
Qed.

Hypothesis cast_same : forall d w, cast d d w = w.

Lemma Cv_eta (c : @convf W) : cv_dtype c = 0 -> forall c', conv_build cast c = Ok c' ->
  cv_weight c' = cv_weight c /\ cv_bias c' = cv_bias c /\ cv_s c' = cv_s c /\ cv_p c' = cv_p c /\
  cv_d c' = cv_d c /\ cv_g c' = cv_g c /\ cv_dtype c' = cv_dtype c /\ cv_mode c' = cv_mode c.
Proof.
  intros D c'. unfold conv_build. destruct (negb _); [discriminate|]. destruct (negb _); [discriminate|].
  intros E. injection E as <-. cbn. rewrite D, cast_same.
  destruct (cv_bias c); [rewrite cast_same|]; repeat split.
Qed.

Lemma pool_build_same (c c' : poolf) : pf_indices c = false -> pool_build c = Ok c' -> c' = c.
Proof.
  intros I. unfold pool_build. destruct (Nat.eqb _ 0); [discriminate|]. intros E. injection E as <-.
  destruct c; cbn in *. now subst.
Qed.

Lemma linear_build_same (c : @linf W) : linear_build cast c = c.
Proof.
  unfold linear_build. destruct c as [a b [w|] v d]; cbn; now rewrite ?cast_same.
Qed.

Lemma children_Ok : forall (l : list (string * tmod)) st l' st', children continual l st = (Ok l', st') ->
  Forall2 (fun km km' => fst km = fst km' /\
             exists s s', continual (snd km) s = (Ok (snd km'), s')) l l'.
Proof.
  induction l as [|[k m] l IH]; intros st l' st' E; cbn [children] in E.
  - injection E as <- _. constructor.
  - destruct (continual m st) as [[m'|e] st1] eqn:Em; [|discriminate].
    destruct (children continual l st1) as [[l1|e] st2] eqn:El; [|discriminate].
    injection E as <- _. constructor; cbn; eauto.
Qed.

Lemma plain_kept : forall m : tmod, faithful m -> forall st m' st',
  continual m st = (Ok m', st') -> forall x, plain m' x = plain m x.
Proof.
  induction m as [i|i a t|c|c|c|f| |i|l IH|c|c|c|f|l IH] using tmod_ind2; intros Hf st m' st' E x;
    cbn [Convert.continual] in E.
  - injection E as <- _. reflexivity.
  - destruct (a && t); [|discriminate]. injection E as <- _. reflexivity.
  - destruct (conv_build cast c) as [c'|] eqn:B; cbn in E; [|discriminate]. injection E as <- _.
    destruct (Cv_eta c Hf c' B) as (E1 & E2 & E3 & E4 & E5 & E6 & E7 & E8).
    cbn [ConvertSpec.plain]. now rewrite E1, E2, E3, E4, E5, E6, E7, E8.
  - destruct (pool_build c) as [c'|] eqn:B; cbn in E; [|discriminate]. injection E as <- _.
    apply pool_build_same in B; auto. now subst.
  - injection E as <- _. cbn [ConvertSpec.plain]. now rewrite linear_build_same.
  - injection E as <- _. reflexivity.
  - discriminate.
  - discriminate.
  - destruct (children continual l st) as [[l'|e] st1] eqn:El; [|discriminate].
    destruct (forallb _ l'); [|discriminate]. injection E as <- _.
    apply children_Ok in El. cbn [ConvertSpec.plain].
    cbn [faithful] in Hf. generalize (Ok x) as r.
    induction El as [|km km' l l' (_ & s & s' & Ek) _ IHl]; intros r; auto.
    inversion IH as [|? ? I1 I2]; subst. destruct Hf as [Hf1 Hf2]. cbn [fold_left].
    rewrite IHl by auto. f_equal. destruct r; cbn; auto. now rewrite (I1 Hf1 _ _ _ Ek).
  - injection E as <- _. reflexivity.
  - injection E as <- _. reflexivity.
  - injection E as <- _. reflexivity.
  - injection E as <- _. reflexivity.
  - injection E as <- _. reflexivity.
Qed.

Lemma forward_kept (m : tmod) st m' st' :
  faithful m -> continual m st = (Ok m', st') ->
  exists N, forall fuel, N <= fuel -> forall x,
    fwd fuel st m x = plain m x /\ fwd fuel st' m' x = plain m x /\ fwd fuel st' m x = plain m x.
Proof.
  intros Hf E. exists (S (deepest st m + deepest st' m' + deepest st' m)). intros fuel H x.
  rewrite !fwd_plain by lia. repeat split. eapply plain_kept; eauto.
Qed.

Lemma named_kept : forall m : tmod, faithful m -> forall st m' st',
  continual m st = (Ok m', st') -> named m' = named m.
Proof.
  induction m as [i|i a t|c|c|c|f| |i|l IH|c|c|c|f|l IH] using tmod_ind2; intros Hf st m' st' E;
    cbn [Convert.continual] in E.
  - injection E as <- _. reflexivity.
  - destruct (a && t); [|discriminate]. injection E as <- _. reflexivity.
  - destruct (conv_build cast c) as [c'|] eqn:B; cbn in E; [|discriminate]. injection E as <- _.
    destruct (Cv_eta c Hf c' B) as (E1 & E2 & _). cbn [named]. now rewrite E1, E2.
  - destruct (pool_build c) as [c'|] eqn:B; cbn in E; [|discriminate]. injection E as <- _. reflexivity.
  - injection E as <- _. cbn [named]. now rewrite linear_build_same.
  - injection E as <- _. reflexivity.
  - discriminate.
  - discriminate.
  - destruct (children continual l st) as [[l'|e] st1] eqn:El; [|discriminate].
    destruct (forallb _ l'); [|discriminate]. injection E as <- _.
    apply children_Ok in El. cbn [named].
    cbn [faithful] in Hf.
    induction El as [|km km' l l' (Ek0 & s & s' & Ek) _ IHl]; auto.
    inversion IH as [|? ? I1 I2]; subst. destruct Hf as [Hf1 Hf2]. cbn [flat_map].
    rewrite IHl by auto. now rewrite <- Ek0, (I1 Hf1 _ _ _ Ek).
  - injection E as <- _. reflexivity.
  - injection E as <- _. reflexivity.
  - injection E as <- _. reflexivity.
  - injection E as <- _. reflexivity.
  - injection E as <- _. reflexivity.
Qed.

(** *** Stepping *)

Lemma once_modes st i fuel x :
  st i = forward_stepping fresh -> 2 <= fuel ->
  call fuel st i MForward x = naive_fn i x /\
  call fuel st i MSteps x = naive_fn i x /\
  call fuel st i MStep x = (y <- naive_fn i (unsq x) ;; Ok (sq y)) /\
  (forall md, call_step fuel st i md x = (y <- naive_fn i (unsq x) ;; Ok (sq y))).
Proof.
  intros E H. unfold Convert.call, Convert.call_step. rewrite E.
  destruct fuel as [|[|fuel]]; try lia. cbn. auto.
Qed.

Lemma twice_recurses st i a : st i = forward_stepping (forward_stepping a) ->
  forall fuel x,
  call fuel st i MStep x = Err RecursionError /\
  call fuel st i MSteps x = Err RecursionError.
Proof.
  intros E. unfold Convert.call. rewrite E.
  assert (G : forall fuel c x,
    ev fuel i (forward_stepping (forward_stepping a)) MStep (WithMode c) x = Err RecursionError /\
    ev fuel i (forward_stepping (forward_stepping a)) MSteps (WithMode c) x = Err RecursionError).
  { induction fuel as [|fuel IH]; intros c x; [split; reflexivity|]. cbn [Convert.ev].
    destruct (IH (a_fwd a) (unsq x)) as [I1 _]. destruct (IH (a_fwd a) x) as [_ I2].
    cbn [forward_stepping a_step a_steps a_fwd] in *. rewrite I1, I2. split; reflexivity. }
  intros fuel x. apply G.
Qed.

Lemma times_two {T} n (f : T -> T) a : 2 <= n -> exists b, times n f a = f (f b).
Proof. intros H. destruct n as [|[|n]]; try lia. eexists. reflexivity. Qed.

Lemma stepping_after (m : tmod) st m' st' i fuel x :
  continual m st = (Ok m', st') -> st i = fresh -> 1 <= occ i m -> 2 <= fuel ->
  if Nat.eqb (occ i m) 1
  then call fuel st' i MStep x = (y <- naive_fn i (unsq x) ;; Ok (sq y)) /\
       call fuel st' i MSteps x = naive_fn i x
  else call fuel st' i MStep x = Err RecursionError /\
       call fuel st' i MSteps x = Err RecursionError.
Proof.
  intros E F Ho H. destruct (continual_result _ _ _ _ E) as (_ & _ & O). specialize (O i).
  rewrite F in O. destruct (Nat.eqb_spec (occ i m) 1) as [E1|E1].
  - rewrite E1 in O. cbn in O. destruct (once_modes st' i fuel x O H) as (_ & A & B & _). auto.
  - destruct (times_two (occ i m) forward_stepping fresh) as [b Hb]; [lia|]. rewrite Hb in O.
    eapply twice_recurses; eauto.
Qed.

(** Modules changed before an exception stay changed. *)
Lemma failing_prefix (l1 : list (string * tmod)) k bad l2 st e :
  forallb (fun km => convertible (snd km)) l1 = true ->
  (forall s, continual bad s = (Err e, s)) ->
  fst (continual (TSeq (l1 ++ (k, bad) :: l2)) st) = Err e /\
  forall i, snd (continual (TSeq (l1 ++ (k, bad) :: l2)) st) i
            = times (list_sum (map (fun km => occ i (snd km)) l1)) forward_stepping (st i).
Proof.
  intros C B. cbn [Convert.continual].
  assert (G : fst (children continual (l1 ++ (k, bad) :: l2) st) = Err e /\
    forall i, snd (children continual (l1 ++ (k, bad) :: l2) st) i
            = times (list_sum (map (fun km => occ i (snd km)) l1)) forward_stepping (st i)).
  { revert st. induction l1 as [|[k1 m] l1 IH]; intros st; cbn [app children].
    - rewrite B. cbn. auto.
    - cbn [forallb snd] in C. apply andb_true_iff in C. destruct C as [C1 C2].
      destruct (continual_good m C1 st) as (m' & E & _ & _ & O).
      destruct (continual m st) as [r st1]. cbn [fst snd] in *. subst r.
      destruct (IH C2 st1) as [I1 I2].
      destruct (children continual (l1 ++ (k, bad) :: l2) st1) as [r st2]. cbn [fst snd] in *. subst r.
      cbn [fst snd]. split; auto. intros i. rewrite I2, O. cbn [map list_sum fold_right snd].
      rewrite Nat.add_comm, times_add. reflexivity. }
  destruct (children continual (l1 ++ (k, bad) :: l2) st) as [r st1]. cbn [fst snd] in *.
  destruct G as [-> G]. cbn. auto.
Qed.

(** *** co.Sequential given plain modules *)
Lemma co_sequential_once : forall (ks : list (string * nat)) st,
  exists st', co_sequential (X:=X) cast (map (fun ki => (fst ki, TNaive (snd ki))) ks) st
    = (Ok (CSeq (map (fun ki => (fst ki, TNaive (snd ki))) ks)), st') /\
  forall i, st' i = if existsb (fun ki => Nat.eqb (snd ki) i) ks
                    then match a_step (st i) with
                         | Some _ => st i | None => forward_stepping (st i) end
                    else st i.
Proof.
  intros ks st. unfold co_sequential.
  assert (G : exists st', children (add_module (X:=X) continual) (map (fun ki => (fst ki, TNaive (snd ki))) ks) st
      = (Ok (map (fun ki => (fst ki, TNaive (snd ki))) ks), st') /\
    forall i, st' i = if existsb (fun ki => Nat.eqb (snd ki) i) ks
                    then match a_step (st i) with
                         | Some _ => st i | None => forward_stepping (st i) end
                    else st i).
  { revert st. induction ks as [|[k j] ks IH]; intros st; cbn [map children fst snd existsb].
    - exists st. auto.
    - unfold add_module at 1. unfold is_valid. cbn [is_co orb].
      destruct (a_step (st j)) as [c|] eqn:Ej.
      + destruct (IH st) as (st' & E & Hs). rewrite E. exists st'. split; auto. intros i. rewrite Hs.
        destruct (Nat.eqb_spec j i) as [->|]; cbn [orb]; auto. rewrite Ej.
        destruct (existsb _ ks); reflexivity.
      + cbn [Convert.continual]. destruct (IH (upd st j (forward_stepping (st j)))) as (st' & E & Hs).
        rewrite E. exists st'. split; auto. intros i. rewrite Hs, upd_spec.
        destruct (Nat.eqb_spec j i) as [->|]; cbn [orb]; auto. rewrite Ej.
        destruct (existsb _ ks); reflexivity. }
  destruct G as (st' & E & H). rewrite E. exists st'. auto.
Qed.

End Proofs.
