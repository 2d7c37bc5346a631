(** Call modes: dispatch, propagation, contexts and restoring. *)
From Coq Require Import List ZArith Bool Arith Lia String.
From Verif Require Import Base CallMode CallSpec.
Import ListNotations.
Open Scope list_scope.

Lemma mtree_rect' (P : mtree -> Prop) :
  (forall i, P (CoLeaf i)) -> (forall i, P (FsLeaf i)) ->
  (forall s i l, Forall P l -> P (Cont s i l)) ->
  (forall i b0 b1, P b0 -> (forall b, b1 = Some b -> P b) -> P (Cond i b0 b1)) ->
  forall m, P m.
Proof.
  intros H1 H2 H3 H4. fix IH 1. intros [i|i|s i l|i b0 b1].
  - apply H1.
  - apply H2.
  - apply H3. induction l as [|m l IHl]; constructor; [apply IH|exact IHl].
  - apply H4; [apply IH|]. intros b E. destruct b1 as [b1|]; [|discriminate].
    injection E as <-. apply IH.
Qed.

Lemma stmt_ind' (P : stmt -> Prop) :
  (forall m, P (SCall m)) -> (forall m me, P (SRun m me)) -> (forall m v, P (SAssign m v)) ->
  (forall v b, Forall P b -> P (SWith v b)) -> (forall e, P (SRaise e)) ->
  (forall b, Forall P b -> P (STry b)) -> forall s, P s.
Proof.
  intros H1 H2 H3 H4 H5 H6. fix IH 1. intros [m|m me|m v|v b|e|b].
  - apply H1.
  - apply H2.
  - apply H3.
  - apply H4. induction b as [|s b IHb]; constructor; [apply IH|exact IHb].
  - apply H5.
  - apply H6. induction b as [|s b IHb]; constructor; [apply IH|exact IHb].
Qed.

(** Names. *)
Lemma callmode_name me : callmode (CStr (name_of me)) = Ok (mode_of me).
Proof. destruct me; reflexivity. Qed.

Lemma callmode_any_case s me : lower s = name_of me -> callmode (CStr s) = Ok (mode_of me).
Proof. intros H. unfold callmode. rewrite H. destruct me; reflexivity. Qed.

Lemma callmode_only s t : callmode (CStr s) = Ok t -> exists me, lower s = name_of me /\ t = mode_of me.
Proof.
  unfold callmode. destruct (String.eqb_spec (lower s) "forward").
  { intros [= <-]. exists Forward. auto. }
  destruct (String.eqb_spec (lower s) "forward_steps").
  { intros [= <-]. exists Steps. auto. }
  destruct (String.eqb_spec (lower s) "forward_step"); [|discriminate].
  intros [= <-]. exists Step. auto.
Qed.

Lemma upd_same {A} (f : nat -> A) i v : upd f i v i = v.
Proof. unfold upd. rewrite Nat.eqb_refl. reflexivity. Qed.

Lemma upd_other {A} (f : nat -> A) i v j : i <> j -> upd f i v j = f j.
Proof. intros H. unfold upd. destruct (Nat.eqb_spec i j); [contradiction|reflexivity]. Qed.

Definition key (m : mtree) : bool * nat := (is_fs m, root m).

Lemma own_get m st : own m st = get st (key m).
Proof. destruct m; reflexivity. Qed.

Lemma key_in m : In (key m) (ids m).
Proof. destruct m; left; reflexivity. Qed.

Lemma get_co st i t k : get (St (upd (co st) i t) (fs st)) k
  = if if fst k then false else Nat.eqb i (snd k) then CTensor t else get st k.
Proof.
  destruct k as [[|] j]; cbn; [reflexivity|]. unfold upd. destruct (Nat.eqb i j); reflexivity.
Qed.

Lemma get_fs st i v k : get (St (co st) (upd (fs st) i v)) k
  = if if fst k then Nat.eqb i (snd k) else false then v else get st k.
Proof. destruct k as [[|] j]; reflexivity. Qed.

Lemma get_co_other st i t k : k <> (false, i) ->
  get (St (upd (co st) i t) (fs st)) k = get st k.
Proof.
  intros H. rewrite get_co. destruct k as [[|] j]; cbn [fst snd]; [reflexivity|].
  destruct (Nat.eqb_spec i j); [subst; contradiction|reflexivity].
Qed.

Lemma get_fs_other st i v k : k <> (true, i) ->
  get (St (co st) (upd (fs st) i v)) k = get st k.
Proof.
  intros H. rewrite get_fs. destruct k as [[|] j]; cbn [fst snd]; [|reflexivity].
  destruct (Nat.eqb_spec i j); [subst; contradiction|reflexivity].
Qed.

Notation sets t := (fun st ch => set_tensor ch t st).

Lemma set_tensor_out t m : forall st k, ~ In k (ids m) -> get (set_tensor m t st) k = get st k.
Proof.
  induction m as [i|i|s i l IH|i b0 b1 IH0 IH1] using mtree_rect'; intros st k H; cbn in H |- *.
  - apply get_co_other. intros ->. tauto.
  - apply get_fs_other. intros ->. tauto.
  - assert (A : forall l, Forall (fun m => forall st k, ~ In k (ids m) ->
        get (set_tensor m t st) k = get st k) l -> forall st, ~ In k (flat_map ids l) ->
        get (fold_left (sets t) l st) k = get st k).
    { clear. induction l as [|m l IHl]; intros F st H; [reflexivity|]. cbn.
      inversion F as [|? ? Fm Fl]; subst. cbn in H. rewrite in_app_iff in H.
      rewrite IHl by tauto. apply Fm. tauto. }
    rewrite A by tauto. apply get_co_other. intros ->. tauto.
  - apply get_co_other. intros ->. tauto.
Qed.

Lemma set_tensor_keep t m : forall st k, get st k = CTensor t ->
  get (set_tensor m t st) k = CTensor t.
Proof.
  induction m as [i|i|s i l IH|i b0 b1 IH0 IH1] using mtree_rect'; intros st k H; cbn.
  - rewrite get_co. destruct (if fst k then _ else _); auto.
  - rewrite get_fs. destruct (if fst k then _ else _); auto.
  - assert (A : forall l, Forall (fun m => forall st k, get st k = CTensor t ->
        get (set_tensor m t st) k = CTensor t) l -> forall st, get st k = CTensor t ->
        get (fold_left (sets t) l st) k = CTensor t).
    { clear. induction l as [|m l IHl]; intros F st H; [exact H|]. cbn.
      inversion F as [|? ? Fm Fl]; subst. apply IHl; [exact Fl|]. apply Fm. exact H. }
    apply A; [exact IH|]. rewrite get_co. destruct (if fst k then _ else _); auto.
  - rewrite get_co. destruct (if fst k then _ else _); auto.
Qed.

Lemma fold_keep t l : forall st k, get st k = CTensor t ->
  get (fold_left (sets t) l st) k = CTensor t.
Proof.
  induction l as [|m l IH]; intros st k H; [exact H|]. cbn. apply IH.
  apply set_tensor_keep. exact H.
Qed.

Lemma get_co_same st i t : get (St (upd (co st) i t) (fs st)) (false, i) = CTensor t.
Proof. cbn. rewrite upd_same. reflexivity. Qed.

Lemma set_tensor_root t m st : get (set_tensor m t st) (key m) = CTensor t.
Proof.
  destruct m as [i|i|s i l|i b0 b1]; cbn [set_tensor key is_fs root].
  - apply get_co_same.
  - cbn. apply upd_same.
  - apply fold_keep, get_co_same.
  - apply get_co_same.
Qed.

Lemma set_tensor_reach t m : no_cond m = true -> forall st k, In k (ids m) ->
  get (set_tensor m t st) k = CTensor t.
Proof.
  induction m as [i|i|s i l IH|i b0 b1 IH0 IH1] using mtree_rect'; intros N st k H;
    cbn [ids set_tensor no_cond] in *.
  - destruct H as [<-|[]]. apply get_co_same.
  - destruct H as [<-|[]]. cbn. apply upd_same.
  - assert (A : forall l, Forall (fun m => no_cond m = true -> forall st k, In k (ids m) ->
        get (set_tensor m t st) k = CTensor t) l -> forallb no_cond l = true ->
        forall st, In k (flat_map ids l) ->
        get (fold_left (sets t) l st) k = CTensor t).
    { clear. induction l as [|m l IHl]; intros F N st H; [destruct H|]. cbn in *.
      inversion F as [|? ? Fm Fl]; subst. apply andb_prop in N. destruct N as (N1 & N2).
      apply in_app_iff in H. destruct H as [H|H].
      - apply fold_keep. apply Fm; assumption.
      - apply IHl; assumption. }
    destruct H as [<-|H]; [apply fold_keep, get_co_same|]. apply A; assumption.
  - discriminate.
Qed.

(** Restoring a child's own mode. *)
Definition restore (ch : mtree) (v : cmval) (st : store) : store :=
  match ch, v with
  | FsLeaf i, _ => St (co st) (upd (fs st) i v)
  | _, CTensor t => set_tensor ch t st
  | _, _ => st
  end.

Lemma set_own ch st0 st : set_mode ch (own ch st0) st = Ok (restore ch (own ch st0) st).
Proof. destruct ch; reflexivity. Qed.

Lemma restore_out ch st0 st k : ~ In k (ids ch) ->
  get (restore ch (own ch st0) st) k = get st k.
Proof.
  intros H. destruct ch as [i|i|s i l|i b0 b1]; cbn [restore own];
    try (apply set_tensor_out; exact H).
  apply get_fs_other. intros ->. apply H. left. reflexivity.
Qed.

Lemma restore_reach ch st0 st k : no_cond ch = true -> In k (ids ch) ->
  get (restore ch (own ch st0) st) k = own ch st0.
Proof.
  intros N H. destruct ch as [i|i|s i l|i b0 b1]; cbn [restore own];
    try (apply set_tensor_reach; assumption).
  destruct H as [<-|[]]. cbn. apply upd_same.
Qed.

Lemma restore_root ch st0 st : get (restore ch (own ch st0) st) (key ch) = own ch st0.
Proof.
  destruct ch as [i|i|s i l|i b0 b1]; cbn [restore own].
  1,3,4: apply set_tensor_root. cbn. apply upd_same.
Qed.

Section Runs.
Variable fails : nat -> meth -> option exn.
Variable pick : nat -> bool.

Notation ok_for := (ok_for fails).
Notation quiet := (quiet fails pick).

Lemma set_child str ch me st : (str && is_fs ch = false) ->
  set_mode ch (if str then CStr (name_of me) else CTensor (mode_of me)) st
  = Ok (set_tensor ch (mode_of me) st).
Proof.
  intros H. destruct ch as [i|i|s i l|i b0 b1]; cbn [set_mode];
    destruct str; try (rewrite callmode_name; reflexivity); try reflexivity.
  discriminate.
Qed.

Lemma dispatch_set ch me st :
  dispatch None ch (set_tensor ch (mode_of me) st) = Ok me.
Proof.
  unfold dispatch, current. rewrite own_get, set_tensor_root.
  destruct ch; destruct me; reflexivity.
Qed.

(** The loop of a container, as a function of its own. *)
Fixpoint loop (scope : option tref) (str : bool) (me : meth) (l : list mtree) (st : store)
  : outcome :=
  match l with
  | [] => ([], None, st)
  | ch :: l =>
      match set_mode ch (if str then CStr (name_of me) else CTensor (mode_of me)) st with
      | Err e => ([], Some e, st)
      | Ok st1 =>
          match dispatch scope ch st1 with
          | Err e => ([], Some e, st1)
          | Ok me' =>
              match run fails pick scope ch me' st1 with
              | (tr, Some e, st2) => (tr, Some e, st2)
              | (tr, None, st2) =>
                  match set_mode ch (own ch st) st2 with
                  | Err e => (tr, Some e, st2)
                  | Ok st3 =>
                      let '(tr', e, st4) := loop scope str me l st3 in
                      (tr ++ tr', e, st4)
                  end
              end
          end
      end
  end.

Lemma run_cont scope str i l me st :
  run fails pick scope (Cont str i l) me st = loop scope str me l st.
Proof.
  cbn [run]. revert st. induction l as [|ch l IH]; intros st; [reflexivity|].
  cbn [loop]. destruct (set_mode ch _ st) as [st1|]; [|reflexivity].
  destruct (dispatch scope ch st1) as [me'|]; [|reflexivity].
  destruct (run fails pick scope ch me' st1) as [[tr [e|]] st2]; [reflexivity|].
  destruct (set_mode ch (own ch st) st2) as [st3|]; [|reflexivity].
  rewrite IH. reflexivity.
Qed.

Lemma run_explicit m : forall me st, ok_for me m = true ->
  exists st', run fails pick None m me st = (map (ev me) (leaves pick m), None, st').
Proof.
  induction m as [i|i|s i l IH|i b0 b1 IH0 IH1] using mtree_rect'; intros me st H.
  - cbn in *. destruct (fails i me); [discriminate|]. eexists; reflexivity.
  - cbn in *. destruct (fails i me); [discriminate|]. eexists; reflexivity.
  - rewrite run_cont. cbn [CallSpec.ok_for leaves] in *. revert st.
    induction l as [|ch l IHl]; intros st; [eexists; reflexivity|].
    cbn [forallb] in H. apply andb_prop in H. destruct H as (Hc & Hl).
    apply andb_prop in Hc. destruct Hc as (Hc & Hs). apply negb_true_iff in Hs.
    inversion IH as [|? ? IHc IHr]; subst. cbn [loop flat_map].
    rewrite set_child by exact Hs. rewrite dispatch_set.
    destruct (IHc me (set_tensor ch (mode_of me) st) Hc) as (st2 & ->).
    rewrite set_own. destruct (IHl IHr Hl (restore ch (own ch st) st2)) as (st4 & ->).
    exists st4. rewrite map_app. reflexivity.
  - cbn [run leaves CallSpec.ok_for] in *. destruct me; [discriminate| |];
      apply andb_prop in H; destruct H as (H0 & H1); destruct (pick i);
      try (apply IH0; exact H0); (destruct b1 as [b1|]; [|eexists; reflexivity]);
      apply (IH1 b1); auto.
Qed.

(** With an active context, every call below runs the context's method. *)
Lemma dispatch_scope c m st : dispatch (Some (mode_of c)) m st = Ok c.
Proof. unfold dispatch, current. destruct m, c; reflexivity. Qed.

Lemma set_mode_child_any ch (str : bool) me st : exists st1,
  set_mode ch (if str then CStr (name_of me) else CTensor (mode_of me)) st = Ok st1.
Proof.
  destruct ch as [i|i|s i l|i b0 b1]; cbn [set_mode];
    destruct str; rewrite ?callmode_name; eexists; reflexivity.
Qed.

Lemma Ok_inj {A} (x y : A) : Ok x = Ok y -> x = y.
Proof. intros [= H]. exact H. Qed.

Lemma set_child_out ch (str : bool) me st st1 k : ~ In k (ids ch) ->
  set_mode ch (if str then CStr (name_of me) else CTensor (mode_of me)) st = Ok st1 ->
  get st1 k = get st k.
Proof.
  intros H E. destruct ch as [j|j|s' j l'|j c0 c1].
  2:{ cbn [set_mode] in E. injection E as <-. apply get_fs_other.
      intros ->. apply H. left. reflexivity. }
  all: rewrite set_child in E by (cbn; apply andb_false_r); apply Ok_inj in E; rewrite <- E;
    apply set_tensor_out; exact H.
Qed.

Lemma loop_scope c str me l : 
  Forall (fun m => forall st, quiet c m ->
    exists st', run fails pick (Some (mode_of c)) m c st
                = (map (ev c) (leaves pick m), None, st')) l ->
  forall st, Forall (fun i => fails i c = None) (flat_map (leaves pick) l) ->
  exists st', loop (Some (mode_of c)) str me l st
              = (map (ev c) (flat_map (leaves pick) l), None, st').
Proof.
  induction l as [|ch l IHl]; intros F st Q; [eexists; reflexivity|].
  inversion F as [|? ? Fc Fl]; subst. cbn [flat_map] in Q. apply Forall_app in Q.
  destruct Q as (Q1 & Q2). cbn [loop flat_map].
  destruct (set_mode_child_any ch str me st) as (st1 & ->).
  rewrite dispatch_scope. destruct (Fc st1 Q1) as (st2 & ->). rewrite set_own.
  destruct (IHl Fl (restore ch (own ch st) st2) Q2) as (st4 & ->).
  exists st4. rewrite map_app. reflexivity.
Qed.

Lemma run_scope c m : forall st, quiet c m ->
  exists st', run fails pick (Some (mode_of c)) m c st
              = (map (ev c) (leaves pick m), None, st').
Proof.
  induction m as [i|i|s i l IH|i b0 b1 IH0 IH1] using mtree_rect'; intros st Q.
  - cbn. unfold CallSpec.quiet in Q. cbn in Q. inversion Q as [|? ? E _]; subst. rewrite E.
    eexists; reflexivity.
  - cbn. unfold CallSpec.quiet in Q. cbn in Q. inversion Q as [|? ? E _]; subst. rewrite E.
    eexists; reflexivity.
  - rewrite run_cont. apply loop_scope; assumption.
  - unfold CallSpec.quiet in *. cbn [run leaves] in *. destruct (pick i).
    + destruct c; [rewrite (dispatch_scope Forward)| |]; apply IH0; exact Q.
    + destruct b1 as [b1|]; [|eexists; reflexivity].
      destruct c; [rewrite (dispatch_scope Forward)| |]; apply (IH1 b1); auto.
Qed.

Lemma call_scope c m st : quiet c m ->
  exists st', call fails pick (Some (mode_of c)) m st
              = (map (ev c) (leaves pick m), None, st').
Proof. intros Q. unfold call. rewrite dispatch_scope. apply run_scope. exact Q. Qed.

(** Even an explicitly named method of a container runs the context's method on
    every leaf. *)
Lemma run_cont_scope c me str i l st : quiet c (Cont str i l) ->
  exists st', run fails pick (Some (mode_of c)) (Cont str i l) me st
              = (map (ev c) (leaves pick (Cont str i l)), None, st').
Proof.
  intros Q. rewrite run_cont. apply loop_scope; [|exact Q].
  apply Forall_forall. intros m _ st0 Q0. apply run_scope. exact Q0.
Qed.

(** Assigning a mode and calling. *)
Lemma assign_call m s me st : is_fs m = false -> lower s = name_of me -> ok_for me m = true ->
  exists st1 st2, set_mode m (CStr s) st = Ok st1
    /\ call fails pick None m st1 = (map (ev me) (leaves pick m), None, st2).
Proof.
  intros Hf Hs Hok. exists (set_tensor m (mode_of me) st).
  destruct (run_explicit m me (set_tensor m (mode_of me) st) Hok) as (st2 & E).
  exists st2. split.
  - unfold set_mode. rewrite (callmode_any_case s me Hs). destruct m; try discriminate; reflexivity.
  - unfold call. rewrite dispatch_set. exact E.
Qed.

Lemma assign_reaches m s me st : is_fs m = false -> no_cond m = true -> lower s = name_of me ->
  exists st1, set_mode m (CStr s) st = Ok st1
    /\ (forall k, In k (ids m) -> get st1 k = CTensor (mode_of me))
    /\ (forall k, ~ In k (ids m) -> get st1 k = get st k).
Proof.
  intros Hf Hc Hs. exists (set_tensor m (mode_of me) st). split; [|split].
  - unfold set_mode. rewrite (callmode_any_case s me Hs). destruct m; try discriminate; reflexivity.
  - intros k. apply set_tensor_reach. exact Hc.
  - intros k. apply set_tensor_out.
Qed.

(** Restoring after a successful run. *)
Lemma run_out scope m : forall me st tr e st', run fails pick scope m me st = (tr, e, st') ->
  forall k, ~ In k (ids m) -> get st' k = get st k.
Proof.
  induction m as [i|i|s i l IH|i b0 b1 IH0 IH1] using mtree_rect'; intros me st tr e st' E k H.
  - cbn in E. injection E as _ _ <-. reflexivity.
  - cbn in E. injection E as _ _ <-. reflexivity.
  - rewrite run_cont in E. cbn [ids] in H.
    assert (Hl : ~ In k (flat_map ids l)) by (intros X; apply H; right; exact X). clear H.
    revert st tr e st' E. induction l as [|ch l IHl]; intros st tr e st' E.
    { cbn in E. injection E as _ _ <-. reflexivity. }
    inversion IH as [|? ? IHc IHr]; subst. cbn [flat_map] in Hl. rewrite in_app_iff in Hl.
    cbn [loop] in E.
    destruct (set_mode_child_any ch s me st) as (st1 & E1). rewrite E1 in E.
    assert (G1 : get st1 k = get st k).
    { apply (set_child_out ch s me st); [tauto|exact E1]. }
    destruct (dispatch scope ch st1) as [me'|].
    2:{ injection E as _ _ <-. exact G1. }
    destruct (run fails pick scope ch me' st1) as [[tr1 e1] st2] eqn:E2.
    assert (G2 : get st2 k = get st k).
    { rewrite (IHc _ _ _ _ _ E2) by tauto. exact G1. }
    destruct e1 as [e1|]; [injection E as _ _ <-; exact G2|].
    rewrite set_own in E.
    destruct (loop scope s me l (restore ch (own ch st) st2)) as [[tr4 e4] st4] eqn:E4.
    injection E as _ _ <-. rewrite (IHl IHr ltac:(tauto) _ _ _ _ E4).
    rewrite restore_out by tauto. exact G2.
  - cbn [run ids] in *.
    assert (H0 : ~ In k (ids b0)).
    { intros X. apply H. right. apply in_app_iff. left. exact X. }
    destruct (pick i).
    + destruct me; [destruct (dispatch scope b0 st)|..];
        try (apply (IH0 _ _ _ _ _ E _ H0)). injection E as _ _ <-. reflexivity.
    + destruct b1 as [b1|]; [|injection E as _ _ <-; reflexivity].
      assert (H1 : ~ In k (ids b1)).
      { intros X. apply H. right. apply in_app_iff. right. exact X. }
      destruct me; [destruct (dispatch scope b1 st)|..];
        try (apply (IH1 b1 eq_refl _ _ _ _ _ E _ H1)). injection E as _ _ <-. reflexivity.
Qed.

Lemma in_flat_child (l : list mtree) ch : In ch l -> forall k, In k (ids ch) -> In k (flat_map ids l).
Proof. intros H k Hk. apply in_flat_map. exists ch. auto. Qed.

Lemma loop_restores scope str me l : forall st tr st',
  NoDup (flat_map ids l) ->
  loop scope str me l st = (tr, None, st') ->
  (forall ch, In ch l -> get st' (key ch) = get st (key ch))
  /\ (forall ch k, In ch l -> no_cond ch = true -> In k (ids ch) -> get st' k = own ch st)
  /\ (forall k, ~ In k (flat_map ids l) -> get st' k = get st k).
Proof.
  induction l as [|ch l IH]; intros st tr st' ND E.
  { cbn in E. injection E as _ <-. split; [intros ? []|split; [intros ? ? []|reflexivity]]. }
  cbn [flat_map] in ND. cbn [loop] in E.
  destruct (set_mode_child_any ch str me st) as (st1 & E1). rewrite E1 in E.
  assert (G1 : forall k, ~ In k (ids ch) -> get st1 k = get st k).
  { intros k Hk. apply (set_child_out ch str me st); assumption. }
  destruct (dispatch scope ch st1) as [me'|]; [|discriminate].
  destruct (run fails pick scope ch me' st1) as [[tr1 e1] st2] eqn:E2.
  destruct e1 as [e1|]; [discriminate|]. rewrite set_own in E.
  destruct (loop scope str me l (restore ch (own ch st) st2)) as [[tr4 e4] st4] eqn:E4.
  injection E as _ -> <-.
  assert (ND2 : NoDup (flat_map ids l)).
  { revert ND. generalize (ids ch). intros x. induction x as [|a x IHx]; intros ND; [exact ND|].
    cbn in ND. inversion ND; subst. auto. }
  assert (Dis : forall k, In k (ids ch) -> ~ In k (flat_map ids l)).
  { revert ND. generalize (ids ch). intros x. induction x as [|a x IHx]; intros ND k; [intros []|].
    cbn in ND. inversion ND as [|? ? Ha Hx]; subst. intros [<-|Hk].
    - intros X. apply Ha. apply in_app_iff. right. exact X.
    - apply IHx; assumption. }
  destruct (IH _ _ _ ND2 E4) as (A & B & C).
  assert (R : forall k, ~ In k (ids ch) -> get (restore ch (own ch st) st2) k = get st k).
  { intros k Hk. rewrite restore_out by exact Hk. rewrite (run_out _ _ _ _ _ _ _ E2) by exact Hk.
    apply G1. exact Hk. }
  assert (Far : forall c k, In c l -> In k (ids c) -> ~ In k (ids ch)).
  { intros c k Hc Hk X. apply (Dis k X). apply (in_flat_child l c Hc k Hk). }
  split; [|split].
  - intros c [<-|Hc].
    + rewrite C by (apply Dis, key_in). rewrite restore_root. apply own_get.
    + rewrite (A c Hc). apply R. apply (Far c); [exact Hc|apply key_in].
  - intros c k [<-|Hc] Hn Hk.
    + rewrite C by (apply Dis; exact Hk). apply restore_reach; assumption.
    + rewrite (B c k Hc Hn Hk). rewrite !(own_get c). apply R.
      apply (Far c); [exact Hc|apply key_in].
  - intros k Hk. cbn [flat_map] in Hk. rewrite in_app_iff in Hk. rewrite C by tauto.
    apply R. tauto.
Qed.

Lemma run_restores scope str i l me st tr st' : NoDup (ids (Cont str i l)) ->
  run fails pick scope (Cont str i l) me st = (tr, None, st') ->
  get st' (false, i) = get st (false, i)
  /\ (forall ch, In ch l -> own ch st' = own ch st)
  /\ (forall ch k, In ch l -> no_cond ch = true -> In k (ids ch) -> get st' k = own ch st)
  /\ (forall k, ~ In k (ids (Cont str i l)) -> get st' k = get st k).
Proof.
  intros ND E. rewrite run_cont in E. cbn [ids] in ND. inversion ND as [|? ? Hi ND']; subst.
  destruct (loop_restores _ _ _ _ _ _ _ ND' E) as (A & B & C).
  split; [apply C; exact Hi|]. split; [|split].
  - intros ch Hc. rewrite !own_get. apply A. exact Hc.
  - exact B.
  - intros k Hk. apply C. intros X. apply Hk. right. exact X.
Qed.

(** If below each child all modes agree, nothing changes at all. *)
Lemma run_uniform scope str i l me st tr st' : NoDup (ids (Cont str i l)) ->
  no_cond (Cont str i l) = true ->
  (forall ch k, In ch l -> In k (ids ch) -> get st k = own ch st) ->
  run fails pick scope (Cont str i l) me st = (tr, None, st') ->
  forall k, get st' k = get st k.
Proof.
  intros ND NC U E k. destruct (run_restores _ _ _ _ _ _ _ _ ND E) as (A & _ & B & C).
  cbn [no_cond] in NC. rewrite forallb_forall in NC.
  assert (dec : forall x y : bool * nat, {x = y} + {x <> y})
    by (decide equality; [apply Nat.eq_dec|apply bool_dec]).
  destruct (in_dec dec k (ids (Cont str i l))) as [H|H]; [|apply C; exact H].
  cbn [ids] in H. destruct H as [<-|H]; [exact A|].
  apply in_flat_map in H. destruct H as (ch & Hc & Hk).
  rewrite (B ch k Hc (NC ch Hc) Hk). symmetry. apply U; assumption.
Qed.

(** ** Programs *)

Notation EX := (exec fails pick).
Notation EXS := (execs fails pick).
Notation LX := (exec_lex fails pick).
Notation LXS := (execs_lex fails pick).

Lemma exec_with v b c st : EX (SWith v b) c st =
  match ctx_call v c with
  | (Err e, c) => ([], Some e, c, st)
  | (Ok _, c) => let '(tr, e, c, st) := EXS b c st in (tr, e, ctx_exit c, st)
  end.
Proof. reflexivity. Qed.

Lemma exec_try b c st : EX (STry b) c st =
  let '(tr, _, c, st) := EXS b c st in (tr, None, c, st).
Proof. reflexivity. Qed.

Lemma lex_with scope v b st : LX scope (SWith v b) st =
  match callmode v with Ok t => LXS (Some t) b st | Err e => ([], Some e, st) end.
Proof. reflexivity. Qed.

Lemma lex_try scope b st : LX scope (STry b) st =
  let '(tr, _, st) := LXS scope b st in (tr, None, st).
Proof. reflexivity. Qed.

Definition put_ctx (c : ctx) (o : outcome) : xstate :=
  let '(tr, e, st) := o in (tr, e, c, st).

(** Without with statements, the context stays and counts throughout. *)
Lemma exec_no_with s : no_with s = true -> forall c st,
  EX s c st = put_ctx c (LX (effective c) s st).
Proof.
  induction s as [m|m me|m v|v b IH|e|b IH] using stmt_ind'; intros N c st.
  - cbn. destruct (call _ _ _ m st) as [[? ?] ?]. reflexivity.
  - cbn. destruct (invoke _ _ _ m me st) as [[? ?] ?]. reflexivity.
  - cbn. destruct (set_mode m v st); reflexivity.
  - discriminate.
  - reflexivity.
  - rewrite exec_try, lex_try. cbn [no_with] in N.
    assert (A : forall st, EXS b c st = put_ctx c (LXS (effective c) b st)).
    { clear st. induction b as [|s b IHb]; intros st; [reflexivity|].
      cbn [forallb] in N. apply andb_prop in N. destruct N as (N1 & N2).
      inversion IH as [|? ? I1 I2]; subst. cbn [execs execs_lex]. rewrite I1 by exact N1.
      destruct (LX (effective c) s st) as [[tr [e|]] st1]; cbn [put_ctx]; [reflexivity|].
      rewrite (IHb I2 N2). destruct (LXS _ b st1) as [[? ?] ?]. reflexivity. }
    rewrite A. destruct (LXS _ b st) as [[? ?] ?]. reflexivity.
Qed.

Lemma execs_no_with b : forallb no_with b = true -> forall c st,
  EXS b c st = put_ctx c (LXS (effective c) b st).
Proof.
  induction b as [|s b IH]; intros N c st; [reflexivity|].
  cbn [forallb] in N. apply andb_prop in N. destruct N as (N1 & N2). cbn [execs execs_lex].
  rewrite exec_no_with by exact N1.
  destruct (LX (effective c) s st) as [[tr [e|]] st1]; cbn [put_ctx]; [reflexivity|].
  rewrite (IH N2). destruct (LXS _ b st1) as [[? ?] ?]. reflexivity.
Qed.

(** Flat programs, from a clean context: lexical scoping. *)
Lemma exec_flat t s : flat s = true -> forall st,
  EX s (Ctx (Some t) None) st = put_ctx (Ctx (Some t) None) (LX None s st).
Proof.
  induction s as [m|m me|m v|v b IH|e|b IH] using stmt_ind'; intros N st.
  - cbn. destruct (call _ _ _ m st) as [[? ?] ?]. reflexivity.
  - cbn. destruct (invoke _ _ _ m me st) as [[? ?] ?]. reflexivity.
  - cbn. destruct (set_mode m v st); reflexivity.
  - rewrite exec_with, lex_with. cbn [flat] in N. unfold ctx_call.
    destruct (callmode v) as [tv|]; [|discriminate].
    rewrite execs_no_with by exact N. cbn [effective prev cur].
    destruct (LXS _ b st) as [[? ?] ?]. reflexivity.
  - reflexivity.
  - rewrite exec_try, lex_try. cbn [flat] in N.
    assert (A : forall st, EXS b (Ctx (Some t) None) st
                           = put_ctx (Ctx (Some t) None) (LXS None b st)).
    { clear st. induction b as [|s b IHb]; intros st; [reflexivity|].
      cbn [forallb] in N. apply andb_prop in N. destruct N as (N1 & N2).
      inversion IH as [|? ? I1 I2]; subst. cbn [execs execs_lex]. rewrite I1 by exact N1.
      destruct (LX None s st) as [[tr [e|]] st1]; cbn [put_ctx]; [reflexivity|].
      rewrite (IHb I2 N2). destruct (LXS _ b st1) as [[? ?] ?]. reflexivity. }
    rewrite A. destruct (LXS _ b st) as [[? ?] ?]. reflexivity.
Qed.

Lemma execs_flat t b : forallb flat b = true -> forall st,
  EXS b (Ctx (Some t) None) st = put_ctx (Ctx (Some t) None) (LXS None b st).
Proof.
  induction b as [|s b IH]; intros N st; [reflexivity|].
  cbn [forallb] in N. apply andb_prop in N. destruct N as (N1 & N2). cbn [execs execs_lex].
  rewrite exec_flat by exact N1.
  destruct (LX None s st) as [[tr [e|]] st1]; cbn [put_ctx]; [reflexivity|].
  rewrite (IH N2). destruct (LXS _ b st1) as [[? ?] ?]. reflexivity.
Qed.

(** Nesting. *)
Lemma exec_nested t v1 t1 b0 v2 t2 b1 b2 st :
  callmode v1 = Ok t1 -> callmode v2 = Ok t2 ->
  forallb no_with b0 = true -> forallb no_with b1 = true -> forallb no_with b2 = true ->
  EX (SWith v1 (b0 ++ SWith v2 b1 :: b2)) (Ctx (Some t) None) st
  = let '(tr0, e0, st0) := LXS (Some t1) b0 st in
    match e0 with
    | Some e => (tr0, Some e, Ctx (Some t) None, st0)
    | None =>
        let '(tr1, e1, st1) := LXS (Some t2) b1 st0 in
        match e1 with
        | Some e => (tr0 ++ tr1, Some e, Ctx None None, st1)
        | None =>
            let '(tr2, e2, st2) := LXS None b2 st1 in
            (tr0 ++ tr1 ++ tr2, e2, Ctx None None, st2)
        end
    end.
Proof.
  intros V1 V2 N0 N1 N2. rewrite exec_with. unfold ctx_call at 1. rewrite V1. cbn [cur].
  assert (App : forall a c st b, EXS (a ++ b) c st =
    match EXS a c st with
    | (tr, Some e, c, st) => (tr, Some e, c, st)
    | (tr, None, c, st) => let '(tr', e, c, st) := EXS b c st in (tr ++ tr', e, c, st)
    end).
  { clear. induction a as [|s a IH]; intros c st b; cbn [app execs].
    - destruct (EXS b c st) as [[[? ?] ?] ?]. reflexivity.
    - destruct (EX s c st) as [[[tr [e|]] c1] st1]; [reflexivity|]. rewrite IH.
      destruct (EXS a c1 st1) as [[[tr1 [e|]] c2] st2]; [reflexivity|].
      destruct (EXS b c2 st2) as [[[tr2 e] c3] st3]. rewrite app_assoc. reflexivity. }
  rewrite App, execs_no_with by exact N0. cbn [effective prev cur].
  destruct (LXS (Some t1) b0 st) as [[tr0 [e0|]] st0]; [reflexivity|]. cbn [put_ctx].
  cbn [execs]. rewrite exec_with. unfold ctx_call. rewrite V2. cbn [cur].
  rewrite execs_no_with by exact N1. cbn [effective prev cur].
  destruct (LXS (Some t2) b1 st0) as [[tr1 [e1|]] st1]; cbn [put_ctx ctx_exit prev].
  { reflexivity. }
  rewrite execs_no_with by exact N2.
  change (effective (ctx_exit _)) with (@None tref).
  destruct (LXS None b2 st1) as [[tr2 e2] st2]. cbn [put_ctx]. reflexivity.
Qed.

(** Once the context is broken, with statements have no effect. *)
Notation dead := (Ctx None None).

Lemma drop_flat_app s : flat_map drop_with [s] = drop_with s.
Proof. cbn. apply app_nil_r. Qed.

Lemma lexs_app scope a : forall st b, LXS scope (a ++ b) st =
  match LXS scope a st with
  | (tr, Some e, st) => (tr, Some e, st)
  | (tr, None, st) => let '(tr', e, st) := LXS scope b st in (tr ++ tr', e, st)
  end.
Proof.
  induction a as [|s a IH]; intros st b; cbn [app execs_lex].
  - destruct (LXS scope b st) as [[? ?] ?]. reflexivity.
  - destruct (LX scope s st) as [[tr [e|]] st1]; [reflexivity|]. rewrite IH.
    destruct (LXS scope a st1) as [[tr1 [e|]] st2]; [reflexivity|].
    destruct (LXS scope b st2) as [[tr2 e] st3]. rewrite app_assoc. reflexivity.
Qed.

Lemma drop_no_with b : forallb no_with b = true -> forall scope st,
  LXS scope (flat_map drop_with b) st = LXS scope b st.
Proof.
  assert (one : forall s, no_with s = true -> forall scope st,
    LXS scope (drop_with s) st = LXS scope [s] st).
  { induction s as [m|m me|m v|v b' IH|e|b' IH] using stmt_ind'; intros N scope st; try reflexivity.
    - discriminate.
    - cbn [drop_with execs_lex]. rewrite !lex_try. cbn [no_with] in N.
      assert (A : forall st, LXS scope (flat_map drop_with b') st = LXS scope b' st).
      { clear st. induction b' as [|s b' IHb]; intros st; [reflexivity|].
        cbn [forallb] in N. apply andb_prop in N. destruct N as (N1 & N2).
        inversion IH as [|? ? I1 I2]; subst. cbn [flat_map]. rewrite lexs_app, I1 by exact N1.
        cbn [execs_lex]. destruct (LX scope s st) as [[tr [e|]] st1]; [reflexivity|].
        rewrite (IHb I2 N2), app_nil_r. reflexivity. }
      rewrite A. reflexivity. }
  induction b as [|s b IH]; intros N scope st; [reflexivity|].
  cbn [forallb] in N. apply andb_prop in N. destruct N as (N1 & N2).
  cbn [flat_map]. rewrite lexs_app, one by exact N1. cbn [execs_lex].
  destruct (LX scope s st) as [[tr [e|]] st1]; [reflexivity|].
  rewrite (IH N2), app_nil_r. reflexivity.
Qed.

Lemma exec_dead s : flat s = true -> forall st,
  EX s dead st = put_ctx dead (LXS None (drop_with s) st).
Proof.
  induction s as [m|m me|m v|v b IH|e|b IH] using stmt_ind'; intros N st.
  - cbn. destruct (call _ _ _ m st) as [[? [?|]] ?]; rewrite ?app_nil_r; reflexivity.
  - cbn. destruct (invoke _ _ _ m me st) as [[? [?|]] ?]; rewrite ?app_nil_r; reflexivity.
  - cbn. destruct (set_mode m v st); reflexivity.
  - rewrite exec_with. cbn [drop_with flat] in *. unfold ctx_call.
    destruct (callmode v) as [tv|]; [|discriminate].
    rewrite execs_no_with by exact N. cbn [effective prev cur].
    rewrite drop_no_with by exact N. destruct (LXS _ b st) as [[? ?] ?]. reflexivity.
  - reflexivity.
  - rewrite exec_try. cbn [drop_with execs_lex]. rewrite lex_try. cbn [flat] in N.
    assert (A : forall st, EXS b dead st
                           = put_ctx dead (LXS None (flat_map drop_with b) st)).
    { clear st. induction b as [|s b IHb]; intros st; [reflexivity|].
      cbn [forallb] in N. apply andb_prop in N. destruct N as (N1 & N2).
      inversion IH as [|? ? I1 I2]; subst. cbn [execs flat_map]. rewrite I1 by exact N1.
      rewrite lexs_app.
      destruct (LXS None (drop_with s) st) as [[tr [e|]] st1]; cbn [put_ctx]; [reflexivity|].
      rewrite (IHb I2 N2). destruct (LXS _ _ st1) as [[? ?] ?]. reflexivity. }
    rewrite A. destruct (LXS _ _ st) as [[tr e] st1]. cbn. rewrite app_nil_r. reflexivity.
Qed.

Lemma execs_dead b : forallb flat b = true -> forall st,
  EXS b dead st = put_ctx dead (LXS None (flat_map drop_with b) st).
Proof.
  induction b as [|s b IH]; intros N st; [reflexivity|].
  cbn [forallb] in N. apply andb_prop in N. destruct N as (N1 & N2). cbn [execs flat_map].
  rewrite exec_dead by exact N1. rewrite lexs_app.
  destruct (LXS None (drop_with s) st) as [[tr [e|]] st1]; cbn [put_ctx]; [reflexivity|].
  rewrite (IH N2). destruct (LXS _ _ st1) as [[? ?] ?]. reflexivity.
Qed.

(** A wrong mode. *)
Lemma exec_bad t v e b st : callmode v = Err e ->
  EX (SWith v b) (Ctx (Some t) None) st = ([], Some e, Ctx (Some t) (Some t), st).
Proof. intros H. rewrite exec_with. unfold ctx_call. rewrite H. reflexivity. Qed.

Lemma execs_stuck t b : forallb no_with b = true -> forall st,
  EXS b (Ctx (Some t) (Some t)) st = put_ctx (Ctx (Some t) (Some t)) (LXS (Some t) b st).
Proof. intros N st. apply (execs_no_with b N (Ctx (Some t) (Some t)) st). Qed.

End Runs.

Lemma callmode_iff s t :
  callmode (CStr s) = Ok t <-> exists me, lower s = name_of me /\ t = mode_of me.
Proof.
  split; [apply callmode_only|]. intros (me & H & ->). apply callmode_any_case. exact H.
Qed.

Lemma cond_keeps i b0 b1 t st k :
  k <> (false, i) -> get (set_tensor (Cond i b0 b1) t st) k = get st k.
Proof. intros H. apply get_co_other. exact H. Qed.

Lemma conditional_forward : exists m st,
  no_cond m = false
  /\ fst (fst (run (fun _ _ => None) (fun _ => true) None m Forward st)) = [(1, Step)]
  /\ map (ev Forward) (leaves (fun _ => true) m) = [(1, Forward)].
Proof.
  exists (Cond 0 (CoLeaf 1) None), (St (fun _ => mode_of Step) (fun _ => CTensor (mode_of Step))).
  repeat split; reflexivity.
Qed.

Lemma flat_from_init fails pick b st : forallb flat b = true ->
  execs fails pick b ctx_init st
  = let '(tr, e, st') := execs_lex fails pick None b st in (tr, e, ctx_init, st').
Proof. intros H. apply (execs_flat fails pick (mode_of Forward) b H st). Qed.

Lemma bad_mode_sticks fails pick v e b b' st :
  callmode v = Err e -> forallb no_with b' = true ->
  execs fails pick (STry [SWith v b] :: b') ctx_init st
  = let '(tr, e', st') := execs_lex fails pick (Some (mode_of Forward)) b' st in
    (tr, e', Ctx (Some (mode_of Forward)) (Some (mode_of Forward)), st').
Proof.
  intros H N. cbn [execs]. rewrite exec_try. cbn [execs]. unfold ctx_init.
  rewrite (exec_bad fails pick _ _ _ _ _ H). cbv beta iota.
  rewrite execs_stuck by exact N. destruct (execs_lex _ _ _ b' st) as [[tr e'] st'].
  reflexivity.
Qed.

Lemma foreign_tensor fails pick m t st : is_fs m = false -> 3 <= t_id t ->
  exists st1, set_mode m (CTensor t) st = Ok st1
    /\ call fails pick None m st1 = ([], Some KeyError, st1).
Proof.
  intros Hf Ht. exists (set_tensor m t st). split.
  - destruct m; try discriminate; reflexivity.
  - unfold call, dispatch, current. rewrite own_get, set_tensor_root.
    destruct t as [[|[|[|n]]] v]; cbn in Ht; try lia. destruct m; try discriminate; reflexivity.
Qed.

Lemma int_raises m n st : is_fs m = false -> set_mode m (CInt n) st = Err RuntimeError.
Proof. destruct m; try discriminate; reflexivity. Qed.

Lemma string_mode_raises fails pick i j l me st :
  exists st', run fails pick None (Cont true i (FsLeaf j :: l)) me st = ([], Some KeyError, st')
    /\ get st' (true, j) = CStr (name_of me).
Proof.
  rewrite run_cont. cbn [loop set_mode].
  eexists. split; [unfold dispatch; cbn [current own fs]; rewrite upd_same; reflexivity|].
  cbn. apply upd_same.
Qed.

Lemma grandchild_clobbered : exists m st k,
  NoDup (ids m) /\ no_cond m = true /\ In k (ids m)
  /\ snd (fst (run (fun _ _ => None) (fun _ => true) None m Forward st)) = None
  /\ get (snd (run (fun _ _ => None) (fun _ => true) None m Forward st)) k <> get st k.
Proof.
  exists (Cont false 0 [Cont false 1 [CoLeaf 2]]),
    (St (fun i => if Nat.eqb i 2 then mode_of Step else mode_of Forward)
        (fun _ => CTensor (mode_of Forward))), (false, 2).
  split; [repeat constructor; cbn; intuition congruence|].
  split; [reflexivity|]. split; [cbn; auto|]. split; [reflexivity|]. cbn. discriminate.
Qed.

Lemma failing_child fails pick str i j l me e st : fails j me = Some e ->
  exists st', run fails pick None (Cont str i (CoLeaf j :: l)) me st = ([(j, me)], Some e, st')
    /\ get st' (false, j) = CTensor (mode_of me).
Proof.
  intros H. rewrite run_cont. cbn [loop]. rewrite set_child by (cbn; apply andb_false_r).
  rewrite dispatch_set. cbn [run]. rewrite H. eexists. split; [reflexivity|].
  apply (set_tensor_root (mode_of me) (CoLeaf j) st).
Qed.

(** Forward of a forward_stepping module. *)
Lemma fs_forward fails pick i me st : fs st i = CTensor (mode_of me) ->
  invoke fails pick None (FsLeaf i) Forward st = ([(i, me)], fails i me, st).
Proof. intros H. unfold invoke, call, dispatch. cbn [current own]. rewrite H. destruct me; reflexivity. Qed.
Lemma fs_forward_scope fails pick i me st :
  invoke fails pick (Some (mode_of me)) (FsLeaf i) Forward st = ([(i, me)], fails i me, st).
Proof. destruct me; reflexivity. Qed.
Lemma fs_copied fails pick i t st : fs st i = CTensor t -> 3 <= t_id t ->
  call fails pick None (FsLeaf i) st
  = if Z.eqb (t_val t) 0 then ([(i, Forward)], fails i Forward, st) else ([], Some KeyError, st).
Proof.
  intros H Ht. unfold call, dispatch. cbn [current own]. rewrite H. destruct (Z.eqb (t_val t) 0); [reflexivity|].
  cbn [lookup]. destruct (t_id t) as [|[|[|n]]]; try lia. reflexivity.
Qed.
