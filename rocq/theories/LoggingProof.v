From Coq Require Import List Bool ZArith Lia Arith.
From Verif Require Import Base Logging LoggingSpec.
Import ListNotations.

Section Proofs.
Context {M : Type}.
Variable hash : M -> option Z.
Notation call := (call hash).
Notation emitted := (emitted hash).
Notation firsts := (firsts hash).

Definition sub (a b : list Z) : Prop := forall h, In h a -> In h b.

(** The innermost memory, and that outer memories are parts of inner ones. *)
Fixpoint inner (ws : list wrapper) : option (list Z) :=
  match ws with
  | [] => None
  | RankZero :: ws => inner ws
  | Once mem :: ws => match inner ws with Some k => Some k | None => Some mem end
  end.
Fixpoint nested (ws : list wrapper) : Prop :=
  match ws with
  | [] => True
  | RankZero :: ws => nested ws
  | Once mem :: ws => nested ws /\ match inner ws with Some k => sub mem k | None => True end
  end.

Lemma mem_In h l : existsb (Z.eqb h) l = true <-> In h l.
Proof.
  rewrite existsb_exists. split.
  - intros (x & Hx & E). apply Z.eqb_eq in E. now subst.
  - intros H. exists h. rewrite Z.eqb_refl. auto.
Qed.

Lemma call_spec : forall ws m h, hash m = Some h -> nested ws ->
  let '(ws', out, err) := call 0 ws m in
  nested ws' /\ err = false /\
  match inner ws with
  | None => inner ws' = None /\ out = true
  | Some k =>
      out = negb (existsb (Z.eqb h) k) /\
      exists k', inner ws' = Some k' /\ sub k k' /\ (forall j, In j k' <-> j = h \/ In j k)
  end.
Proof.
  induction ws as [|w ws IH]; intros m h E N.
  - cbn. auto.
  - destruct w as [mem|].
    + cbn [call]. cbn [Logging.call]. rewrite E. cbn in N. destruct N as [N S].
      destruct (existsb (Z.eqb h) mem) eqn:B.
      * apply mem_In in B. cbn [nested inner]. split; [auto|]. split; [reflexivity|].
        destruct (inner ws) as [k|].
        -- assert (Hk : In h k) by auto. split; [symmetry; apply negb_false_iff, mem_In; auto|].
           exists k. split; [auto|]. split; [intros j; auto|]. intros j. split; auto. intros [->|?]; auto.
        -- split; [symmetry; apply negb_false_iff, mem_In; auto|].
           exists mem. split; [auto|]. split; [intros j; auto|]. intros j. split; auto. intros [->|?]; auto.
      * specialize (IH m h E N). destruct (Logging.call hash 0 ws m) as [[ws' out] err].
        destruct IH as (N' & -> & I). cbn [nested inner]. split; [|split; auto].
        -- split; auto. destruct (inner ws) as [k|].
           ++ destruct I as (_ & k' & -> & S1 & S2). intros j [<-|Hj]; apply S2; auto.
           ++ destruct I as (-> & _). auto.
        -- destruct (inner ws) as [k|].
           ++ destruct I as (Ho & k' & -> & S1 & S2). split; auto. exists k'. auto.
           ++ destruct I as (-> & ->). split; [rewrite B; reflexivity|].
              exists (h :: mem). split; auto. split; [intros j Hj; right; auto|].
              intros j. cbn. intuition.
    + cbn [Logging.call Nat.eqb]. specialize (IH m h E N).
      destruct (Logging.call hash 0 ws m) as [[ws' out] err]. exact IH.
Qed.

Lemma call_unhashable : forall ws m, hash m = None ->
  call 0 ws m = (ws, match inner ws with Some _ => false | None => true end,
                     match inner ws with Some _ => true | None => false end).
Proof.
  induction ws as [|w ws IH]; intros m E; auto. destruct w as [mem|]; cbn [Logging.call Nat.eqb inner].
  - rewrite E. destruct (inner ws); reflexivity.
  - rewrite IH by auto. reflexivity.
Qed.

(** First occurrences relative to keys seen before. *)
Fixpoint fk (seen : Z -> bool) (l : list M) : list M :=
  match l with
  | [] => []
  | m :: l =>
      match hash m with
      | None => fk seen l
      | Some h =>
          if seen h then fk seen l
          else m :: fk (fun j => Z.eqb j h || seen j) l
      end
  end.

Lemma fk_ext : forall l s1 s2, (forall h, s1 h = s2 h) -> fk s1 l = fk s2 l.
Proof.
  induction l as [|m l IH]; intros s1 s2 E; auto. cbn. destruct (hash m) as [h|]; auto.
  rewrite E. destruct (s2 h); auto. f_equal. apply IH. intros j. now rewrite E.
Qed.

Lemma firsts_fk_gen : forall l pre,
  flat_map (fun i => match nth_error (pre ++ l) i with
                     | Some m => if has_key hash m && negb (existsb (same_key hash m) (firstn i (pre ++ l)))
                                 then [m] else []
                     | None => [] end) (seq (length pre) (length l))
  = fk (fun h => existsb (fun m => match hash m with Some j => Z.eqb h j | None => false end) pre) l.
Proof.
  induction l as [|m l IH]; intros pre; auto. cbn [length seq flat_map].
  rewrite nth_error_app2 by lia. rewrite Nat.sub_diag. cbn [nth_error].
  rewrite firstn_app, Nat.sub_diag, firstn_all. cbn [firstn]. rewrite app_nil_r.
  specialize (IH (pre ++ [m])). rewrite app_length in IH. cbn [length] in IH.
  rewrite Nat.add_1_r in IH. rewrite <- app_assoc in IH. cbn [app] in IH. rewrite IH. clear IH.
  cbn [fk]. unfold has_key, same_key. destruct (hash m) as [h|] eqn:E; cbn [andb].
  - destruct (existsb (fun b => match hash b with Some j => (h =? j)%Z | None => false end) pre) eqn:B;
      cbn [negb app].
    + apply fk_ext. intros j. rewrite existsb_app. cbn. rewrite E, orb_false_r.
      destruct (Z.eqb_spec j h) as [->|]; rewrite ?B, ?orb_false_r; auto.
    + f_equal. apply fk_ext. intros j. rewrite existsb_app. cbn. rewrite E, orb_false_r. apply orb_comm.
  - cbn [app]. apply fk_ext. intros j. rewrite existsb_app. cbn. rewrite E. cbn. now rewrite orb_false_r.
Qed.

Lemma firsts_fk l : firsts l = fk (fun _ => false) l.
Proof. unfold LoggingSpec.firsts. exact (firsts_fk_gen l []). Qed.

Lemma emitted_fk : forall l ws k, nested ws -> inner ws = Some k ->
  emitted 0 ws l = fk (fun h => existsb (Z.eqb h) k) (logs l).
Proof.
  induction l as [|e l IH]; intros ws k N I; auto. destruct e as [b|m].
  - cbn [Logging.emitted logs flat_map app]. apply IH.
    + destruct b; cbn; auto. rewrite I. split; auto. intros j [].
    + destruct b; cbn; auto. now rewrite I.
  - cbn [Logging.emitted logs flat_map app fk]. fold (logs l). destruct (hash m) as [h|] eqn:E.
    + pose proof (call_spec ws m h E N) as C. destruct (Logging.call hash 0 ws m) as [[ws' out] err].
      destruct C as (N' & _ & C). rewrite I in C. destruct C as (Ho & k' & I' & _ & S).
      rewrite (IH _ _ N' I'). rewrite Ho. destruct (existsb (Z.eqb h) k) eqn:B; cbn [negb app].
      * apply fk_ext. intros j. apply eq_true_iff_eq. rewrite !mem_In, S. apply mem_In in B.
        split; auto. intros [->|?]; auto.
      * f_equal. apply fk_ext. intros j. apply eq_true_iff_eq.
        rewrite mem_In, S, orb_true_iff, mem_In, Z.eqb_eq. reflexivity.
    + rewrite call_unhashable, I by auto. cbn [app]. apply IH; auto.
Qed.

Lemma emitted_plain : forall l ws, nested ws -> inner ws = None -> no_once l ->
  forall r, emitted 0 ws (l ++ r) = logs l ++ emitted 0 (fold_left (fun ws e =>
     match e with Get b => get_logger b ws | Log _ => ws end) l ws) r.
Proof.
  induction l as [|e l IH]; intros ws N I H r; auto. destruct e as [b|m].
  - destruct b; [exfalso; apply H; left; reflexivity|]. cbn [app Logging.emitted logs flat_map fold_left].
    rewrite IH; auto. intros HH. apply H. now right.
  - cbn [app Logging.emitted logs flat_map fold_left]. fold (logs l).
    assert (C : call 0 ws m = (ws, true, false)).
    { clear - I. induction ws as [|w ws IHw]; auto. destruct w; cbn in I.
      - destruct (inner ws); discriminate.
      - cbn. now rewrite IHw. }
    rewrite C. cbn [app]. f_equal. apply IH; auto. intros HH. apply H. now right.
Qed.

Lemma logger_emits pre rest : no_once pre ->
  emitted 0 [] (pre ++ Get true :: rest) = logs pre ++ firsts (logs rest).
Proof.
  intros H. rewrite emitted_plain by (cbn; auto). f_equal. cbn [Logging.emitted].
  assert (G : forall (l : list (@event M)) ws, no_once l -> nested ws -> inner ws = None ->
    let ws' := fold_left (fun ws e => match e with Get b => get_logger b ws | Log _ => ws end) l ws in
    nested ws' /\ inner ws' = None).
  { clear. induction l as [|e l IH]; intros ws H N I; cbn; auto.
    assert (H' : no_once l) by (intros HH; apply H; now right).
    destruct e as [[|]|m]; [exfalso; apply H; left; reflexivity| |]; apply IH; auto. }
  destruct (G pre [] H I eq_refl) as [N I]. rewrite firsts_fk.
  erewrite emitted_fk with (k := []).
  - apply fk_ext. reflexivity.
  - cbn. rewrite I. auto.
  - cbn. now rewrite I.
Qed.

(** Other processes emit nothing and raise nothing. *)
Lemma other_rank : forall l ws r, r <> 0 ->
  emitted r (RankZero :: ws) l = [] /\ raised hash r (RankZero :: ws) l = [].
Proof.
  induction l as [|e l IH]; intros ws r H; auto. destruct e as [b|m].
  - cbn [Logging.emitted raised]. apply IH. auto.
  - cbn [Logging.emitted raised Logging.call].
    destruct (Nat.eqb_spec r 0); [contradiction|]. cbn. auto.
Qed.

Lemma logger_other_rank pre b rest r : r <> 0 -> no_get pre ->
  emitted r [] (pre ++ Get b :: rest) = logs pre /\
  raised hash r [] (pre ++ Get b :: rest) = [].
Proof.
  intros H N. induction pre as [|e pre IH].
  - cbn [app Logging.emitted raised]. now apply other_rank.
  - destruct e as [b'|m]; [exfalso; apply (N b'); left; reflexivity|].
    cbn [app Logging.emitted raised Logging.call logs flat_map].
    destruct IH as [IH1 IH2]; [intros b' HH; apply (N b'); now right|].
    split; [now f_equal | exact IH2].
Qed.

(** Firsts, if different messages have different hashes. *)
Lemma fk_In : forall l seen m, In m (fk seen l) ->
  In m l /\ exists h, hash m = Some h /\ seen h = false.
Proof.
  induction l as [|a l IH]; intros seen m H; [contradiction|]. cbn in H.
  destruct (hash a) as [h|] eqn:E.
  - destruct (seen h) eqn:S.
    + apply IH in H. intuition.
    + destruct H as [<-|H]; [cbn; eauto|]. apply IH in H. destruct H as (H1 & j & H2 & H3).
      apply orb_false_iff in H3. cbn. intuition eauto.
  - apply IH in H. intuition.
Qed.

Lemma fk_complete : forall l seen m h, In m l -> hash m = Some h -> seen h = false ->
  exists m', In m' (fk seen l) /\ hash m' = Some h.
Proof.
  induction l as [|a l IH]; intros seen m h H E S; [contradiction|]. cbn.
  destruct H as [->|H].
  - rewrite E, S. exists m. cbn. auto.
  - destruct (hash a) as [j|] eqn:Ea; [|eauto]. destruct (seen j) eqn:Sj; [eauto|].
    destruct (Z.eqb_spec h j) as [->|Hn].
    + exists a. cbn. auto.
    + destruct (IH (fun i => Z.eqb i j || seen i) m h H E) as (m' & H1 & H2).
      * cbn. rewrite S, orb_false_r. now apply Z.eqb_neq.
      * exists m'. cbn. auto.
Qed.

Lemma fk_NoDup : forall l seen, NoDup (fk seen l).
Proof.
  induction l as [|a l IH]; intros seen; cbn; [constructor|].
  destruct (hash a) as [j|] eqn:E; auto. destruct (seen j); auto. constructor; auto.
  intros H. apply fk_In in H. destruct H as (_ & h & E2 & S). rewrite E in E2. injection E2 as <-.
  rewrite Z.eqb_refl in S. discriminate.
Qed.

Lemma firsts_distinct l :
  (forall m, In m l -> hash m <> None) ->
  (forall a b, In a l -> In b l -> hash a = hash b -> a = b) ->
  NoDup (firsts l) /\ forall m, In m (firsts l) <-> In m l.
Proof.
  intros Hh Hi. rewrite firsts_fk. split; [apply fk_NoDup|]. intros m. split.
  - intros H. now apply fk_In in H.
  - intros H. destruct (hash m) as [h|] eqn:E; [|exfalso; eapply Hh; eauto].
    destruct (fk_complete l (fun _ => false) m h H E eq_refl) as (m' & H1 & H2).
    assert (m' = m) as ->; auto. apply Hi; auto; [now apply fk_In in H1 | congruence].
Qed.

Lemma raised_unhashable : forall l ws k, nested ws -> inner ws = Some k ->
  raised hash 0 ws l = filter (fun m => negb (has_key hash m)) (logs l).
Proof.
  induction l as [|e l IH]; intros ws k N I; auto. destruct e as [b|m].
  - cbn [raised logs flat_map app]. apply (IH _ k).
    + destruct b; cbn; auto. rewrite I. split; auto. intros j [].
    + destruct b; cbn; auto. now rewrite I.
  - cbn [raised logs flat_map app filter]. fold (logs l). unfold has_key at 1.
    destruct (hash m) as [h|] eqn:E.
    + pose proof (call_spec ws m h E N) as C. destruct (Logging.call hash 0 ws m) as [[ws' out] err].
      destruct C as (N' & -> & C). rewrite I in C. destruct C as (_ & k' & I' & _).
      cbn [negb app]. now apply (IH _ k').
    + rewrite call_unhashable, I by auto. cbn [negb app]. f_equal. now apply (IH _ k).
Qed.

Lemma logger_raises rest :
  raised hash 0 (get_logger true []) rest = filter (fun m => negb (has_key hash m)) (logs rest).
Proof. apply (raised_unhashable _ _ []); cbn; auto. Qed.

End Proofs.

Lemma collision {M} (hash : M -> option Z) a b k :
  hash a = Some k -> hash b = Some k ->
  emitted hash 0 [] [Get true; Log a; Log b] = [a].
Proof. intros Ha Hb. cbn. rewrite Ha. cbn. rewrite Hb. cbn. rewrite Z.eqb_refl. reflexivity. Qed.

(** Integer arguments -1 and -2. *)
Lemma minus_one_two th level msg pre post :
  emitted (log_hash th) 0 []
    [Get true; Log (level, msg, pre ++ (-1)%Z :: post); Log (level, msg, pre ++ (-2)%Z :: post)]
  = [(level, msg, pre ++ (-1)%Z :: post)].
Proof.
  eapply collision; [reflexivity|]. unfold log_hash. now rewrite !map_app.
Qed.

Lemma logger_distinct : forall (M : Type) (hash : M -> option Z) rest,
  (forall m, In m (logs rest) -> hash m <> None) ->
  (forall a b, In a (logs rest) -> In b (logs rest) -> hash a = hash b -> a = b) ->
  NoDup (emitted hash 0 [] (Get true :: rest)) /\
  forall m, In m (emitted hash 0 [] (Get true :: rest)) <-> In m (logs rest).
Proof.
  intros M hash rest H1 H2.
  pose proof (@logger_emits M hash [] rest (fun H => H)) as E.
  cbn [app logs flat_map] in E. rewrite E. apply (firsts_distinct hash _ H1 H2).
Qed.
