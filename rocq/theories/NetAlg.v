(** Networks: reported properties, nesting, and BroadcastReduce as a Sequential. *)
From Coq Require Import List ZArith Bool Arith Lia ZifyBool ZifyNat.
From Verif Require Import Base Frames CoMod Leaf Rnn Net Spec LeafSpec NetSpec NetOk Calls NetDef NetCore.
Import ListNotations.

Section NetAlg.
Context {F : Type} {FA : Frames F} {FL : FrameLaws F}.
Implicit Types m : md F.
Implicit Types ms a b c : list (md F).

(* ------------------------------------------------------------------ *)
(** ** Closed forms *)

Lemma weighted_cons f m t : weighted f (m :: t) = (f m + strd m * weighted f t)%Z.
Proof.
  unfold weighted. cbn [length seq map fold_right firstn nth].
  rewrite Z.mul_1_l. f_equal. rewrite <- seq_shift, map_map.
  set (g := fun i => (fold_right Z.mul 1 (map strd (firstn i t)) * f (nth i t (MSeq [])))%Z).
  transitivity (fold_right Z.add 0%Z (map (fun i => (strd m * g i)%Z) (seq 0 (length t)))).
  - f_equal. apply map_ext. intros i. unfold g. cbn [firstn map fold_right nth]. lia.
  - generalize (seq 0 (length t)). intros l. induction l as [|i l IH]; cbn [map fold_right]; [lia|]. rewrite IH. lia.
Qed.

Theorem seq_strd ms : strd (MSeq ms) = fold_right Z.mul 1%Z (map strd ms).
Proof. induction ms as [|m t IH]; [reflexivity|]. rewrite strd_cons, IH. reflexivity. Qed.

Theorem seq_rf ms : rfield (MSeq ms) = (1 + weighted (fun m => (rfield m - 1)%Z) ms)%Z.
Proof. induction ms as [|m t IH]; [reflexivity|]. rewrite rfield_cons, IH, weighted_cons. lia. Qed.

Theorem seq_padg ms : padg (MSeq ms) = weighted padg ms.
Proof. induction ms as [|m t IH]; [reflexivity|]. rewrite padg_cons, IH, weighted_cons. lia. Qed.

Lemma weighted_ext f g ms : (forall m, In m ms -> f m = g m) -> weighted f ms = weighted g ms.
Proof.
  induction ms as [|m t IH]; intros H; [reflexivity|]. rewrite !weighted_cons, H, IH; [reflexivity| |left; auto].
  intros; apply H; right; auto.
Qed.

Lemma weighted_sub f g ms : (weighted f ms - weighted g ms = weighted (fun m => f m - g m) ms)%Z.
Proof. induction ms as [|m t IH]; [reflexivity|]. rewrite !weighted_cons. lia. Qed.

Theorem seq_delay sh ms : (forall m, In m ms -> net sh m) -> del (MSeq ms) = weighted del ms.
Proof.
  intros H. rewrite seq_del, seq_rf, seq_padg.
  replace (1 + weighted (fun m => rfield m - 1) ms - 1 - weighted padg ms)%Z
    with (weighted (fun m => rfield m - 1) ms - weighted padg ms)%Z by lia.
  rewrite weighted_sub. apply weighted_ext. intros m Hm. destruct (net_core sh m (H m Hm)) as [_ []]. lia.
Qed.

(* ------------------------------------------------------------------ *)
(** ** Nesting *)

Lemma weighted_app f a b : weighted f (a ++ b) = (weighted f a + fold_right Z.mul 1 (map strd a) * weighted f b)%Z.
Proof.
  induction a as [|m a IH]; [cbn [app map fold_right]; change (weighted f []) with 0%Z; lia|].
  cbn [app map fold_right]. rewrite !weighted_cons, IH. lia.
Qed.

Lemma prod_app (a b : list Z) : fold_right Z.mul 1%Z (a ++ b) = (fold_right Z.mul 1 a * fold_right Z.mul 1 b)%Z.
Proof. induction a as [|x a IH]; cbn [app fold_right]; [lia|]. rewrite IH. lia. Qed.

Theorem nest_reports a b c :
  let m := MSeq (a ++ MSeq b :: c) in let m' := MSeq (a ++ b ++ c) in
  strd m = strd m' /\ padg m = padg m' /\ rfield m = rfield m' /\ del m = del m'.
Proof.
  cbv zeta. assert (S : strd (MSeq (a ++ MSeq b :: c)) = strd (MSeq (a ++ b ++ c))).
  { rewrite !seq_strd, !map_app, !prod_app. cbn [map fold_right]. rewrite seq_strd. lia. }
  assert (P : padg (MSeq (a ++ MSeq b :: c)) = padg (MSeq (a ++ b ++ c))).
  { rewrite !seq_padg, !weighted_app, weighted_cons, seq_padg, seq_strd. lia. }
  assert (R : rfield (MSeq (a ++ MSeq b :: c)) = rfield (MSeq (a ++ b ++ c))).
  { rewrite !seq_rf, !weighted_app, weighted_cons, seq_rf, seq_strd. lia. }
  rewrite !seq_del, P, R, S. auto.
Qed.

Lemma seq_step_app call b c v : b <> [] -> seq_step (F:=F) call (b ++ c) v
  = bind (seq_step call b v) (fun p => if is_none (fst p) then Ok (VNone, snd p ++ c)
       else bind (seq_step call c (fst p)) (fun q => Ok (fst q, snd p ++ snd q))).
Proof.
  revert v. induction b as [|m b IH]; intros v Hb; [congruence|]. cbn [app seq_step].
  destruct (call m v) as [[v1 m1]|]; [|reflexivity]. cbn [bind]. destruct (is_none v1) eqn:E; cbn [bind fst snd is_none app]; [reflexivity|].
  destruct b as [|m' b'].
  - cbn [app seq_step bind fst snd]. rewrite E. destruct (seq_step call c v1) as [[? ?]|]; reflexivity.
  - rewrite IH by discriminate. destruct (seq_step call (m' :: b') v1) as [[v2 t2]|]; [|reflexivity]. cbn [bind fst snd].
    destruct (is_none v2); [reflexivity|]. destruct (seq_step call c v2) as [[? ?]|]; reflexivity.
Qed.

Lemma seq_steps_app call b c v : seq_steps (F:=F) call (b ++ c) v
  = bind (seq_steps call b v) (fun p => bind (seq_steps call c (fst p)) (fun q => Ok (fst q, snd p ++ snd q))).
Proof.
  revert v. induction b as [|m b IH]; intros v; cbn [app seq_steps].
  - cbn [bind fst snd app]. destruct (seq_steps call c v) as [[? ?]|]; reflexivity.
  - destruct (stops v) eqn:E; cbn [bind fst snd].
    + rewrite seq_steps_none. reflexivity.
    + destruct (call m v) as [[v1 m1]|]; [|reflexivity]. cbn [bind]. rewrite IH.
      destruct (seq_steps call b v1) as [[v2 t2]|]; [|reflexivity]. cbn [bind fst snd].
      destruct (seq_steps call c v2) as [[? ?]|]; reflexivity.
Qed.

Lemma seq_fwd_app call b c (v : val F) : seq_fwd call (b ++ c) v = bind (seq_fwd call b v) (seq_fwd call c).
Proof.
  revert v. induction b as [|m b IH]; intros v; [reflexivity|]. cbn [app seq_fwd].
  destruct (call m v); [|reflexivity]. cbn [bind]. apply IH.
Qed.

Lemma seq_step_len call ms v w ms' : seq_step (F:=F) call ms v = Ok (w, ms') -> length ms' = length ms.
Proof.
  revert v w ms'. induction ms as [|m t IH]; intros v w ms'; cbn [seq_step]; [congruence|].
  destruct (call m v) as [[v1 m1]|]; [|discriminate]. cbn [bind]. destruct (is_none v1); [intros [= <- <-]; reflexivity|].
  destruct (seq_step call t v1) as [[v2 t2]|] eqn:E; [|discriminate]. cbn [bind]. intros [= <- <-].
  simpl. f_equal. eauto.
Qed.
Lemma seq_steps_len call ms v w ms' : seq_steps (F:=F) call ms v = Ok (w, ms') -> length ms' = length ms.
Proof.
  revert v w ms'. induction ms as [|m t IH]; intros v w ms'; cbn [seq_steps]; [congruence|].
  destruct (stops v); [congruence|].
  destruct (call m v) as [[v1 m1]|]; [|discriminate]. cbn [bind].
  destruct (seq_steps call t v1) as [[v2 t2]|] eqn:E; [|discriminate]. cbn [bind]. intros [= <- <-].
  simpl. f_equal. eauto.
Qed.

(** Two results that differ only in the grouping of the children. *)
Definition regroup (a b c : list (md F)) (r r' : res (val F * md F)) : Prop :=
  (exists e, r = Err e /\ r' = Err e) \/
  (exists w a' b' c', r = Ok (w, MSeq (a' ++ MSeq b' :: c')) /\ r' = Ok (w, MSeq (a' ++ b' ++ c')) /\
     length a' = length a /\ length b' = length b /\ length c' = length c).

Lemma len_ne {A B} (l : list A) (k : list B) : length l = length k -> k <> [] -> l <> [].
Proof. destruct l, k; simpl; congruence. Qed.

Theorem nest_step a b c v upd : b <> [] ->
  regroup a b c (step (MSeq (a ++ MSeq b :: c)) v upd) (step (MSeq (a ++ b ++ c)) v upd).
Proof.
  intros Hb. cbn [step]. set (call := fun m v => step m v upd).
  assert (G : (exists e, seq_step call (a ++ MSeq b :: c) v = Err e /\ seq_step call (a ++ b ++ c) v = Err e) \/
    (exists w a' b' c', seq_step call (a ++ MSeq b :: c) v = Ok (w, a' ++ MSeq b' :: c') /\
       seq_step call (a ++ b ++ c) v = Ok (w, a' ++ b' ++ c') /\ length a' = length a /\ length b' = length b /\ length c' = length c)).
  { revert v. induction a as [|m a IH]; intros v.
    - cbn [app seq_step]. change (call (MSeq b) v) with (bind (seq_step call b v) (fun p => let '(w, ms') := p in Ok (w, MSeq ms'))).
      rewrite seq_step_app by auto. destruct (seq_step call b v) as [[w b']|e] eqn:E; cbn [bind fst snd]; [|left; eauto].
      pose proof (seq_step_len _ _ _ _ _ E) as Lb. destruct (is_none w).
      + right. exists VNone, [], b', c. auto.
      + destruct (seq_step call c w) as [[w2 c']|e] eqn:E2; cbn [bind fst snd]; [|left; eauto].
        pose proof (seq_step_len _ _ _ _ _ E2). right. exists w2, [], b', c'. auto.
    - cbn [app seq_step]. destruct (call m v) as [[v1 m1]|e]; cbn [bind]; [|left; eauto].
      destruct (is_none v1); [right; exists VNone, (m1 :: a), b, c; simpl; auto|].
      destruct (IH v1) as [(e & -> & ->)|(w & a' & b' & c' & -> & -> & L1 & L2 & L3)]; cbn [bind]; [left; eauto|].
      right. exists w, (m1 :: a'), b', c'. simpl. auto. }
  destruct G as [(e & -> & ->)|(w & a' & b' & c' & -> & -> & L)]; [left; exists e; auto|].
  right. exists w, a', b', c'. cbn [bind]. auto.
Qed.

Theorem nest_steps a b c v pe upd : b <> [] ->
  regroup a b c (steps (MSeq (a ++ MSeq b :: c)) v pe upd) (steps (MSeq (a ++ b ++ c)) v pe upd).
Proof.
  intros Hb. cbn [steps]. set (call := fun m v => steps m v pe upd).
  assert (G : (exists e, seq_steps call (a ++ MSeq b :: c) v = Err e /\ seq_steps call (a ++ b ++ c) v = Err e) \/
    (exists w a' b' c', seq_steps call (a ++ MSeq b :: c) v = Ok (w, a' ++ MSeq b' :: c') /\
       seq_steps call (a ++ b ++ c) v = Ok (w, a' ++ b' ++ c') /\ length a' = length a /\ length b' = length b /\ length c' = length c)).
  { revert v. induction a as [|m a IH]; intros v.
    - cbn [app]. cbn [seq_steps]. destruct (stops v) eqn:Es.
      + right. exists VNone, [], b, c. repeat split. destruct b as [|b0 bt]; [congruence|].
        cbn [app seq_steps]. rewrite Es. reflexivity.
      + change (call (MSeq b) v) with (bind (seq_steps call b v) (fun p => let '(w, ms') := p in Ok (w, MSeq ms'))).
        rewrite seq_steps_app. destruct (seq_steps call b v) as [[w b']|e] eqn:E; cbn [bind fst snd]; [|left; eauto].
        pose proof (seq_steps_len _ _ _ _ _ E) as Lb.
        destruct (seq_steps call c w) as [[w2 c']|e] eqn:E2; cbn [bind fst snd]; [|left; eauto].
        pose proof (seq_steps_len _ _ _ _ _ E2). right. exists w2, [], b', c'. auto.
    - cbn [app seq_steps]. destruct (stops v); [right; exists VNone, (m :: a), b, c; simpl; auto|].
      destruct (call m v) as [[v1 m1]|e]; cbn [bind]; [|left; eauto].
      destruct (IH v1) as [(e & -> & ->)|(w & a' & b' & c' & -> & -> & L1 & L2 & L3)]; cbn [bind]; [left; eauto|].
      right. exists w, (m1 :: a'), b', c'. simpl. auto. }
  destruct G as [(e & -> & ->)|(w & a' & b' & c' & -> & -> & L)]; [left; exists e; auto|].
  right. exists w, a', b', c'. cbn [bind]. auto.
Qed.

Theorem nest_fwd a b c v : fwd (MSeq (a ++ MSeq b :: c)) v = fwd (MSeq (a ++ b ++ c)) v.
Proof.
  cbn [fwd]. rewrite !seq_fwd_app. destruct (seq_fwd fwd a v) as [w|]; [|reflexivity]. cbn [bind].
  cbn [seq_fwd]. change (fwd (MSeq b) w) with (seq_fwd fwd b w). rewrite seq_fwd_app. reflexivity.
Qed.

(** Histories of calls. *)
Theorem nest_calls cs : forall a b c, b <> [] ->
  (exists e, run_calls (MSeq (a ++ MSeq b :: c)) cs = Err e /\ run_calls (MSeq (a ++ b ++ c)) cs = Err e) \/
  (exists ws m m', run_calls (MSeq (a ++ MSeq b :: c)) cs = Ok (ws, m) /\ run_calls (MSeq (a ++ b ++ c)) cs = Ok (ws, m')).
Proof.
  induction cs as [|cl cs IH]; intros a b c Hb; [right; exists [], (MSeq (a ++ MSeq b :: c)), (MSeq (a ++ b ++ c)); auto|].
  cbn [run_calls].
  assert (G : regroup a b c (do_call (MSeq (a ++ MSeq b :: c)) cl) (do_call (MSeq (a ++ b ++ c)) cl)).
  { destruct cl; cbn [do_call].
    - now apply nest_step.
    - now apply nest_steps.
    - rewrite nest_fwd. destruct (fwd (MSeq (a ++ b ++ c)) v) as [w|e]; cbn [bind]; [right|left; eauto].
      exists w, a, b, c. auto.
    - right. exists VNone, (map clean a), (map clean b), (map clean c). cbn [clean]. rewrite !map_app, !map_length. auto. }
  destruct G as [(e & -> & ->)|(w & a' & b' & c' & -> & -> & L1 & L2 & L3)]; cbn [bind]; [left; eauto|].
  destruct (IH a' b' c') as [(e & -> & ->)|(ws & m & m' & -> & ->)]; [eapply len_ne; eauto| |]; cbn [bind]; [left; eauto|right; eauto].
Qed.

(* ------------------------------------------------------------------ *)
(** ** BroadcastReduce as Sequential(Broadcast, Parallel, Reduce) *)

Lemma par_run_repeat call ms (v : val F) : par_run call ms (repeat v (length ms)) = br_run call ms v.
Proof.
  induction ms as [|m t IH]; [reflexivity|]. cbn [length repeat par_run br_run].
  destruct (call m v) as [[? ?]|]; [|reflexivity]. cbn [bind]. rewrite IH. reflexivity.
Qed.
Lemma par_fwd_repeat call ms (v : val F) : par_fwd call ms (repeat v (length ms)) = br_fwd call ms v.
Proof.
  induction ms as [|m t IH]; [reflexivity|]. cbn [length repeat par_fwd br_fwd].
  destruct (call m v); [|reflexivity]. cbn [bind]. rewrite IH. reflexivity.
Qed.
Lemma br_run_len call ms v vs ms' : br_run (F:=F) call ms v = Ok (vs, ms') -> length vs = length ms /\ length ms' = length ms.
Proof.
  revert vs ms'. induction ms as [|m t IH]; intros vs ms'; cbn [br_run]; [intros [= <- <-]; auto|].
  destruct (call m v) as [[? ?]|]; [|discriminate]. cbn [bind].
  destruct (br_run call t v) as [[vt mt]|]; [|discriminate]. cbn [bind]. intros [= <- <-].
  destruct (IH vt mt eq_refl). simpl. auto.
Qed.



Definition map_obj (r : res (val F * md F)) : res (val F * md F) := bind r (fun p => Ok (fst p, as_seq (snd p))).

Theorem br_seq_step ms r v upd : ms <> [] -> step (as_seq (MBR ms r)) v upd = map_obj (step (MBR ms r) v upd).
Proof.
  intros Hms. unfold map_obj, as_seq at 1. cbn [step]. cbn [seq_step step broadcast_val bind is_none].
  rewrite par_run_repeat. destruct (br_run (fun m v => step m v upd) ms v) as [[vs ms']|] eqn:E; [|reflexivity].
  destruct (br_run_len _ _ _ _ _ E) as [L1 L2]. cbn [bind is_none reduce_step].
  destruct (if forallb is_tensor vs then reduce_vals r vs else Ok VNone) as [w|]; [|reflexivity].
  cbn [bind fst snd as_seq]. rewrite L2. destruct (is_none w) eqn:Ew; cbn [bind]; [destruct w; try discriminate|]; reflexivity.
Qed.

Theorem br_seq_steps ms r xs pe upd : ms <> [] ->
  steps (as_seq (MBR ms r)) (VS xs) pe upd = map_obj (steps (MBR ms r) (VS xs) pe upd).
Proof.
  intros Hms. unfold map_obj, as_seq at 1. cbn [steps]. cbn [seq_steps steps broadcast_val]. change (stops (VS xs)) with false. cbn [bind].
  destruct ms as [|m0 mt] eqn:Em; [congruence|]. rewrite <- Em in *. 
  assert (Hs : stops (VL (repeat (VS xs) (length ms))) = false) by (rewrite Em; reflexivity).
  rewrite Hs. rewrite par_run_repeat. destruct (br_run (fun m v => steps m v pe upd) ms (VS xs)) as [[vs ms']|] eqn:E; [|reflexivity].
  destruct (br_run_len _ _ _ _ _ E) as [L1 L2]. cbn [bind reduce_fwd].
  assert (Hv : stops (VL vs) = false) by (destruct vs; [rewrite Em in L1; discriminate|reflexivity]). rewrite Hv.
  destruct (reduce_vals r vs) as [w|]; [|reflexivity]. cbn [bind fst snd as_seq]. rewrite L2. reflexivity.
Qed.

Theorem br_seq_fwd ms r v : fwd (as_seq (MBR ms r)) v = fwd (MBR ms r) v.
Proof.
  unfold as_seq. cbn [fwd]. cbn [seq_fwd fwd broadcast_val bind]. rewrite par_fwd_repeat.
  destruct (br_fwd fwd ms v); [|reflexivity]. cbn [bind reduce_fwd]. destruct (reduce_vals _ _); reflexivity.
Qed.

Lemma br_step_shape ms r v upd w m' : step (F:=F) (MBR ms r) v upd = Ok (w, m') -> exists ms', m' = MBR ms' r /\ length ms' = length ms.
Proof.
  cbn [step]. destruct (br_run _ ms v) as [[vs ms']|] eqn:E; [|discriminate]. cbn [bind].
  destruct (if forallb is_tensor vs then reduce_vals r vs else Ok VNone); [|discriminate]. cbn [bind]. intros [= <- <-]. apply br_run_len in E as [_ L]. eauto.
Qed.
Lemma br_steps_shape ms r v pe upd w m' : steps (F:=F) (MBR ms r) v pe upd = Ok (w, m') -> exists ms', m' = MBR ms' r /\ length ms' = length ms.
Proof.
  cbn [steps]. destruct (br_run _ ms v) as [[vs ms']|] eqn:E; [|discriminate]. cbn [bind].
  destruct (reduce_vals r vs); [|discriminate]. cbn [bind]. intros [= <- <-]. apply br_run_len in E as [_ L]. eauto.
Qed.

Theorem br_seq_calls cs : forall ms r, ms <> [] ->
  forallb clip_call cs = true ->
  run_calls (as_seq (MBR ms r)) cs = bind (run_calls (MBR ms r) cs) (fun p => Ok (fst p, as_seq (snd p))).
Proof.
  induction cs as [|cl cs IH]; intros ms r Hms Hcs; [reflexivity|]. cbn [forallb] in Hcs. apply andb_prop in Hcs as [Hc Hcs].
  cbn [run_calls].
  assert (G : do_call (as_seq (MBR ms r)) cl = map_obj (do_call (MBR ms r) cl)).
  { destruct cl as [v u|v pe u|v|]; cbn [do_call].
    - now apply br_seq_step.
    - destruct v; try discriminate. now apply br_seq_steps.
    - rewrite br_seq_fwd. unfold map_obj. destruct (fwd (MBR ms r) v); reflexivity.
    - unfold map_obj. cbn. rewrite map_length. reflexivity. }
  rewrite G. unfold map_obj.
  assert (Hsh : forall w m', do_call (MBR ms r) cl = Ok (w, m') -> exists ms', m' = MBR ms' r /\ length ms' = length ms).
  { intros w m'. destruct cl; cbn [do_call].
    - apply br_step_shape.
    - apply br_steps_shape.
    - destruct (fwd (MBR ms r) v); [|discriminate]. cbn [bind]. intros [= <- <-]. eauto.
    - intros [= <- <-]. cbn. eexists. split; [reflexivity|]. apply map_length. }
  destruct (do_call (MBR ms r) cl) as [[w m']|]; [|reflexivity]. cbn [bind fst snd].
  destruct (Hsh w m' eq_refl) as (ms' & -> & L). rewrite IH; [|eapply len_ne; eauto|auto].
  destruct (run_calls (MBR ms' r) cs) as [[ws m2]|]; reflexivity.
Qed.

(** The constructors correspond. *)
Theorem br_seq_make ms r auto m : mk_br ms r auto = Ok m ->
  exists p, mk_par ms auto = Ok p /\ mk_seq [MBroadcast None; p; MReduce r] = as_seq m.
Proof.
  unfold mk_br, mk_par. destruct (Nat.leb_spec (length ms) 1); [discriminate|].
  replace (auto && match ms with [] => true | _ => false end) with false by (destruct ms; [simpl in *; lia|destruct auto; reflexivity]).
  destruct (same_stride _) eqn:E; [|discriminate]. intros [= <-]. eexists. split; [reflexivity|]. reflexivity.
Qed.

Theorem br_seq_reports sh ms r auto m : (forall x, In x ms -> net sh x) -> aligned ms auto -> mk_br ms r auto = Ok m ->
  same_len (branches m) ->
  rfield (as_seq m) = rfield m /\ padg (as_seq m) = padg m /\ strd (as_seq m) = strd m /\ del (as_seq m) = del m.
Proof.
  intros H1 H2 H3 H4. destruct (net_core sh m (net_br sh ms r auto m H1 H2 H3 H4)) as [_ [_ _ _ _ Hd Hrf Hp]].
  destruct (mk_br_inv _ _ _ _ H3) as (Em & _). revert Hd Hrf. rewrite Em. intros Hd Hrf. unfold as_seq.
  set (ms' := if auto then auto_delay ms else ms) in *.
  assert (R : rfield (MSeq [MBroadcast (Some (length ms')); MPar ms'; MReduce r]) = rfield (MBR ms' r)).
  { rewrite !rfield_cons. cbn [rfield strd map rev]. destruct ms'; cbn [strd]; lia. }
  assert (P : padg (MSeq [MBroadcast (Some (length ms')); MPar ms'; MReduce r]) = padg (MBR ms' r)).
  { rewrite !padg_cons. cbn [padg strd map]. lia. }
  split; [auto|]. split; [auto|]. split.
  - rewrite !strd_cons. cbn [strd map fold_left]. destruct ms'; lia.
  - rewrite seq_del, R, P. lia.
Qed.

End NetAlg.
