(** Statements about networks in the form used by the property files. *)
From Coq Require Import List ZArith Bool Arith Lia ZifyBool ZifyNat.
From Verif Require Import Base Frames CoMod Leaf Rnn Net Spec LeafSpec Ring LeafProof LeafMore NetSpec NetOk Calls NetProps NetDef NetCore NetFwd NetPad NetAcc NetAlg NetFun NetRes NetLen.
Import ListNotations.
Ltac Zify.zify_post_hook ::= Z.div_mod_to_equations.

Section NetThm.
Context {F : Type} {FA : Frames F} {FL : FrameLaws F}.
Implicit Types m : md F.
Implicit Types ms : list (md F).

(* ------------------------------------------------------------------ *)
(** ** Reachable states *)

Lemma ok_cond_free m : ok m -> cond_free m.
Proof.
  induction m using md_ind'; cbn [ok cond_free]; try tauto.
  - rewrite !allP_Forall. intros Ho. rewrite Forall_forall in *. auto.
  - intros [Ho _]. rewrite allP_Forall in *. rewrite Forall_forall in *. auto.
Qed.

Lemma reach_ok sh m0 cs : net sh m0 -> forall ws m, run_calls m0 cs = Ok (ws, m) ->
  forallb stream_call cs = true -> ok m.
Proof.
  intros Hn. destruct (net_core sh m0 Hn) as [_ []].
  assert (G : forall cs m, ok m -> clean m = m0 -> forall ws m', run_calls m cs = Ok (ws, m') ->
     forallb stream_call cs = true -> ok m').
  { clear cs. induction cs as [|c cs IH]; intros m Ho Hcl ws m' E Hs; cbn [run_calls] in E.
    - injection E as <- <-. auto.
    - cbn [forallb] in Hs. apply andb_prop in Hs as [Hc Hs].
      destruct (do_call m c) as [[w m1]|] eqn:Ec; [|discriminate]. cbn [bind] in E.
      destruct (run_calls m1 cs) as [[ws1 m2]|] eqn:E2; [|discriminate]. cbn [bind] in E. injection E as <- <-.
      assert (Hcf : cond_free m) by (apply ok_cond_free; auto).
      assert (Q : ok m1 /\ clean m1 = m0).
      { assert (E3 : run_calls m [c] = Ok ([w], m1)) by (cbn [run_calls]; rewrite Ec; reflexivity).
        destruct (clean_run [c] m Hcf _ _ E3) as [Hcl1 _]. split; [|congruence].
        destruct c as [v upd|v pe upd|v|]; cbn [do_call] in Ec.
        - destruct upd.
          + destruct v as [|x| |]; try discriminate. destruct (nstep_good m x Ho) as (y & m2' & En & _ & Ho1 & _).
            unfold nstep in En. rewrite Ec in En. cbn [bind] in En. assert (m1 = m2') as -> by (destruct w; congruence). auto.
          + apply peek_step in Ec. now subst.
        - destruct upd.
          + destruct v as [| |[|x0 xt]|], pe; try discriminate. set (xs := x0 :: xt) in *. assert (Hx : xs <> []) by discriminate.
            destruct (steps_good m Ho xs Hx) as (ys & m2' & E5 & E6 & _).
            destruct (feed_good xs m Ho) as (ys2 & m3 & E7 & Ho3 & _). assert (m1 = m3) as -> by congruence. auto.
          + apply peek_steps in Ec; auto. now subst.
        - destruct (fwd m v); [|discriminate]. cbn [bind] in Ec. injection Ec as <- <-. auto.
        - injection Ec as <- <-. rewrite Hcl. auto. }
      destruct Q. eapply (IH m1); eauto. }
  intros ws m E Hs. eapply (G cs m0); eauto. now apply clean_fresh.
Qed.

Theorem chunking sh m0 cs0 ws m cs cs' :
  net sh m0 -> run_calls m0 cs0 = Ok (ws, m) -> forallb stream_call cs0 = true ->
  (forall c, In c cs -> frames c <> []) -> (forall c, In c cs' -> frames c <> []) ->
  concat (map frames cs) = concat (map frames cs') ->
  exists ys m', run_chunks m cs = Ok (ys, m') /\ run_chunks m cs' = Ok (ys, m').
Proof.
  intros Hn E Hs H1 H2 Hc. pose proof (reach_ok sh m0 cs0 Hn ws m E Hs) as Ho.
  destruct (chunks_agree cs cs' m Ho H1 H2 Hc) as (ys & m' & E1 & E2 & _). eauto.
Qed.

(* ------------------------------------------------------------------ *)
(** ** Schedule, receptive field, length *)

Theorem net_pattern sh m xs : net sh m ->
  exists ys m', feed (nstep true) m xs = Ok (ys, m') /\
    map is_some ys = map (emits (Z.to_nat (del m)) (Z.to_nat (strd m))) (seq 0 (length xs)).
Proof.
  intros Hn. destruct (net_core sh m Hn) as [_ []].
  destruct (feed_good xs m inv_ok) as (ys & m' & E & _ & _ & Hp). exists ys, m'. split; [auto|].
  rewrite Hp, pat_emits0 by (apply per_pos; auto). rewrite inv_del, inv_strd, !Nat2Z.id. reflexivity.
Qed.

Theorem net_memory sh m a a' b : net sh m -> rnn_free m -> length a = length a' ->
  (rfield m <= Z.of_nat (length b))%Z -> b <> [] ->
  exists ys ys' y m1 m1', feed (nstep true) m (a ++ b) = Ok (ys ++ [y], m1) /\
    feed (nstep true) m (a' ++ b) = Ok (ys' ++ [y], m1').
Proof.
  intros Hn Hr Hl Hb Hne. destruct (net_core sh m Hn) as [Hc []].
  destruct (core_rf sh m a a' b Hc Hr Hl) as (ys & m1 & ys' & m1' & E1 & E2 & Hs & L).
  pose proof (feed_length _ _ _ _ _ E2) as L'. rewrite app_length in L'.
  assert (length b <> 0) by (destruct b; [congruence|discriminate]).
  destruct (exists_last (l := ys)) as (u & y & ->); [intros ->; simpl in L; lia|].
  destruct (exists_last (l := ys')) as (u' & y' & ->); [intros ->; simpl in L'; lia|].
  rewrite app_length in L, L'. simpl in L, L'.
  set (R := length a + Z.to_nat (padg m) + ph m) in *.
  assert (HR : R <= length u /\ R <= length u') by (subst R; lia).
  rewrite !skipn_app in Hs. replace (R - length u) with 0 in Hs by lia. replace (R - length u') with 0 in Hs by lia.
  cbn [skipn] in Hs. apply app_inj_tail in Hs as [_ ->]. do 5 eexists. eauto.
Qed.

Theorem regular_len sh m xs ys : regular sh m -> xs <> [] -> nfwd m xs = Ok ys ->
  Z.of_nat (length ys) = ((Z.of_nat (length xs) + 2 * padg m - rfield m) / strd m + 1)%Z.
Proof. intros H Hx E. apply (regular_net sh m H); auto. Qed.

Theorem regular_is_net sh m : regular sh m -> net sh m.
Proof. apply regular_net. Qed.

Theorem chain_length m xs ys : chain m -> xs <> [] -> nfwd m xs = Ok ys ->
  Z.of_nat (length ys) = ((Z.of_nat (length xs) + 2 * padg m - rfield m) / strd m + 1)%Z.
Proof. intros H Hx E. apply (chain_len m H); auto. Qed.

Theorem net_accepts sh m : net sh m -> forall L, exists N, forall xs, N <= length xs ->
  exists ys, nfwd m xs = Ok ys /\ L <= length ys.
Proof. intros Hn. eapply core_accepts, net_core; eauto. Qed.

Theorem net_pad_end_mid m xs1 xs2 zs os m1 : net false m -> xs2 <> [] ->
  nfwd m (xs1 ++ xs2) = Ok zs -> feed (nstep true) m xs1 = Ok (os, m1) ->
  (Z.to_nat (del m) + Z.to_nat (strd m) <= length xs2) ->
  exists m2 rest, steps m1 (VS xs2) true true = Ok (of_clip (stack_outs rest), m2) /\ somes os ++ rest = zs.
Proof.
  intros Hn Hx E Ef Hl. destruct (net_core false m Hn) as [Hc []].
  eapply (core_fin m Hc xs1 xs2); eauto. right.
  assert (G : forall xs m m' os, ok m -> feed (nstep true) m xs = Ok (os, m') -> ph m' <= Nat.max (ph m) (per m - 1) /\ ok m').
  { clear. induction xs as [|x xs IH]; intros m m' os Ho Ef; cbn [feed] in Ef.
    - injection Ef as <- <-. split; [lia|auto].
    - destruct (nstep_good m x Ho) as (y & m1 & E1 & _ & Ho1 & Hp & _ & Hph). rewrite E1 in Ef. cbn [bind] in Ef.
      destruct (feed (nstep true) m1 xs) as [[ys m2]|] eqn:E2; [|discriminate]. cbn [bind] in Ef. injection Ef as <- <-.
      destruct (IH _ _ _ Ho1 E2) as [I1 I2]. split; [|auto]. rewrite Hph, Hp in I1.
      unfold nxt in I1. pose proof (per_pos m Ho). destruct (ph m); simpl in I1; lia. }
  destruct (G _ _ _ _ inv_ok Ef) as [G1 _]. pose proof (per_pos m inv_ok). lia.
Qed.

(* ------------------------------------------------------------------ *)
(** ** pad_end and update_state *)

Definition leaf m : Prop :=
  match m with
  | MDelay _ _ _ _ | MSkip _ _ | MConv _ _ | MPool _ _ | MMap _ | MRnn _ _ => True
  | _ => False
  end.

Lemma co_pe_state {Ob St} (get : Ob -> option St) set (fs : F -> option St -> res (option F * option St)) mk pad o xs upd w o' :
  co_forward_steps get set fs mk pad o xs true upd = Ok (w, o') ->
  exists w', co_forward_steps get set fs mk pad o xs false upd = Ok (w', o').
Proof.
  unfold co_forward_steps. destruct (co_loop fs xs (get o)) as [[outs s1]|]; [|discriminate]. cbn [bind].
  intros E. match type of E with bind ?r _ = _ => destruct r; [|discriminate] end. cbn [bind] in E. injection E as <- <-. eauto.
Qed.

Theorem leaf_end_not_saved m xs upd w m' : leaf m ->
  steps m (VS xs) true upd = Ok (w, m') -> exists w', steps m (VS xs) false upd = Ok (w', m').
Proof.
  destruct m; cbn [leaf steps]; try tauto; intros _ E.
  - unfold delay_forward_steps in *. destruct (d =? 0).
    + eauto.
    + match type of E with bind ?r _ = _ => destruct r as [[y o']|] eqn:Er; [|discriminate] end. cbn [bind] in E. injection E as <- <-.
      apply co_pe_state in Er as [w' ->]. cbn [bind]. eauto.
  - unfold skip_forward_steps in *.
    match type of E with bind ?r _ = _ => destruct r as [[y o']|] eqn:Er; [|discriminate] end. cbn [bind] in E. injection E as <- <-.
    apply co_pe_state in Er as [w' ->]. cbn [bind]. eauto.
  - unfold conv_forward_steps in *.
    match type of E with bind ?r _ = _ => destruct r as [[y o']|] eqn:Er; [|discriminate] end. cbn [bind] in E. injection E as <- <-.
    apply co_pe_state in Er as [w' ->]. cbn [bind]. eauto.
  - unfold pool_forward_steps in *.
    match type of E with bind ?r _ = _ => destruct r as [[y o']|] eqn:Er; [|discriminate] end. cbn [bind] in E. injection E as <- <-.
    apply co_pe_state in Er as [w' ->]. cbn [bind]. eauto.
  - eauto.
  - unfold rnn_forward_steps in *. eauto.
Qed.

(** The same call with and without update_state returns the same value. *)
Definition upd_agree m pe := forall v,
  bind (steps m v pe true) (fun p => Ok (fst p)) = bind (steps m v pe false) (fun p => Ok (fst p)).

Lemma co_upd {B} (fs : F -> option (obj B) -> res (option F * option (obj B))) mk pad xs :
  bind (co_forward_steps obj_get obj_set fs mk pad obj_init xs true true) (fun p => Ok (fst p))
  = bind (co_forward_steps obj_get obj_set fs mk pad obj_init xs true false) (fun p => Ok (fst p)).
Proof.
  unfold co_forward_steps. destruct (co_loop fs xs (obj_get obj_init)) as [[outs s1]|]; [|reflexivity]. cbn [bind].
  assert (E : match obj_get match s1 with Some s => obj_set obj_init s | None => obj_init end with Some s => Some s | None => s1 end
     = match obj_get match s1 with Some _ => obj_init | None => @obj_init B end with Some s => Some s | None => s1 end).
  { destruct s1 as [s|]; [|reflexivity]. unfold obj_set, obj_get. destruct s as [[|b l] i j]; reflexivity. }
  rewrite E. destruct (end_frames mk pad xs) as [fr|]; [|reflexivity]. cbn [bind].
  destruct (co_loop fs fr _) as [[? ?]|]; reflexivity.
Qed.

Lemma steps_fst {Ob} (r1 r2 : res (option (list F) * Ob)) (W : Ob -> md F) :
  bind r1 (fun p => Ok (fst p)) = bind r2 (fun p => Ok (fst p)) ->
  bind (bind r1 (fun '(y, o') => Ok (of_clip y, W o'))) (fun p => Ok (fst p))
  = bind (bind r2 (fun '(y, o') => Ok (of_clip y, W o'))) (fun p => Ok (fst p)).
Proof. destruct r1 as [[]|], r2 as [[]|]; cbn; congruence. Qed.

Lemma seq_upd ms : Forall (fun m => upd_agree m true) ms -> forall v,
  bind (seq_steps (fun m v => steps m v true true) ms v) (fun p => Ok (fst p))
  = bind (seq_steps (fun m v => steps m v true false) ms v) (fun p => Ok (fst p)).
Proof.
  induction 1 as [|m t Hm HF IH]; intros v; [reflexivity|]. cbn [seq_steps]. destruct (stops v); [reflexivity|]. specialize (Hm v).
  destruct (steps m v true true) as [[w m1]|], (steps m v true false) as [[w' m1']|]; cbn [bind fst] in *; try congruence.
  injection Hm as <-.
  specialize (IH w). destruct (seq_steps (fun m v => steps m v true true) t w) as [[u t1]|], (seq_steps (fun m v => steps m v true false) t w) as [[u' t1']|];
    cbn [bind fst] in *; congruence.
Qed.

Lemma par_upd ms : Forall (fun m => upd_agree m true) ms -> forall vs,
  bind (par_run (fun m v => steps m v true true) ms vs) (fun p => Ok (fst p))
  = bind (par_run (fun m v => steps m v true false) ms vs) (fun p => Ok (fst p)).
Proof.
  induction 1 as [|m t Hm HF IH]; intros vs; [reflexivity|]. cbn [par_run]. destruct vs as [|v vs]; [reflexivity|]. specialize (Hm v).
  destruct (steps m v true true) as [[w m1]|], (steps m v true false) as [[w' m1']|]; cbn [bind fst] in *; try congruence.
  injection Hm as <-.
  specialize (IH vs). destruct (par_run (fun m v => steps m v true true) t vs) as [[u t1]|], (par_run (fun m v => steps m v true false) t vs) as [[u' t1']|];
    cbn [bind fst] in *; congruence.
Qed.

Lemma br_upd ms : Forall (fun m => upd_agree m true) ms -> forall v,
  bind (br_run (fun m v => steps m v true true) ms v) (fun p => Ok (fst p))
  = bind (br_run (fun m v => steps m v true false) ms v) (fun p => Ok (fst p)).
Proof.
  induction 1 as [|m t Hm HF IH]; intros v; [reflexivity|]. cbn [br_run]. specialize (Hm v).
  destruct (steps m v true true) as [[w m1]|], (steps m v true false) as [[w' m1']|]; cbn [bind fst] in *; try congruence.
  injection Hm as <-.
  specialize (IH v). destruct (br_run (fun m v => steps m v true true) t v) as [[u t1]|], (br_run (fun m v => steps m v true false) t v) as [[u' t1']|];
    cbn [bind fst] in *; congruence.
Qed.

(** On a clean network, end padding is computed from the state after the clip
    whether or not that state is kept. *)
Theorem clean_pad_end_peek m : fresh m -> cond_free m -> upd_agree m true.
Proof.
  induction m using md_ind'; cbn [fresh cond_free]; intros Hf Hc v; subst; cbn [steps]; try reflexivity.
  - destruct v; try reflexivity. apply steps_fst. unfold delay_forward_steps. destruct (d =? 0); [reflexivity|apply co_upd].
  - destruct v; try reflexivity. apply steps_fst. unfold skip_forward_steps, co_forward_steps.
    destruct (co_loop (skip_fstep n) xs (skip_get (skip_init n))) as [[outs s1]|]; [|reflexivity]. cbn [bind end_frames co_loop]. reflexivity.
  - destruct v; try reflexivity. apply steps_fst. apply co_upd.
  - destruct v; try reflexivity. apply steps_fst. apply co_upd.
  - destruct v; try reflexivity. apply steps_fst. unfold rnn_forward_steps.
    destruct (torch_rnn c xs None) as [[? ?]|]; reflexivity.
  - rewrite allP_Forall in *. rewrite Forall_forall in H, Hf, Hc.
    assert (G : Forall (fun m => upd_agree m true) ms) by (apply Forall_forall; intros; apply H; auto).
    pose proof (seq_upd ms G v) as E. destruct (seq_steps _ ms v) as [[u t1]|], (seq_steps (fun m v => steps m v true false) ms v) as [[u' t1']|];
    cbn [bind fst] in *; congruence.
  - destruct v; try reflexivity. rewrite allP_Forall in *. rewrite Forall_forall in H, Hf, Hc.
    assert (G : Forall (fun m => upd_agree m true) ms) by (apply Forall_forall; intros; apply H; auto).
    pose proof (par_upd ms G l) as E. destruct (par_run _ ms l) as [[u t1]|], (par_run (fun m v => steps m v true false) ms l) as [[u' t1']|];
    cbn [bind fst] in *; congruence.
  - rewrite allP_Forall in *. rewrite Forall_forall in H, Hf, Hc.
    assert (G : Forall (fun m => upd_agree m true) ms) by (apply Forall_forall; intros; apply H; auto).
    pose proof (br_upd ms G v) as E. destruct (br_run _ ms v) as [[u t1]|], (br_run (fun m v => steps m v true false) ms v) as [[u' t1']|];
    cbn [bind fst] in *; try congruence. injection E as <-. destruct (reduce_vals r u); reflexivity.
Qed.

(* ------------------------------------------------------------------ *)
(** ** ParallelDispatch *)

Section DInd.
Variable P : dmap -> Prop.
Hypothesis HI : forall i, P (DI i).
Hypothesis HL : forall l, Forall P l -> P (DL l).
Fixpoint dmap_ind' (d : dmap) : P d :=
  match d with
  | DI i => HI i
  | DL l => HL l ((fix go l : Forall P l := match l with [] => Forall_nil P | d :: t => Forall_cons d (dmap_ind' d) (go t) end) l)
  end.
End DInd.

Definition dgo (l : list (val F)) := fix go (ds : list dmap) := match ds with
    | [] => Ok []
    | d :: t => v <- dispatch d l ;; vs <- go t ;; Ok (v :: vs)
    end.
Lemma dispatch_DL ds (l : list (val F)) : dispatch (DL ds) l = (vs <- dgo l ds ;; Ok (VL vs)).
Proof. reflexivity. Qed.

Lemma py_index_spec (l : list (val F)) i v : py_index l i = Ok v <-> picks l i v.
Proof.
  unfold py_index, picks, getz. destruct (Z.ltb_spec i 0) as [Hi|Hi].
  - destruct (Z.ltb_spec (i + Z.of_nat (length l)) 0) as [Hj|Hj].
    + split; [discriminate|]. intros [[? _]|[? _]]; lia.
    + destruct (nth_error l (Z.to_nat (i + Z.of_nat (length l)))) eqn:E; split; intros H.
      * injection H as ->. right. split; [lia|auto].
      * destruct H as [[? _]|[_ H]]; [lia|]. congruence.
      * discriminate.
      * destruct H as [[? _]|[_ H]]; [lia|]. congruence.
  - replace (i <? 0)%Z with false by lia.
    destruct (nth_error l (Z.to_nat i)) eqn:E; split; intros H.
    + injection H as ->. left. split; [lia|auto].
    + destruct H as [[_ H]|[? _]]; [congruence|lia].
    + discriminate.
    + destruct H as [[_ H]|[? _]]; [congruence|lia].
Qed.

Lemma dispatch_spec d : forall (l : list (val F)) v, dispatch d l = Ok v <-> routed l d v.
Proof.
  induction d as [i|ds IH] using dmap_ind'; intros l v.
  - cbn [dispatch]. rewrite py_index_spec. split; [constructor; auto|inversion 1; auto].
  - rewrite dispatch_DL.
    assert (G : forall vs, dgo l ds = Ok vs <-> Forall2 (routed l) ds vs).
    { induction IH as [|d ds Hd HF IHF]; intros vs; cbn [dgo].
      - split; [intros [= <-]; constructor|inversion 1; reflexivity].
      - fold (dgo l). split.
        + destruct (dispatch d l) as [v0|] eqn:E; [|discriminate]. cbn [bind].
          destruct (dgo l ds) as [vt|] eqn:Et; [|discriminate]. intros [= <-]. constructor; [now apply Hd|now apply IHF].
        + inversion 1; subst. rewrite (proj2 (Hd l y)) by auto. cbn [bind]. erewrite (proj2 (IHF _)) by eauto. reflexivity. }
    split.
    + destruct (dgo l ds) as [vs|] eqn:E; [|discriminate]. intros [= <-]. constructor. now apply G.
    + inversion 1; subst. rewrite (proj2 (G vs)) by auto. reflexivity.
Qed.

Lemma py_index_err (l : list (val F)) i : (forall v, ~ picks l i v) -> py_index l i = Err IndexError.
Proof.
  intros H. destruct (py_index l i) eqn:E.
  - exfalso. eapply H. apply py_index_spec; eauto.
  - revert E. unfold py_index, getz. 
    destruct (_ <? 0)%Z; [intros [= <-]; auto|]. destruct (nth_error _ _); [discriminate|intros [= <-]; auto].
Qed.

Lemma dispatch_err d : forall (l : list (val F)), (forall v, ~ routed l d v) -> dispatch d l = Err IndexError.
Proof.
  intros l H. destruct (dispatch d l) as [v|e] eqn:E.
  - exfalso. eapply H. apply dispatch_spec; eauto.
  - f_equal. clear H. revert e E. induction d as [i|ds IH] using dmap_ind'; intros e.
    + cbn [dispatch]. intros E. destruct (py_index l i) eqn:E2; [discriminate|].
      rewrite py_index_err in E2; [congruence|]. intros v Hv. apply py_index_spec in Hv. congruence.
    + rewrite dispatch_DL. induction IH as [|d ds Hd HF IHF]; cbn [dgo]; [discriminate|]. fold (dgo l).
      destruct (dispatch d l) as [v0|e0] eqn:E0; cbn [bind]; [|intros [= <-]; auto].
      destruct (dgo l ds) as [vt|e1]; cbn [bind] in *; [discriminate|]. intros [= <-]. auto.
Qed.

Lemma dispatch_id (l : list (val F)) : dispatch (DL (map (fun i => DI (Z.of_nat i)) (seq 0 (length l)))) l = Ok (VL l).
Proof.
  apply dispatch_spec. constructor.
  assert (G : forall pre l' : list (val F), Forall2 (routed (pre ++ l')) (map (fun i => DI (Z.of_nat i)) (seq (length pre) (length l'))) l').
  { intros pre l'. revert pre. induction l' as [|x l' IH]; intros pre; cbn [length seq map]; constructor.
    - constructor. left. split; [lia|]. rewrite Nat2Z.id, nth_error_app2, Nat.sub_diag by lia. reflexivity.
    - specialize (IH (pre ++ [x])). rewrite app_length in IH. simpl in IH. rewrite <- app_assoc in IH. simpl in IH.
      rewrite Nat.add_1_r in IH. exact IH. }
  apply (G [] l).
Qed.

(** Dispatching twice. *)
Lemma dgo_nth (l vs : list (val F)) ds i d : dgo l ds = Ok vs -> nth_error ds i = Some d ->
  exists v, nth_error vs i = Some v /\ dispatch d l = Ok v.
Proof.
  revert vs i. induction ds as [|d0 ds IH]; intros vs i E Hn; [destruct i; discriminate|]. cbn [dgo] in E. fold (dgo l) in E.
  destruct (dispatch d0 l) as [v0|] eqn:E0; [|discriminate]. cbn [bind] in E.
  destruct (dgo l ds) as [vt|] eqn:Et; [|discriminate]. injection E as <-.
  destruct i; cbn [nth_error] in *; [injection Hn as <-; eauto|eauto].
Qed.
Lemma dgo_len (l vs : list (val F)) ds : dgo l ds = Ok vs -> length vs = length ds.
Proof.
  revert vs. induction ds as [|d0 ds IH]; intros vs E; cbn [dgo] in E; [injection E as <-; auto|]. fold (dgo l) in E.
  destruct (dispatch d0 l) as [v0|] eqn:E0; [|discriminate]. cbn [bind] in E.
  destruct (dgo l ds) as [vt|] eqn:Et; [|discriminate]. injection E as <-. cbn [length]. f_equal. auto.
Qed.

Lemma dispatch_twice ds d2 d (l vs : list (val F)) v :
  dispatch (DL ds) l = Ok (VL vs) -> compose_map ds d2 = Some d -> dispatch d2 vs = Ok v -> dispatch d l = Ok v.
Proof.
  rewrite dispatch_DL. destruct (dgo l ds) as [vs'|] eqn:E; [|discriminate]. intros [= ->].
  revert d v. induction d2 as [i|d2s IH] using dmap_ind'; intros d v Hc Hd.
  - cbn [compose_map dispatch] in *. apply py_index_spec in Hd.
    set (j := if (i <? 0)%Z then (i + Z.of_nat (length ds))%Z else i) in *.
    destruct (j <? 0)%Z eqn:Ej; [discriminate|].
    pose proof (dgo_len _ _ _ E) as L. destruct (dgo_nth _ _ _ _ _ E Hc) as (v' & Hv & Hd').
    rewrite Hd'. f_equal. unfold picks in Hd. rewrite L in Hd. subst j.
    destruct (Z.ltb_spec i 0); destruct Hd as [[? Hd]|[? Hd]]; try lia; congruence.
  - cbn [compose_map] in Hc. rewrite dispatch_DL in Hd.
    destruct (dgo vs d2s) as [us|] eqn:Eu; [|discriminate]. injection Hd as <-.
    match type of Hc with match ?q with _ => _ end = _ => destruct q as [ds'|] eqn:Eq; [|discriminate] end. injection Hc as <-.
    rewrite dispatch_DL. enough (dgo l ds' = Ok us) as -> by reflexivity.
    clear -IH Eu Eq. revert us ds' Eu Eq. induction IH as [|d2 d2s H HF IHF]; intros us ds' Eu Eq.
    + injection Eq as <-. injection Eu as <-. reflexivity.
    + cbn [dgo] in Eu. fold (dgo vs) in Eu. destruct (dispatch d2 vs) as [u0|] eqn:E0; [|discriminate]. cbn [bind] in Eu.
      destruct (dgo vs d2s) as [ut|] eqn:Et; [|discriminate]. injection Eu as <-.
      destruct (compose_map ds d2) as [d0|] eqn:E1; [|discriminate].
      match type of Eq with match ?q with _ => _ end = _ => destruct q as [dt|] eqn:E2; [|discriminate] end. injection Eq as <-.
      cbn [dgo]. fold (dgo l). rewrite (H _ _ eq_refl eq_refl). cbn [bind]. rewrite (IHF _ _ eq_refl eq_refl). reflexivity.
Qed.

Theorem dispatch_modes d (l : list (val F)) v pe upd :
  (fwd (MDispatch d) (VL l) = Ok v <-> routed l d v) /\
  (step (MDispatch d) (VL l) upd = Ok (v, MDispatch d) <-> routed l d v) /\
  (steps (MDispatch d) (VL l) pe upd = Ok (v, MDispatch d) <-> routed l d v).
Proof.
  cbn [fwd step steps dispatch_val]. rewrite <- dispatch_spec.
  destruct (dispatch d l) as [w|]; cbn [bind]; repeat split; intros [= <-]; auto.
Qed.

Theorem dispatch_modes_err d (l : list (val F)) pe upd : (forall v, ~ routed l d v) ->
  fwd (MDispatch d) (VL l) = Err IndexError /\
  step (MDispatch d) (VL l) upd = Err IndexError /\
  steps (MDispatch d) (VL l) pe upd = Err IndexError.
Proof. intros H. cbn [fwd step steps dispatch_val]. rewrite dispatch_err by auto. auto. Qed.

(* ------------------------------------------------------------------ *)
(** ** Conditional *)

Theorem cond_no_else p a xs : (forall x, In x xs -> p (VT x) = false) ->
  feed (nstep true) (mk_cond p a None) xs = Ok (map Some xs, mk_cond p a None).
Proof.
  induction xs as [|x xs IH]; intros H; [reflexivity|]. cbn [feed map]. unfold nstep at 1, mk_cond at 1. cbn [step option_map].
  rewrite (H x (or_introl eq_refl)). cbn [bind].
  change (MCond p _ _ _ None) with (mk_cond p a None). rewrite IH by (intros; apply H; right; auto). reflexivity.
Qed.

Theorem cond_feed p D R a b xs ya a' yb b' :
  feed (nstep true) a (filter (fun x => p (VT x)) xs) = Ok (ya, a') ->
  feed (nstep true) b (filter (fun x => negb (p (VT x))) xs) = Ok (yb, b') ->
  feed (nstep true) (MCond p D R a (Some b)) xs
  = Ok (interleave (map (fun x => p (VT x)) xs) ya yb, MCond p D R a' (Some b')).
Proof.
  revert a b ya yb. induction xs as [|x xs IH]; intros a b ya yb Ea Eb.
  - cbn in Ea, Eb. injection Ea as <- <-. injection Eb as <- <-. reflexivity.
  - cbn [filter] in Ea, Eb. cbn [feed map interleave]. unfold nstep at 1. cbn [step].
    destruct (p (VT x)); cbn [negb] in *.
    + cbn [feed] in Ea. unfold nstep at 1 in Ea. destruct (step a (VT x) true) as [[v a1]|]; [|discriminate]. cbn [bind] in *.
      destruct v as [|y| |]; try discriminate; cbn [bind] in *;
      (destruct (feed (nstep true) a1 _) as [[ya1 a2]|] eqn:E1; [|discriminate]); cbn [bind] in Ea; injection Ea as <- <-;
      rewrite (IH _ _ _ _ E1 Eb); reflexivity.
    + cbn [feed] in Eb. unfold nstep at 1 in Eb. destruct (step b (VT x) true) as [[v b1]|]; [|discriminate]. cbn [bind] in *.
      destruct v as [|y| |]; try discriminate; cbn [bind] in *;
      (destruct (feed (nstep true) b1 _) as [[yb1 b2]|] eqn:E1; [|discriminate]); cbn [bind] in Eb; injection Eb as <- <-;
      rewrite (IH _ _ _ _ Ea E1); reflexivity.
Qed.

Lemma interleave_true {A} n (l : list A) : length l = n -> interleave (repeat true n) l [] = l.
Proof. intros <-. induction l; simpl; congruence. Qed.
Lemma interleave_false {A} n (l : list A) : length l = n -> interleave (repeat false n) [] l = l.
Proof. intros <-. induction l; simpl; congruence. Qed.

Lemma delay_front_net sh D m : net sh m -> (del m <= D)%Z ->
  net sh (delay_front D m) /\ del (delay_front D m) = D /\ strd (delay_front D m) = strd m /\
  forall xs, nfwd (delay_front D m) xs = nfwd m xs.
Proof.
  intros Hn HD. unfold delay_front. destruct (Z.eqb_spec (del m) D) as [<-|Hne]; [auto|].
  split; [|split; [|split]].
  - change (MSeq [MDelay (Z.to_nat (D - del m)) Zeros ShNo obj_init; m]) with (MSeq ([MDelay (Z.to_nat (D - del m)) Zeros ShNo obj_init; m])).
    assert (E : mk_seq [MDelay (Z.to_nat (D - del m)) Zeros ShNo obj_init; m] = MSeq [MDelay (Z.to_nat (D - del m)) Zeros ShNo obj_init; m]).
    { unfold mk_seq. rewrite (infer_core sh); [reflexivity|]. constructor; [constructor; auto|]. constructor; [apply net_core; auto|constructor]. }
    rewrite <- E. apply net_seq. intros x [<-|[<-|[]]]; [constructor|auto].
  - destruct (net_core sh m Hn) as [_ []].
    rewrite seq_del, rfield_cons, padg_cons, rfield_cons, padg_cons.
    change (strd (MDelay _ _ _ _)) with 1%Z. change (rfield (MSeq [])) with 1%Z. change (padg (MSeq [])) with 0%Z.
    cbn [rfield padg]. lia.
  - rewrite !strd_cons. change (strd (MDelay _ _ _ _)) with 1%Z. change (strd (MSeq [])) with 1%Z. lia.
  - intros xs. unfold nfwd. cbn [fwd seq_fwd bind delay_forward]. destruct (fwd m (VS xs)) as [v|]; [|reflexivity]. reflexivity.
Qed.

Theorem cond_select sh p a b (sel : bool) xs ws zs : net sh a -> net sh b ->
  (forall x, In x xs -> p (VT x) = sel) ->
  nfwd (if sel then a else b) (xs ++ ws) = Ok zs ->
  exists m', feed (nstep true) (mk_cond p a (Some b)) xs
    = Ok (map (scheduled (Z.to_nat (Z.max (del a) (del b))) (Z.to_nat (strd (if sel then a else b))) zs) (seq 0 (length xs)), m').
Proof.
  intros Ha Hb Hp E. unfold mk_cond. cbn [option_map]. set (D := Z.max (del a) (del b)).
  destruct (delay_front_net sh D a Ha) as (Na & Da & Sa & Fa); [subst D; lia|].
  destruct (delay_front_net sh D b Hb) as (Nb & Db & Sb & Fb); [subst D; lia|].
  assert (Hf : filter (fun x => p (VT x)) xs = (if sel then xs else []) /\ filter (fun x => negb (p (VT x))) xs = (if sel then [] else xs)).
  { clear -Hp. induction xs as [|x xs IH]; [destruct sel; auto|]. cbn [filter]. rewrite (Hp x (or_introl eq_refl)).
    destruct IH as [-> ->]; [intros; apply Hp; right; auto|]. destruct sel; auto. }
  assert (Hm : map (fun x => p (VT x)) xs = repeat sel (length xs)).
  { clear -Hp. induction xs as [|x xs IH]; [reflexivity|]. cbn [map length repeat]. rewrite (Hp x (or_introl eq_refl)), IH; [reflexivity|].
    intros; apply Hp; right; auto. }
  destruct Hf as [Hf1 Hf2]. destruct sel.
  - rewrite <- Fa in E. destruct (net_sched sh _ _ _ _ Na E) as [a' Ea]. rewrite Da, Sa in Ea.
    rewrite <- Hf1 in Ea at 1. eexists. erewrite cond_feed; [|exact Ea|rewrite Hf2; reflexivity].
    rewrite Hm. do 2 f_equal. apply interleave_true. now rewrite map_length, seq_length.
  - rewrite <- Fb in E. destruct (net_sched sh _ _ _ _ Nb E) as [b' Eb]. rewrite Db, Sb in Eb.
    rewrite <- Hf2 in Eb at 1. eexists. erewrite cond_feed; [|rewrite Hf1; reflexivity|exact Eb].
    rewrite Hm. do 2 f_equal. apply interleave_false. now rewrite map_length, seq_length.
Qed.

Theorem cond_delays sh p a b : net sh a -> net sh b ->
  match mk_cond p a (Some b) with
  | MCond _ D _ a' (Some b') => del a' = D /\ del b' = D /\ D = Z.max (del a) (del b) /\ del (mk_cond p a (Some b)) = D
  | _ => False
  end.
Proof.
  intros Ha Hb. unfold mk_cond. cbn [option_map del]. set (D := Z.max (del a) (del b)).
  destruct (delay_front_net sh D a Ha) as (_ & Da & _); [subst D; lia|].
  destruct (delay_front_net sh D b Hb) as (_ & Db & _); [subst D; lia|]. auto.
Qed.

End NetThm.
