(** Proofs about hooks. *)
From Coq Require Import List ZArith Bool Arith Lia.
From Verif Require Import Base Frames CoMod Leaf Rnn Net Hooks HooksSpec.
Import ListNotations.

Section P.
Context {F : Type} {FA : Frames F}.

Section Ind.
Variable P : hmd F -> Prop.
Hypothesis hl : forall i fs lf, P (HLeaf i fs lf).
Hypothesis hs : forall i ms, Forall P ms -> P (HSeq i ms).
Hypothesis hp : forall i ms, Forall P ms -> P (HPar i ms).
Hypothesis hb : forall i ms r, Forall P ms -> P (HBR i ms r).
Hypothesis hc : forall i p D R a b, P a -> match b with Some c => P c | None => True end -> P (HCond i p D R a b).
Fixpoint hmd_ind' (m : hmd F) : P m :=
  let go := fix go (l : list (hmd F)) : Forall P l :=
    match l with [] => Forall_nil _ | x :: t => Forall_cons _ (hmd_ind' x) (go t) end in
  match m with
  | HLeaf i fs lf => hl i fs lf
  | HSeq i ms => hs i ms (go ms)
  | HPar i ms => hp i ms (go ms)
  | HBR i ms r => hb i ms r (go ms)
  | HCond i p D R a b => hc i p D R a b (hmd_ind' a) (match b with Some c => hmd_ind' c | None => I end)
  end.
End Ind.

Lemma snd_mbind {A B} (a : M (F := F) A) (f : A -> M B) : snd (mbind a f) = bind (snd a) (fun x => snd (f x)).
Proof. destruct a as [l [x|e]]; reflexivity. Qed.
Lemma fst_mbind {A B} (a : M (F := F) A) (f : A -> M B) :
  fst (mbind a f) = fst a ++ match snd a with Ok x => fst (f x) | Err _ => [] end.
Proof. destruct a as [l [x|e]]; cbn; [reflexivity|]. rewrite app_nil_r. reflexivity. Qed.
Lemma snd_ret {A} (r : res A) : snd (ret (F := F) r) = r.
Proof. reflexivity. Qed.

(** *** Hooks that only look *)
Section Observing.
Variable hk : nat -> hooks F.
Hypothesis HO : forall i, observing (hk i).

Lemma pre_obs i l v n : (forall f, In f l -> forall v, f v = Ok None) -> snd (pre_from (F := F) i n l v) = Ok v.
Proof.
  revert n v. induction l as [|h t IH]; intros n v H; [reflexivity|]. cbn [pre_from]. rewrite snd_mbind. cbn [snd].
  rewrite (H h) by (left; reflexivity). cbn [bind]. apply IH. intros; apply H; right; assumption.
Qed.
Lemma post_obs i l v r n : (forall f, In f l -> forall v r, f v r = Ok None) -> snd (post_from (F := F) i n l v r) = Ok r.
Proof.
  revert n r. induction l as [|h t IH]; intros n r H; [reflexivity|]. cbn [post_from]. rewrite snd_mbind. cbn [snd].
  rewrite (H h) by (left; reflexivity). cbn [bind]. apply IH. intros; apply H; right; assumption.
Qed.
Lemma hooked_obs {A} i (f : val F -> M (val F * A)) v : snd (hooked hk i f v) = snd (f v).
Proof.
  destruct (HO i) as [H1 H2]. unfold hooked. rewrite snd_mbind, pre_obs by exact H1. cbn [bind]. rewrite snd_mbind.
  destruct (snd (f v)) as [[r a]|e]; [|reflexivity]. cbn [bind]. rewrite snd_mbind, post_obs by exact H2. reflexivity.
Qed.
Lemma call_obs run me m v : snd (call_with hk run me m v) = snd (run m v).
Proof.
  unfold call_with. destruct m as [i [|] lf| | | |]; destruct me; cbn [hid]; rewrite ?hooked_obs; reflexivity.
Qed.
Lemma child_obs run me m v : snd (child_with hk run me m v) = snd (run m v).
Proof. unfold child_with. destruct me; [|apply call_obs..]. destruct (is_rnn m); [reflexivity|apply call_obs]. Qed.

(** The outcome without the hooks. *)
Definition er (r : res (val F * hmd F)) : res (val F * md F) := bind r (fun '(w, m') => Ok (w, erase m')).
Definition ers {A} (r : res (A * list (hmd F))) : res (A * list (md F)) := bind r (fun '(w, ms') => Ok (w, map erase ms')).

Definition same (me : mode) (m : hmd F) : Prop := forall v, er (snd (hrun hk me m v)) = plain me (erase m) v.

Lemma er_call me m v : same me m -> er (snd (child_with hk (hrun hk me) me m v)) = plain me (erase m) v.
Proof. intros H. rewrite child_obs. apply H. Qed.

Ltac step1 H := rewrite snd_mbind; specialize H; destruct (snd _) as [[? ?]|?] eqn:?.

Lemma seq_fwd_same ms : Forall (same Fwd) ms -> forall v,
  ers (snd (hseq_fwd (child_with hk (hrun hk Fwd) Fwd) ms v)) = (w <- seq_fwd fwd (map erase ms) v ;; Ok (w, map erase ms)).
Proof.
  induction 1 as [|m ms Hm _ IH]; intros v; [reflexivity|]. cbn [hseq_fwd map seq_fwd]. rewrite snd_mbind.
  pose proof (er_call Fwd m v Hm) as E. unfold plain in E.
  destruct (snd (child_with hk (hrun hk Fwd) Fwd m v)) as [[w m']|e]; cbn [bind er] in *.
  - destruct (fwd (erase m) v) as [w0|e0]; cbn [bind] in *; [|discriminate]. injection E as -> E. rewrite snd_mbind.
    specialize (IH w0). destruct (snd (hseq_fwd _ ms w0)) as [[w2 t2]|e]; cbn [bind ers] in *.
    + cbn [ret snd bind]. destruct (seq_fwd fwd (map erase ms) w0) as [w3|e3]; cbn [bind] in *; [|discriminate]. injection IH as -> IH2.
      cbn [ers bind map]. rewrite E, IH2. reflexivity.
    + destruct (seq_fwd fwd (map erase ms) w0) as [w3|e3]; cbn [bind] in *; [discriminate|]. exact IH.
  - destruct (fwd (erase m) v) as [w0|e0]; cbn [bind] in *; [discriminate|]. injection E as ->. reflexivity.
Qed.
Lemma par_fwd_same ms : Forall (same Fwd) ms -> forall l,
  ers (snd (hpar (child_with hk (hrun hk Fwd) Fwd) ms l)) = (w <- par_fwd fwd (map erase ms) l ;; Ok (w, map erase ms)).
Proof.
  induction 1 as [|m ms Hm _ IH]; intros l; [reflexivity|]. cbn [hpar map par_fwd]. destruct l as [|v l]; [reflexivity|]. rewrite snd_mbind.
  pose proof (er_call Fwd m v Hm) as E. unfold plain in E.
  destruct (snd (child_with hk (hrun hk Fwd) Fwd m v)) as [[w m']|e]; cbn [bind er] in *.
  - destruct (fwd (erase m) v) as [w0|e0]; cbn [bind] in *; [|discriminate]. injection E as -> E. rewrite snd_mbind.
    specialize (IH l). destruct (snd (hpar _ ms l)) as [[w2 t2]|e]; cbn [bind ers] in *.
    + cbn [ret snd bind]. destruct (par_fwd fwd (map erase ms) l) as [w3|e3]; cbn [bind] in *; [|discriminate]. injection IH as -> IH2.
      cbn [ers bind map]. rewrite E, IH2. reflexivity.
    + destruct (par_fwd fwd (map erase ms) l) as [w3|e3]; cbn [bind] in *; [discriminate|]. exact IH.
  - destruct (fwd (erase m) v) as [w0|e0]; cbn [bind] in *; [discriminate|]. injection E as ->. reflexivity.
Qed.
Lemma br_fwd_same ms : Forall (same Fwd) ms -> forall v,
  ers (snd (hbr (child_with hk (hrun hk Fwd) Fwd) ms v)) = (w <- br_fwd fwd (map erase ms) v ;; Ok (w, map erase ms)).
Proof.
  induction 1 as [|m ms Hm _ IH]; intros v; [reflexivity|]. cbn [hbr map br_fwd]. rewrite snd_mbind.
  pose proof (er_call Fwd m v Hm) as E. unfold plain in E.
  destruct (snd (child_with hk (hrun hk Fwd) Fwd m v)) as [[w m']|e]; cbn [bind er] in *.
  - destruct (fwd (erase m) v) as [w0|e0]; cbn [bind] in *; [|discriminate]. injection E as -> E. rewrite snd_mbind.
    specialize (IH v). destruct (snd (hbr _ ms v)) as [[w2 t2]|e]; cbn [bind ers] in *.
    + cbn [ret snd bind]. destruct (br_fwd fwd (map erase ms) v) as [w3|e3]; cbn [bind] in *; [|discriminate]. injection IH as -> IH2.
      cbn [ers bind map]. rewrite E, IH2. reflexivity.
    + destruct (br_fwd fwd (map erase ms) v) as [w3|e3]; cbn [bind] in *; [discriminate|]. exact IH.
  - destruct (fwd (erase m) v) as [w0|e0]; cbn [bind] in *; [discriminate|]. injection E as ->. reflexivity.
Qed.

(** The stepping loops of [Net.v], for the mode. *)
Definition stepping (me : mode) : Prop := match me with Fwd => False | _ => True end.
Lemma seq_step_same me ms : Forall (same me) ms -> forall v,
  ers (snd (hseq_step (child_with hk (hrun hk me) me) ms v)) = seq_step (plain me) (map erase ms) v.
Proof.
  induction 1 as [|m ms Hm _ IH]; intros v; [reflexivity|]. cbn [hseq_step map seq_step]. rewrite snd_mbind.
  pose proof (er_call me m v Hm) as E. rewrite <- E.
  destruct (snd (child_with hk (hrun hk me) me m v)) as [[w m']|e]; cbn [bind er]; [|reflexivity].
  destruct (is_none w); [reflexivity|]. rewrite snd_mbind, <- IH. destruct (snd (hseq_step _ ms w)) as [[w2 t2]|e]; reflexivity.
Qed.
Lemma seq_steps_same me ms : Forall (same me) ms -> forall v,
  ers (snd (hseq_steps (child_with hk (hrun hk me) me) ms v)) = seq_steps (plain me) (map erase ms) v.
Proof.
  induction 1 as [|m ms Hm _ IH]; intros v; [reflexivity|]. cbn [hseq_steps map seq_steps]. destruct (stops v); [reflexivity|]. rewrite snd_mbind.
  pose proof (er_call me m v Hm) as E. rewrite <- E.
  destruct (snd (child_with hk (hrun hk me) me m v)) as [[w m']|e]; cbn [bind er]; [|reflexivity].
  rewrite snd_mbind, <- IH. destruct (snd (hseq_steps _ ms w)) as [[w2 t2]|e]; reflexivity.
Qed.
Lemma par_same me ms : Forall (same me) ms -> forall l,
  ers (snd (hpar (child_with hk (hrun hk me) me) ms l)) = par_run (plain me) (map erase ms) l.
Proof.
  induction 1 as [|m ms Hm _ IH]; intros [|v l]; [reflexivity..|]. cbn [hpar map par_run]. rewrite snd_mbind.
  pose proof (er_call me m v Hm) as E. rewrite <- E.
  destruct (snd (child_with hk (hrun hk me) me m v)) as [[w m']|e]; cbn [bind er]; [|reflexivity].
  rewrite snd_mbind, <- IH. destruct (snd (hpar _ ms l)) as [[w2 t2]|e]; reflexivity.
Qed.
Lemma br_same me ms : Forall (same me) ms -> forall v,
  ers (snd (hbr (child_with hk (hrun hk me) me) ms v)) = br_run (plain me) (map erase ms) v.
Proof.
  induction 1 as [|m ms Hm _ IH]; intros v; [reflexivity|]. cbn [hbr map br_run]. rewrite snd_mbind.
  pose proof (er_call me m v Hm) as E. rewrite <- E.
  destruct (snd (child_with hk (hrun hk me) me m v)) as [[w m']|e]; cbn [bind er]; [|reflexivity].
  rewrite snd_mbind, <- IH. destruct (snd (hbr _ ms v)) as [[w2 t2]|e]; reflexivity.
Qed.

Lemma seq_ext {A} (r : res (A * list (hmd F))) (k : A * list (hmd F) -> M (F := F) (val F * hmd F)) h x :
  ers r = h -> (forall a ms', er (snd (k (a, ms'))) = x a (map erase ms')) ->
  er (bind r (fun q => snd (k q))) = bind h (fun '(a, l) => x a l).
Proof. intros <- H. destruct r as [[a ms']|e]; [apply H|reflexivity]. Qed.

Lemma cond_ext (r : res (val F * hmd F)) (k : val F * hmd F -> M (F := F) (val F * hmd F)) x :
  (forall w a, er (snd (k (w, a))) = x (w, erase a)) -> er (bind r (fun q => snd (k q))) = bind (er r) x.
Proof. intros H. destruct r as [[w a]|e]; [apply H|reflexivity]. Qed.

Theorem run_same m : wf m = true -> forall me, same me m.
Proof.
  induction m as [i fs lf|i ms IH|i ms IH|i ms r IH|i p D R a b IHa IHb] using hmd_ind'; intros Hw me v.
  - cbn [hrun ret snd erase]. unfold er, plain, leaf_run. destruct me; cbn [bind].
    + destruct (fwd lf v); reflexivity.
    + destruct (steps lf v pe upd) as [[w l]|]; reflexivity.
    + destruct (step lf v upd) as [[w l]|]; reflexivity.
  - cbn in Hw. assert (IH' : forall me, Forall (same me) ms).
    { intros me'. apply Forall_forall. intros x Hx. rewrite Forall_forall in IH. apply IH; [exact Hx|]. rewrite forallb_forall in Hw. apply Hw, Hx. }
    cbn [hrun erase]. rewrite snd_mbind. destruct me; cbn [plain].
    + cbn [fwd]. pose proof (seq_fwd_same ms (IH' _) v) as E. destruct (snd (hseq_fwd _ ms v)) as [[w l]|e]; cbn [ers bind er ret snd] in *;
        destruct (seq_fwd fwd (map erase ms) v); cbn [bind] in *; try discriminate.
      * injection E as -> E. cbn [erase]. rewrite E. reflexivity.
      * injection E as ->. reflexivity.
    + cbn [steps]. rewrite (seq_ext _ _ _ (fun a l => Ok (a, MSeq l)) (seq_steps_same _ ms (IH' _) v)); [reflexivity|]. reflexivity.
    + cbn [step]. rewrite (seq_ext _ _ _ (fun a l => Ok (a, MSeq l)) (seq_step_same _ ms (IH' _) v)); [reflexivity|]. reflexivity.
  - cbn in Hw. assert (IH' : forall me, Forall (same me) ms).
    { intros me'. apply Forall_forall. intros x Hx. rewrite Forall_forall in IH. apply IH; [exact Hx|]. rewrite forallb_forall in Hw. apply Hw, Hx. }
    cbn [hrun erase]. destruct v as [|x|xs|l]; try (destruct me; reflexivity). rewrite snd_mbind. destruct me; cbn [plain].
    + cbn [fwd]. pose proof (par_fwd_same ms (IH' _) l) as E. destruct (snd (hpar _ ms l)) as [[w l2]|e]; cbn [ers bind er ret snd] in *;
        destruct (par_fwd fwd (map erase ms) l); cbn [bind] in *; try discriminate.
      * injection E as -> E. cbn [erase]. rewrite E. reflexivity.
      * injection E as ->. reflexivity.
    + cbn [steps]. rewrite (seq_ext _ _ _ (fun a l => Ok (VL a, MPar l)) (par_same _ ms (IH' _) l)); [reflexivity|]. reflexivity.
    + cbn [step]. rewrite (seq_ext _ _ _ (fun a l => Ok (VL a, MPar l)) (par_same _ ms (IH' _) l)); [reflexivity|]. reflexivity.
  - cbn in Hw. assert (IH' : forall me, Forall (same me) ms).
    { intros me'. apply Forall_forall. intros x Hx. rewrite Forall_forall in IH. apply IH; [exact Hx|]. rewrite forallb_forall in Hw. apply Hw, Hx. }
    cbn [hrun erase]. rewrite snd_mbind. destruct me; cbn [plain].
    + cbn [fwd]. pose proof (br_fwd_same ms (IH' _) v) as E. destruct (snd (hbr _ ms v)) as [[w l2]|e]; cbn [ers bind er ret snd] in *;
        destruct (br_fwd fwd (map erase ms) v); cbn [bind] in *; try discriminate.
      * injection E as -> E. destruct (reduce_vals r _); [|reflexivity]. cbn [bind erase er]. rewrite E. reflexivity.
      * injection E as ->. reflexivity.
    + cbn [steps]. rewrite (seq_ext _ _ _ (fun a l => w <- reduce_vals r a ;; Ok (w, MBR l r)) (br_same _ ms (IH' _) v)); [reflexivity|].
      intros a l. cbn [ret snd]. destruct (reduce_vals r a); reflexivity.
    + cbn [step]. rewrite (seq_ext _ _ _ (fun a l => w <- (if forallb is_tensor a then reduce_vals r a else Ok VNone) ;; Ok (w, MBR l r)) (br_same _ ms (IH' _) v)); [reflexivity|].
      intros a l. cbn [ret snd]. destruct (if forallb is_tensor a then _ else _); reflexivity.
  - cbn in Hw. apply andb_true_iff in Hw as [Ha Hb]. specialize (IHa Ha).
    assert (IHb' : match b with Some c => forall me, same me c | None => True end) by (destruct b; [apply IHb, Hb|exact I]). clear IHb Hb Ha.
    assert (BR : forall c, (forall me, same me c) ->
      er (snd (match me with
               | Fwd => child_with hk (hrun hk Fwd) Fwd c v
               | Steps _ _ => hrun hk (Steps false true) c v
               | Step upd => hrun hk (Step upd) c v
               end)) = match me with Fwd => plain Fwd (erase c) v | Steps _ _ => plain (Steps false true) (erase c) v | Step upd => plain (Step upd) (erase c) v end).
    { intros c Hc. destruct me; [apply er_call, Hc|apply Hc|apply Hc]. }
    cbn [hrun erase]. destruct (p v) eqn:Ep.
    + specialize (BR a IHa). rewrite snd_mbind.
      rewrite (cond_ext _ _ (fun '(w, a') => Ok (w, MCond p D R a' (match b with Some c => Some (erase c) | None => None end)))) by reflexivity.
      destruct me; (etransitivity; [apply (f_equal (fun r => bind r _)), BR|]); cbn [plain fwd steps step]; rewrite Ep; [|reflexivity..].
      destruct (fwd (erase a) v); reflexivity.
    + destruct b as [c|].
      2:{ destruct me; cbn [plain fwd steps step]; rewrite Ep; reflexivity. }
      specialize (BR c IHb'). rewrite snd_mbind.
      rewrite (cond_ext _ _ (fun '(w, a') => Ok (w, MCond p D R (erase a) (Some a')))) by reflexivity.
      destruct me; (etransitivity; [apply (f_equal (fun r => bind r _)), BR|]); cbn [plain fwd steps step]; rewrite Ep; [|reflexivity..].
      destruct (fwd (erase c) v); reflexivity.
Qed.
Theorem observing_same m me v : wf m = true ->
  match snd (hcall hk me m v) with
  | Ok (w, m') => plain me (erase m) v = Ok (w, erase m')
  | Err e => plain me (erase m) v = Err e
  end.
Proof.
  intros Hw. unfold hcall. rewrite call_obs. pose proof (run_same m Hw me v) as E. rewrite <- E.
  destruct (snd (hrun hk me m v)) as [[w m']|e]; reflexivity.
Qed.
End Observing.
End P.
