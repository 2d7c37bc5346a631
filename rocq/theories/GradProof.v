(** Proofs for C80: gradients. *)
From Coq Require Import List ZArith Bool Arith Lia.
From Verif Require Import Base Frames CoMod Leaf Rnn Net Spec LeafSpec NetSpec NetOk Calls NetDef NetRel Batch RelProof BatchProof FloatProof.
From Verif Require Import Grad GradSpec.
Import ListNotations.

#[export] Instance dual_laws {F} {FA : Frames F} {FL : FrameLaws F} : FrameLaws (dual F).
Proof.
  split; cbn [fadd f0 dual_frames]; intros; cbn [pri tan].
  - f_equal; apply fadd_comm.
  - f_equal; apply fadd_assoc.
  - destruct a as [x y]. cbn [pri tan]. f_equal; apply fadd_0_l.
Qed.

Section Curves.
Context {P F : Type} {FA : Frames F}.

(** Frames that depend on a parameter. *)
#[local] Instance curve_frames : Frames (P -> F) :=
  {| f0 := fun _ => f0; finf := fun _ => finf; fadd g h := fun t => fadd (g t) (h t) |}.

Variable T : (P -> F) -> dual F -> Prop.
Hypothesis TG : tangency T.

Notation ev t := (graph (at_ (F := F) t)).

Lemma tang_frames : rel_frames T.
Proof. constructor. apply TG. Qed.
Lemma ev_frames (t : P) : rel_frames (ev t).
Proof. constructor. reflexivity. Qed.
Lemma tang_sum : rel_sum T.
Proof. intros a a' b b'. apply TG. Qed.
Lemma ev_sum (t : P) : rel_sum (ev t).
Proof. intros a a' b b' <- <-. reflexivity. Qed.
Lemma ev_fill (t : P) m : rel_fill (ev t) m.
Proof. intros _. reflexivity. Qed.
Lemma ev_list (t : P) l l' : Forall2 (ev t) l l' <-> map (at_ t) l = l'.
Proof.
  split.
  - induction 1 as [|a b k k' <- _ IH]; simpl; [reflexivity|]. now rewrite IH.
  - intros <-. induction l; simpl; constructor; [reflexivity|auto].
Qed.

Section Ind.
Variable Q : (P -> md F) -> md (dual F) -> Prop.
Hypothesis q_delay : forall d f sh, fill_fine T f -> Q (fun _ => MDelay d f sh obj_init) (MDelay d f sh obj_init).
Hypothesis q_skip : forall n o, Q (fun _ => MSkip n o) (MSkip n o).
Hypothesis q_conv : forall c c', moves_conv T c c' -> Q (fun t => MConv (c t) obj_init) (MConv c' obj_init).
Hypothesis q_pool : forall c c', moves_pool T c c' -> Q (fun t => MPool (c t) obj_init) (MPool c' obj_init).
Hypothesis q_map : forall g g', (forall x p, T x p -> T (fun t => g t (x t)) (g' p)) -> Q (fun t => MMap (g t)) (MMap g').
Hypothesis q_rnn : forall c c', moves_rnn T c c' -> Q (fun t => MRnn (c t) None) (MRnn c' None).
Hypothesis q_seq : forall Ms Ds, Forall2 Q Ms Ds -> Q (fun t => MSeq (map (fun M => M t) Ms)) (MSeq Ds).
Hypothesis q_bc : forall n, Q (fun _ => MBroadcast n) (MBroadcast n).
Hypothesis q_par : forall Ms Ds, Forall2 Q Ms Ds -> Q (fun t => MPar (map (fun M => M t) Ms)) (MPar Ds).
Hypothesis q_disp : forall d, Q (fun _ => MDispatch d) (MDispatch d).
Hypothesis q_red : forall r r', moves_red T r r' -> Q (fun t => MReduce (r t)) (MReduce r').
Hypothesis q_br : forall Ms Ds r r', Forall2 Q Ms Ds -> moves_red T r r' ->
  Q (fun t => MBR (map (fun M => M t) Ms) (r t)) (MBR Ds r').

Fixpoint moves_ind' M D (H : moves T M D) {struct H} : Q M D :=
  let go := fix go Ms Ds (H : Forall2 (moves T) Ms Ds) : Forall2 Q Ms Ds :=
    match H with
    | Forall2_nil _ => Forall2_nil Q
    | Forall2_cons _ _ h t => Forall2_cons _ _ (moves_ind' _ _ h) (go _ _ t)
    end in
  match H with
  | mv_delay _ d f sh h => q_delay d f sh h
  | mv_skip _ n o => q_skip n o
  | mv_conv _ c c' h => q_conv c c' h
  | mv_pool _ c c' h => q_pool c c' h
  | mv_map _ g g' h => q_map g g' h
  | mv_rnn _ c c' h => q_rnn c c' h
  | mv_seq _ Ms Ds h => q_seq Ms Ds (go Ms Ds h)
  | mv_bc _ n => q_bc n
  | mv_par _ Ms Ds h => q_par Ms Ds (go Ms Ds h)
  | mv_disp _ d => q_disp d
  | mv_red _ r r' h => q_red r r' h
  | mv_br _ Ms Ds r r' h h' => q_br Ms Ds r r' (go Ms Ds h) h'
  end.
End Ind.

(** The network of curves. *)
Definition lifted (M : P -> md F) (D : md (dual F)) : Prop :=
  exists G : md (P -> F), rel_md T G D /\ forall t, rel_md (ev t) G (M t).

Lemma obj0 {A B} (R : A -> B -> Prop) : rel_obj R obj_init obj_init.
Proof. apply r_obj_init. Qed.

Lemma lift_list Ms Ds : Forall2 lifted Ms Ds ->
  exists Gs, Forall2 (rel_md T) Gs Ds /\ forall t, Forall2 (rel_md (ev t)) Gs (map (fun M => M t) Ms).
Proof.
  induction 1 as [|M D Ms Ds (G & H1 & H2) _ (Gs & I1 & I2)]; [exists []; split; [constructor|intros; constructor]|].
  exists (G :: Gs). split; [now constructor|]. intros t. simpl. constructor; auto.
Qed.

Lemma lift_red r r' (t0 : P) : moves_red T r r' ->
  exists rg : red (P -> F), rel_red T rg r' /\ forall t, rel_red (ev t) rg (r t).
Proof.
  intros [H1 H2].
  exists {| r_op g h := fun t => r_op (r t) (g t) (h t); r_bcast := r_bcast r'; r_min2 := r_min2 r' |}.
  split; [split; cbn; auto|]. intros t. destruct (H1 t). split; cbn; auto. intros a a' b b' <- <-. reflexivity.
Qed.

Lemma lift_cells (t0 : P) fs cs' : Forall2 (moves_cell T) fs cs' ->
  exists gs : list (hid (P -> F) -> (P -> F) -> hid (P -> F) * (P -> F)),
    Forall2 (rel_cell T) gs cs' /\ forall t, Forall2 (rel_cell (ev t)) gs (map (fun f => f t) fs).
Proof.
  induction 1 as [|f f' fs cs' [(n & N1 & N2) H] _ (gs & I1 & I2)].
  { exists []. split; [constructor|intros; constructor]. }
  exists ((fun hs g => (map (fun k t => nth k (fst (f t (map (at_ t) hs) (g t))) f0) (seq 0 n),
                        fun t => snd (f t (map (at_ t) hs) (g t)))) :: gs).
  split.
  - constructor; [|exact I1]. intros hs ps g p Hh Hg. destruct (H hs ps g p Hh Hg) as [Ho Hk]. split; cbn [fst snd]; [|exact Ho].
    assert (E : fst (f' ps p) = map (fun k => nth k (fst (f' ps p)) f0) (seq 0 n)).
    { rewrite <- (N2 ps p). generalize (fst (f' ps p)). intros l. clear. induction l as [|a l IH]; [reflexivity|].
      cbn [length seq map nth]. f_equal. rewrite <- seq_shift, map_map. exact IH. }
    refine (eq_ind_r (fun l => Forall2 T _ l) _ E). apply (r_map_same T). intros k _. apply Hk.
  - intros t. cbn [map]. constructor; [|apply I2]. intros hs ps g p Hh Hg. apply ev_list in Hh. subst ps. red in Hg. subst p.
    split; cbn [fst snd]; [|reflexivity]. apply ev_list. rewrite map_map.
    pose proof (N1 t (map (at_ t) hs) (g t)) as L.
    assert (X : forall l : list F, length l = n -> map (fun k => nth k l f0) (seq 0 n) = l).
    { clear. intros l <-. induction l as [|a l IH]; [reflexivity|]. cbn [length seq map nth]. f_equal. rewrite <- seq_shift, map_map. exact IH. }
    exact (X _ L).
Qed.

Lemma lift_moves (t0 : P) M D : moves T M D -> lifted M D.
Proof.
  revert M D. apply moves_ind'.
  - intros d f sh H. exists (MDelay d f sh obj_init). split; [|intros t]; constructor; try apply obj0; [exact H|apply ev_fill].
  - intros n o. exists (MSkip n o). split; [|intros t]; constructor.
  - intros c c' [Hs Hm Hf HW Hb].
    assert (B : exists bg : option (P -> F), rel_opt T bg (cb c') /\ forall t, rel_opt (ev t) bg (cb (c t))).
    { destruct (cb c') as [b'|].
      - destruct Hb as (b & Eb & Tb). exists (Some b). split; [now constructor|]. intros t. rewrite Eb. constructor. reflexivity.
      - exists None. split; [constructor|]. intros t. rewrite Hb. constructor. }
    destruct B as (bg & B1 & B2).
    exists (MConv {| ck := ck c'; cs := cs c'; cp := cp c'; cW i g := fun t => cW (c t) i (g t); cb := bg;
                     cmode := cmode c'; cfill := cfill c' |} obj_init).
    split.
    + constructor; [|apply obj0]. split; cbn; auto. apply tang_sum.
    + intros t. destruct (Hs t) as (? & ? & ? & ? & ?). constructor; [|apply obj0].
      split; cbn; auto; try apply ev_fill; [|apply ev_sum]. intros i x y <-. reflexivity.
  - intros c c' [Hs Hm Hf Hp Ha].
    exists (MPool {| pk := pk c'; ps := ps c'; pp := pp c'; pd := pd c'; psp g := fun t => psp (c t) (g t);
                     pagg gs := fun t => pagg (c t) (map (at_ t) gs); pfill := pfill c'; pmode := pmode c'; pfdil := pfdil c' |} obj_init).
    split.
    + constructor; [|apply obj0]. split; cbn; auto.
    + intros t. destruct (Hs t) as (? & ? & ? & ? & ? & ? & ?). constructor; [|apply obj0].
      split; cbn; auto; try apply ev_fill; [intros x y <-; reflexivity|]. intros l l' Hl. apply ev_list in Hl. now subst l'.
  - intros g g' H. exists (MMap (fun x t => g t (x t))). split; [|intros t]; constructor; [exact H|]. intros x y <-. reflexivity.
  - intros c c' [(fs & Ef & Hf) (hs & Eh & Hh)]. destruct (lift_cells t0 _ _ Hf) as (gs & G1 & G2).
    exists (MRnn {| r_cells := gs; r_h0 := hs |} None). split.
    + constructor; [|constructor]. split; cbn; auto.
    + intros t. constructor; [|constructor]. split; cbn; [rewrite Ef; apply G2|]. rewrite Eh. now apply ev_list.
  - intros Ms Ds H. destruct (lift_list _ _ H) as (Gs & G1 & G2). exists (MSeq Gs). split; [|intros t]; constructor; auto.
  - intros n. exists (MBroadcast n). split; [|intros t]; constructor.
  - intros Ms Ds H. destruct (lift_list _ _ H) as (Gs & G1 & G2). exists (MPar Gs). split; [|intros t]; constructor; auto.
  - intros d. exists (MDispatch d). split; [|intros t]; constructor.
  - intros r r' H. destruct (lift_red r r' t0 H) as (rg & R1 & R2). exists (MReduce rg). split; [|intros t]; constructor; auto.
  - intros Ms Ds r r' H H'. destruct (lift_list _ _ H) as (Gs & G1 & G2). destruct (lift_red r r' t0 H') as (rg & R1 & R2).
    exists (MBR Gs rg). split; [|intros t]; constructor; auto.
Qed.

Theorem gradients (t0 : P) M D cs cs' : moves T M D -> Forall2 (rel_call T) cs cs' ->
  (exists e, outs (run_calls D cs') = Err e /\ forall t, outs (run_calls (M t) (map (call_map (at_ t)) cs)) = Err e) \/
  (exists ws ws', outs (run_calls D cs') = Ok ws' /\
     (forall t, outs (run_calls (M t) (map (call_map (at_ t)) cs)) = Ok (map (val_map (at_ t)) ws)) /\
     Forall2 (rel_val T) ws ws').
Proof.
  intros HM Hc. destruct (lift_moves t0 M D HM) as (G & G1 & G2).
  pose proof (r_calls T tang_frames cs cs' Hc G D G1) as Hr.
  assert (E : forall t, outs (run_calls (M t) (map (call_map (at_ t)) cs)) = outs_map (at_ t) (outs (run_calls G cs))).
  { intros t. apply (batch_entry (at_ t) G (M t)); [apply ev_frames|apply G2]. }
  inversion Hr as [a b Hab Ea Eb|e Ea Eb].
  - right. destruct a as [ws G'], b as [ws' D']. destruct Hab as [Hw _]. exists ws, ws'. split; [reflexivity|]. split; [|exact Hw].
    intros t. rewrite E, <- Ea. reflexivity.
  - left. exists e. split; [reflexivity|]. intros t. rewrite E, <- Ea. reflexivity.
Qed.

Lemma ev_opts (t : P) l l' : Forall2 (rel_opt (ev t)) l l' -> l' = map (option_map (at_ t)) l.
Proof. induction 1 as [|a b k k' H _ IH]; simpl; [reflexivity|]. rewrite IH. destruct H as [x y <-|]; reflexivity. Qed.

Lemma ev_map (t : P) l : Forall2 (ev t) l (map (at_ t) l).
Proof. now apply ev_list. Qed.

(** A stream of single steps. *)
Theorem step_gradients (t0 : P) M D gs ps zs D1 : moves T M D -> Forall2 T gs ps ->
  feed (nstep true) D ps = Ok (zs, D1) ->
  exists ys, Forall2 (rel_opt T) ys zs /\
    forall t, exists m1, feed (nstep true) (M t) (map (at_ t) gs) = Ok (map (option_map (at_ t)) ys, m1).
Proof.
  intros HM Hg E. destruct (lift_moves t0 M D HM) as (G & G1 & G2).
  pose proof (r_feed T tang_frames _ _ Hg _ _ G1) as Hr. rewrite E in Hr. inversion Hr as [[ys G'] b [Hy _] Ea Eb|]; subst.
  exists ys. split; [exact Hy|]. intros t.
  pose proof (r_feed (ev t) (ev_frames t) _ _ (ev_map t gs) _ _ (G2 t)) as Hr'. rewrite <- Ea in Hr'.
  inversion Hr' as [a [us m1] [Hu _] Ea' Eb|]; subst. exists m1. cbn [fst] in Hu. rewrite (ev_opts _ _ _ Hu). reflexivity.
Qed.

(** A forward pass. *)
Theorem forward_gradients (t0 : P) M D gs ps zs : moves T M D -> Forall2 T gs ps ->
  nfwd D ps = Ok zs ->
  exists ys, Forall2 T ys zs /\ forall t, nfwd (M t) (map (at_ t) gs) = Ok (map (at_ t) ys).
Proof.
  intros HM Hg E. destruct (lift_moves t0 M D HM) as (G & G1 & G2).
  pose proof (r_nfwd T tang_frames _ _ _ _ Hg G1) as Hr. rewrite E in Hr. inversion Hr as [ys b Hy Ea Eb|]; subst.
  exists ys. split; [exact Hy|]. intros t.
  pose proof (r_nfwd (ev t) (ev_frames t) _ _ _ _ (ev_map t gs) (G2 t)) as Hr'. rewrite <- Ea in Hr'.
  inversion Hr' as [a us Hu Ea' Eb|]; subst. f_equal. symmetry. now apply ev_list.
Qed.

End Curves.
