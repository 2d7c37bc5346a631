(** C80: gradients of steps. *)
From Coq Require Import List ZArith Bool Arith Lia Permutation.
From Verif Require Import Base Frames CoMod Leaf Rnn Net Spec LeafSpec NetSpec NetOk Calls NetDef NetRel NetThm NetFwd Batch ZFrames ZNets.
From Verif Require Import Reload Grad GradSpec GradProof GradDetach.
Import ListNotations.

(** C80.  The parameters of a new network and all its inputs depend on [t].  For
    every history of calls (steps, chunks, padded ends, forward passes, clean-ups)
    the network with tangents raises exactly the exceptions that the networks
    [M t] raise, and otherwise its outputs are, at every [t], those of [M t], with
    their derivatives as tangents. *)
Theorem C80_gradients :
  forall (P F : Type) (FA : Frames F) (T : (P -> F) -> dual F -> Prop), tangency T ->
  forall (t0 : P) (M : P -> md F) (D : md (dual F)) (cs : list (call (P -> F))) (cs' : list (call (dual F))),
    moves T M D -> Forall2 (rel_call T) cs cs' ->
    (exists e, outs (run_calls D cs') = Err e /\ forall t, outs (run_calls (M t) (map (call_map (at_ t)) cs)) = Err e) \/
    (exists ws ws', outs (run_calls D cs') = Ok ws' /\
       (forall t, outs (run_calls (M t) (map (call_map (at_ t)) cs)) = Ok (map (val_map (at_ t)) ws)) /\
       Forall2 (rel_val T) ws ws').
Proof. exact @gradients. Qed.
Print Assumptions C80_gradients.

(** The same for a stream of steps and for a forward pass. *)
Theorem C80_step_gradients :
  forall (P F : Type) (FA : Frames F) (T : (P -> F) -> dual F -> Prop), tangency T ->
  forall (t0 : P) (M : P -> md F) (D : md (dual F)) (gs : list (P -> F)) (ps : list (dual F)) zs D1,
    moves T M D -> Forall2 T gs ps -> feed (nstep true) D ps = Ok (zs, D1) ->
    exists ys, Forall2 (rel_opt T) ys zs /\
      forall t, exists m1, feed (nstep true) (M t) (map (at_ t) gs) = Ok (map (option_map (at_ t)) ys, m1).
Proof. exact @step_gradients. Qed.
Print Assumptions C80_step_gradients.

Theorem C80_forward_gradients :
  forall (P F : Type) (FA : Frames F) (T : (P -> F) -> dual F -> Prop), tangency T ->
  forall (t0 : P) (M : P -> md F) (D : md (dual F)) (gs : list (P -> F)) (ps : list (dual F)) zs,
    moves T M D -> Forall2 T gs ps -> nfwd D ps = Ok zs ->
    exists ys, Forall2 T ys zs /\ forall t, nfwd (M t) (map (at_ t) gs) = Ok (map (at_ t) ys).
Proof. exact @forward_gradients. Qed.
Print Assumptions C80_forward_gradients.

(** Steps give the gradients of forward: tangents follow the same schedule as the
    values. *)
Theorem C80_steps_and_forward :
  forall (F : Type) (FA : Frames F) (FL : FrameLaws F) (sh : bool) (D : md (dual F)) (xs ws zs : list (dual F)),
    net sh D -> nfwd D (xs ++ ws) = Ok zs ->
    exists D', feed (nstep true) D xs
      = Ok (map (scheduled (Z.to_nat (del D)) (Z.to_nat (strd D)) zs) (seq 0 (length xs)), D').
Proof. intros F FA FL. exact (@net_sched (dual F) dual_frames dual_laws). Qed.
Print Assumptions C80_steps_and_forward.

Theorem C80_dual_layers :
  forall (F : Type) (FA : Frames F) (FL : FrameLaws F) (c : conv_cfg F) (dW : nat -> F -> F) (db : F) (p : pool_cfg F),
    (conv_ok c -> (forall i, dW i f0 = f0) -> conv_ok (dual_conv c dW db)) /\
    (pool_ok p -> pmode p <> NegInf -> pool_ok (dual_pool p)).
Proof. intros. split; [apply dual_conv_ok|apply dual_pool_ok]. Qed.
Print Assumptions C80_dual_layers.

(** Integers: [g t = x + t * dx + t^2 * (an integer)] for all [t]. *)
Definition zder (g : Z -> Z) (p : dual Z) : Prop :=
  exists r : Z -> Z, forall t, g t = (pri p + t * tan p + t * t * r t)%Z.
Lemma zder_tangency : tangency zder.
Proof.
  split; [exists (fun _ => 0%Z); intros; cbn; ring|]. intros g h p q [r Hr] [s Hs].
  exists (fun t => r t + s t)%Z. intros t. cbn. rewrite Hr, Hs. ring.
Qed.
(** This determines value and derivative. *)
Theorem C80_integer_derivative_unique : forall g p q, zder g p -> zder g q -> p = q.
Proof.
  intros g [x dx] [y dy] [r Hr] [s Hs]. cbn in *.
  assert (E0 : x = y) by (specialize (Hr 0%Z); specialize (Hs 0%Z); lia). subst y. f_equal.
  set (t := (Z.abs (dx - dy) + 1)%Z).
  assert (E : (t * (dx - dy) = t * (t * (s t - r t)))%Z) by (specialize (Hr t); specialize (Hs t); lia).
  apply Z.mul_cancel_l in E; [|lia].
  destruct (Z.eq_dec (s t - r t) 0) as [Z0|Z0]; [rewrite Z0 in E; lia|].
  assert (Z.abs (dx - dy) = t * Z.abs (s t - r t))%Z by (rewrite E at 1; rewrite Z.abs_mul; lia). nia.
Qed.
Print Assumptions C80_integer_derivative_unique.

(** A convolution whose first weight moves, followed by squaring. *)
Definition zM (t : Z) : md Z :=
  MSeq (map (fun M => M t) [(fun t => MConv (zconv [1 + 3 * t; 2] 1 0 (Some (7 + t)) Zeros Zeros) obj_init); (fun _ => MMap (fun x => x * x))])%Z.
Definition zdW : nat -> Z -> Z := fun i x => (nth i [3; 0] 0 * x)%Z.
Definition zC : conv_cfg (dual Z) := dual_conv (zconv [1; 2]%Z 1 0 (Some 7%Z) Zeros Zeros) zdW 1%Z.
Definition zD : md (dual Z) := MSeq [MConv zC obj_init; MMap (dual_map (fun x => x * x)%Z (fun x dx => 2 * x * dx)%Z)].
Lemma zM_moves : moves zder zM zD.
Proof.
  unfold zM, zD. apply (mv_seq zder [(fun t => MConv (zconv [1 + 3 * t; 2] 1 0 (Some (7 + t)) Zeros Zeros) obj_init); (fun _ => MMap (fun x => x * x))]%Z).
  constructor; [|constructor; [|constructor]].
  - apply (mv_conv zder (fun t => zconv [1 + 3 * t; 2] 1 0 (Some (7 + t)) Zeros Zeros)%Z).
    split; cbn [zC dual_conv zconv cb cmode cfill option_map].
    + intros t. repeat split.
    + intros E. discriminate E.
    + intros E. discriminate E.
    + intros i g [x dx] [r Hr]. cbn [pri tan] in Hr.
      destruct i as [|[|i]]; unfold zder, zC; cbn [dual_conv zconv cW pri tan fadd ZF nth]; unfold zdW; cbn [nth].
      * exists (fun t => r t + 3 * dx + 3 * t * r t)%Z. intros t. rewrite Hr. ring.
      * exists (fun t => 2 * r t)%Z. intros t. rewrite Hr. ring.
      * exists (fun t => 0)%Z. intros t. destruct i; ring.
    + exists (fun t => 7 + t)%Z. split; [reflexivity|]. exists (fun _ => 0)%Z. intros t. cbn [pri tan]. ring.
  - apply (mv_map zder (fun _ x => x * x)%Z). intros g [x dx] [r Hr]. cbn [pri tan] in Hr.
    exists (fun t => dx * dx + 2 * x * r t + 2 * t * dx * r t + t * t * r t * r t)%Z. intros t. unfold dual_map. cbn [pri tan]. rewrite Hr. ring.
Qed.
Lemma zC_ok : conv_ok zC.
Proof. apply dual_conv_ok; [split; cbn; try lia; try discriminate; auto; intros [|[|[|i]]]; reflexivity|]. intros [|[|[|i]]]; reflexivity. Qed.
Example C80_gradients_example :
  tangency zder /\ moves zder zM zD /\ net true zD /\
  Forall2 zder [(fun _ => 1); (fun t => 2 + t); (fun _ => 5)]%Z [Du 1 0; Du 2 1; Du 5 0]%Z /\
  (exists D1, feed (nstep true) zD [Du 1 0; Du 2 1; Du 5 0]%Z = Ok ([None; Some (Du 144 144); Some (Du 361 304)]%Z, D1)) /\
  (exists m1, feed (nstep true) (zM 10) [1; 12; 5]%Z = Ok ([None; Some (72 * 72); Some (399 * 399)]%Z, m1)) /\
  (72 * 72 = 144 + 10 * 144 + 10 * 10 * 36)%Z /\ (399 * 399 = 361 + 10 * 304 + 10 * 10 * 1558)%Z /\
  nfwd zD [Du 1 0; Du 2 1; Du 5 0]%Z = Ok [Du 144 144; Du 361 304]%Z.
Proof.
  split; [apply zder_tangency|]. split; [apply zM_moves|]. split.
  { apply (net_seq true [MConv zC obj_init; MMap (dual_map (fun x => x * x)%Z (fun x dx => 2 * x * dx)%Z)]).
    intros m [<-|[<-|[]]]; constructor. apply zC_ok. }
  split.
  { apply Forall2_cons; [|apply Forall2_cons; [|apply Forall2_cons; [|apply Forall2_nil]]]; exists (fun _ => 0%Z); intros t; cbn [pri tan]; ring. }
  split; [eexists; vm_compute; reflexivity|]. split; [eexists; vm_compute; reflexivity|]. split; [reflexivity|]. split; [reflexivity|]. reflexivity.
Qed.

(** Detached buffers.  The values of all later outputs stay the same, if they do
    not depend on tangents. *)
Theorem C80_detach_keeps_values :
  forall (F : Type) (FA : Frames F) (D : md (dual F)) (m : md F) (history : list (call (dual F))) ws D1 (cs : list (call (dual F))),
    rel_md (graph pri) D m -> run_calls D history = Ok (ws, D1) ->
    outs_map pri (outs (run_calls (detach D1) cs)) = outs_map pri (outs (run_calls D1 cs)).
Proof. exact @detach_values. Qed.
Print Assumptions C80_detach_keeps_values.

(** From [receptive_field - 1] frames later on, all outputs have full gradients. *)
Theorem C80_detach_recovers :
  forall (F : Type) (FA : Frames F) (sh : bool) (D : md (dual F)) (xs : list (dual F)) us D1 (b c : list (dual F)),
    net sh D -> rnn_free D -> feed (nstep true) D xs = Ok (us, D1) -> (rfield D - 1 <= Z.of_nat (length b))%Z ->
    exists ub vb ws E1 E2,
      feed (nstep true) (detach D1) (b ++ c) = Ok (ub ++ ws, E1) /\ length ub = length b /\
      feed (nstep true) D1 (b ++ c) = Ok (vb ++ ws, E2) /\ length vb = length b.
Proof. exact @detach_gradients. Qed.
Print Assumptions C80_detach_recovers.

(** In between, a convolution misses exactly the terms of the frames that arrived
    before: their products with the moving weights, too. *)
Theorem C80_truncated_gradient :
  forall (F : Type) (FA : Frames F) (FL : FrameLaws F) (c : conv_cfg F) (dW : nat -> F -> F) (db : F),
    conv_ok c -> (forall i, dW i f0 = f0) ->
    forall (a b : list (dual F)), a <> [] ->
    forall us m1, feed (nstep true) (MConv (dual_conv c dW db) obj_init) a = Ok (us, m1) ->
    exists ys m2, feed (nstep true) (detach m1) b = Ok (ys, m2) /\
      map (option_map tan) ys =
      map (fun n => if emits (ck c - 1 - cp c) (cs c) n then Some (truncated c dW db (a ++ b) (length a) n) else None)
        (seq (length a) (length b)).
Proof. exact @truncated_gradient. Qed.
Print Assumptions C80_truncated_gradient.

Lemma zC_pri : rel_md (graph pri) (MConv zC obj_init) (MConv (zconv [1; 2]%Z 1 0 (Some 7%Z) Zeros Zeros) obj_init).
Proof.
  constructor; [|split; [constructor|auto]]. split; try reflexivity; cbn; try discriminate.
  - intros i x y <-. reflexivity.
  - constructor. reflexivity.
  - intros a a' b b' <- <-. reflexivity.
Qed.
(** After the detach, the gradient of the first output misses [3 * 2]. *)
Example C80_detach_example :
  rel_md (graph pri) (MConv zC obj_init) (MConv (zconv [1; 2]%Z 1 0 (Some 7%Z) Zeros Zeros) obj_init) /\
  net true (MConv zC obj_init) /\ rnn_free (MConv zC obj_init) /\ rfield (MConv zC obj_init) = 2%Z /\
  (exists D1, feed (nstep true) (MConv zC obj_init) [Du 1 0; Du 2 0]%Z = Ok ([None; Some (Du 12 4)]%Z, D1) /\
    (exists E1, feed (nstep true) (detach D1) [Du 5 0; Du 6 0]%Z = Ok ([Some (Du 19 1); Some (Du 24 16)]%Z, E1)) /\
    (exists E2, feed (nstep true) D1 [Du 5 0; Du 6 0]%Z = Ok ([Some (Du 19 7); Some (Du 24 16)]%Z, E2))) /\
  map (truncated (zconv [1; 2]%Z 1 0 (Some 7%Z) Zeros Zeros) zdW 1%Z [Du 1 0; Du 2 0; Du 5 0; Du 6 0]%Z 2) [2; 3] = [1; 16]%Z.
Proof.
  split; [apply zC_pri|]. split; [constructor; apply zC_ok|]. split; [exact I|]. split; [reflexivity|].
  split; [|reflexivity]. eexists. split; [vm_compute; reflexivity|]. split; eexists; vm_compute; reflexivity.
Qed.

(** One frame less is not enough. *)
Theorem C80_detach_recovers_sharp :
  exists (D : md (dual Z)) xs us D1 (b : list (dual Z)) x u v y z E1 E2,
    net true D /\ rnn_free D /\ feed (nstep true) D xs = Ok (us, D1) /\ (rfield D - 1 = Z.of_nat (length b) + 1)%Z /\
    feed (nstep true) (detach D1) (b ++ [x]) = Ok (u ++ [Some y], E1) /\
    feed (nstep true) D1 (b ++ [x]) = Ok (v ++ [Some z], E2) /\ pri y = pri z /\ tan y <> tan z.
Proof.
  exists (MConv zC obj_init), [Du 1 0; Du 2 0]%Z, [None; Some (Du 12 4)]%Z. eexists. exists [], (Du 5 0)%Z, [], [], (Du 19 1)%Z, (Du 19 7)%Z. do 2 eexists.
  split; [constructor; apply zC_ok|]. split; [exact I|]. split; [vm_compute; reflexivity|]. split; [reflexivity|].
  split; [vm_compute; reflexivity|]. split; [vm_compute; reflexivity|]. split; [reflexivity|]. discriminate.
Qed.
Print Assumptions C80_detach_recovers_sharp.

(** Recurrent modules never recover: the hidden state carries the tangent. *)
Definition zacc : md (dual Z) :=
  MRnn {| r_cells := [fun h x => let y := fadd (nth 0 h f0) x in ([y], y)]; r_h0 := [f0] |} None.
Theorem C80_detach_rnn_refuted :
  exists (D : md (dual Z)) xs us D1,
    net true D /\ feed (nstep true) D xs = Ok (us, D1) /\
    forall n, exists u v y z E1 E2,
      feed (nstep true) (detach D1) (repeat (Du 1 0)%Z n ++ [Du 1 0]%Z) = Ok (u ++ [Some y], E1) /\
      feed (nstep true) D1 (repeat (Du 1 0)%Z n ++ [Du 1 0]%Z) = Ok (v ++ [Some z], E2) /\ pri y = pri z /\ tan y <> tan z.
Proof.
  exists zacc, [Du 4 1]%Z, [Some (Du 4 1)]%Z. eexists. split; [constructor|]. split; [vm_compute; reflexivity|].
  set (cfg := {| r_cells := [fun h x => let y := fadd (nth 0 h f0) x in ([y], y)]; r_h0 := [f0] |} : rnn_cfg (dual Z)).
  assert (G : forall d n a, exists u E, feed (nstep true) (MRnn cfg (Some [[Du a d]])) (repeat (Du 1 0)%Z n ++ [Du 1 0]%Z)
    = Ok (u ++ [Some (Du (a + Z.of_nat n + 1) d)], E)%Z).
  { intros d. induction n as [|n IH]; intros a.
    - exists []. eexists. replace (a + Z.of_nat 0 + 1)%Z with (a + 1)%Z by lia. cbn [repeat app feed]. unfold nstep. cbn. rewrite Z.add_0_r. reflexivity.
    - destruct (IH (a + 1)%Z) as (u & E & H). exists (Some (Du (a + 1) d)%Z :: u), E. cbn [repeat app feed].
      replace (nstep true (MRnn cfg (Some [[Du a d]])) (Du 1 0)%Z) with (@Ok (option (dual Z) * md (dual Z)) (Some (Du (a + 1) d)%Z, MRnn cfg (Some [[Du (a + 1) d]])%Z)).
      2: { unfold nstep. cbn. now rewrite Z.add_0_r. }
      cbn [bind]. rewrite H. cbn [bind app]. replace (a + 1 + Z.of_nat n + 1)%Z with (a + Z.of_nat (S n) + 1)%Z by lia. reflexivity. }
  intros n. destruct (G 0%Z n 4%Z) as (u & E1 & H1). destruct (G 1%Z n 4%Z) as (v & E2 & H2).
  exists u, v. do 2 eexists. exists E1, E2. split; [exact H1|]. split; [exact H2|]. split; [reflexivity|]. discriminate.
Qed.
Print Assumptions C80_detach_rnn_refuted.

(** Max pooling.  Without ties the gradient goes to the same frame in whatever
    order the frames are compared. *)
Theorem C80_max_without_ties :
  forall (F : Type) (FA : Frames F) (le : F -> F -> bool) (l l' : list (dual F)) (p : dual F),
    Permutation l l' -> In p l ->
    (forall q, In q l -> q = p \/ (le (pri q) (pri p) = true /\ le (pri p) (pri q) = false)) ->
    first_max le l = p /\ first_max le l' = p.
Proof.
  intros F FA le l l' p Hp Hi H. split; [now apply first_max_unique|]. apply first_max_unique.
  - now apply (Permutation_in p Hp).
  - intros q Hq. apply H. now apply (Permutation_in q (Permutation_sym Hp)).
Qed.
Print Assumptions C80_max_without_ties.

(** With ties it does not: a step compares the frames in the order of the ring
    buffer, [forward] in the order of time.  The values agree, the gradients go to
    different frames. *)
Definition zmaxd (k : nat) : pool_cfg (dual Z) :=
  {| pk := k; ps := 1; pp := 0; pd := 1; psp := fun x => x; pagg := first_max Z.leb; pfill := NegInf; pmode := NegInf; pfdil := 1 |}.
Theorem C80_max_pool_ties_refuted :
  exists (c : pool_cfg (dual Z)) (xs : list (dual Z)) ys zs m1,
    feed (nstep true) (MPool c obj_init) xs = Ok (ys, m1) /\ nfwd (MPool c obj_init) xs = Ok zs /\
    map pri (somes ys) = map pri zs /\ map tan (somes ys) <> map tan zs.
Proof.
  exists (zmaxd 2), [Du 5 0; Du 5 1; Du 5 0]%Z, [None; Some (Du 5 0); Some (Du 5 0)]%Z, [Du 5 0; Du 5 1]%Z. eexists.
  split; [vm_compute; reflexivity|]. split; [reflexivity|]. split; [reflexivity|]. discriminate.
Qed.
Print Assumptions C80_max_pool_ties_refuted.

(** Three frames in two orders; only one has the maximum. *)
Example C80_max_example :
  first_max Z.leb [Du 1 7; Du 5 1; Du 2 9]%Z = (Du 5 1)%Z /\ first_max Z.leb [Du 2 9; Du 5 1; Du 1 7]%Z = (Du 5 1)%Z /\
  forall q, In q [Du 1 7; Du 5 1; Du 2 9]%Z -> q = (Du 5 1)%Z \/ (Z.leb (pri q) 5%Z = true /\ Z.leb 5%Z (pri q) = false).
Proof. split; [reflexivity|]. split; [reflexivity|]. intros q [<-|[<-|[<-|[]]]]; cbn; auto. Qed.
