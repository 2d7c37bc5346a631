(** Properties C53 and C54: batch entries do not influence each other;
    superposition and equivariance. *)
From Coq Require Import List ZArith Bool Arith Lia.
From Verif Require Import Base Frames CoMod Leaf Rnn Net Spec LeafSpec NetSpec Calls NetDef NetRel Batch.
From Verif Require Import RelProof BatchProof ZFrames ZNets.
Import ListNotations.

(** C53.  Two networks of the same architecture and temporal configuration whose
    frame operations and buffers respect a relation between frames return related
    results, or raise the same exception, for every history of calls. *)
Theorem C53_related_networks :
  forall (F G : Type) (FA : Frames F) (GA : Frames G) (R : F -> G -> Prop), rel_frames R ->
  forall cs cs', Forall2 (rel_call R) cs cs' ->
  forall (m : md F) (m' : md G), rel_md R m m' ->
    rel_res (rel_pair (Forall2 (rel_val R)) (rel_md R)) (run_calls m cs) (run_calls m' cs').
Proof. exact @r_calls. Qed.
Print Assumptions C53_related_networks.

Theorem C53_related_explicit_state :
  forall (F G : Type) (FA : Frames F) (GA : Frames G) (R : F -> G -> Prop), rel_frames R ->
  forall vs vs', Forall2 (rel_val R) vs vs' ->
  forall (m : md F) (m' : md G) s s', rel_md R m m' -> rel_opt (rel_sst R) s s' ->
    rel_res (rel_pair (Forall2 (rel_val R)) (rel_opt (rel_sst R))) (run_fsteps m s vs) (run_fsteps m' s' vs').
Proof. exact @r_fsteps. Qed.
Print Assumptions C53_related_explicit_state.

(** If the operations of [M] act on one entry of a batch as those of [m] (the
    entry is picked by [pr]), that entry of all outputs is what [m] returns for
    that entry of the inputs. *)
Theorem C53_batch_entry :
  forall (F G : Type) (FA : Frames F) (GA : Frames G) (pr : F -> G) (M : md F) (m : md G) (cs : list (call F)),
    rel_frames (graph pr) -> rel_md (graph pr) M m ->
    outs (run_calls m (map (call_map pr) cs)) = outs_map pr (outs (run_calls M cs)).
Proof. exact @batch_entry. Qed.
Print Assumptions C53_batch_entry.

(** The other entries have no influence. *)
Theorem C53_no_leak :
  forall (F G : Type) (FA : Frames F) (GA : Frames G) (pr : F -> G) (M : md F) (m : md G) (cs cs' : list (call F)),
    rel_frames (graph pr) -> rel_md (graph pr) M m ->
    map (call_map pr) cs = map (call_map pr) cs' ->
    outs_map pr (outs (run_calls M cs)) = outs_map pr (outs (run_calls M cs')).
Proof. exact @batch_no_leak. Qed.
Print Assumptions C53_no_leak.

(** Two streams stacked into a batch. *)
Theorem C53_two_streams :
  forall (F : Type) (FA : Frames F) (m : md F) (cs : list (call (F * F))),
    cond_free m -> cells_len m ->
    outs (run_calls m (map (call_map fst) cs)) = outs_map fst (outs (run_calls (two_md m) cs)) /\
    outs (run_calls m (map (call_map snd) cs)) = outs_map snd (outs (run_calls (two_md m) cs)).
Proof. exact @two_streams. Qed.
Print Assumptions C53_two_streams.

(** The predicate of a Conditional sees the whole batch: entries do leak. *)
Theorem C53_conditional_leaks_refuted :
  exists (p : val (Z * Z) -> bool) (m : md Z) (cs cs' : list (call (Z * Z))) w w',
    cond_free m /\ cells_len m /\
    map (call_map fst) cs = map (call_map fst) cs' /\
    outs (run_calls (MCond p 0 1 (two_md m) None) cs) = Ok w /\
    outs (run_calls (MCond p 0 1 (two_md m) None) cs') = Ok w' /\
    map (val_map fst) w <> map (val_map fst) w'.
Proof.
  exists (fun v => match v with VT p => Z.ltb 0 (snd p) | _ => false end), (MMap (fun x => 2 * x)%Z),
    [CStep (VT (1, 1)%Z) true], [CStep (VT (1, -1)%Z) true]. do 2 eexists.
  split; [exact I|]. split; [exact I|]. split; [reflexivity|]. split; [reflexivity|]. split; [reflexivity|]. discriminate.
Qed.
Print Assumptions C53_conditional_leaks_refuted.

Example C53_example :
  cond_free (MSeq [ex_net; zrnn]) /\ cells_len (MSeq [ex_net; zrnn]) /\
  outs (run_calls (two_md (MSeq [ex_net; zrnn])) [CSteps (VS [(1, 7); (2, 7); (3, 7); (4, 7)]) false true; CStep (VT (5, 7)) true;
      CSteps (VS [(6, 7); (7, 7); (8, 7); (9, 7)]) false true])%Z
    = Ok [VNone; VT (18669, 48538); VS [(71088, 148813); (190710, 349370)]]%Z /\
  outs (run_calls (MSeq [ex_net; zrnn]) [CSteps (VS [1; 2; 3; 4]) false true; CStep (VT 5) true; CSteps (VS [6; 7; 8; 9]) false true])%Z
    = Ok [VNone; VT 18669; VS [71088; 190710]]%Z.
Proof. split; [cbn; tauto|]. split; [cbn; repeat (split; auto); constructor; [intros h h' x x' _; reflexivity|constructor]|]. split; vm_compute; reflexivity. Qed.

(** C54.  A new network without biases, made of linear operations, maps the sum of
    two histories of inputs to the sum of the outputs. *)
Theorem C54_superposition :
  forall (F : Type) (FA : Frames F) (FL : FrameLaws F) (m : md F) (cs : list (call (F * F))),
    linear m -> fresh m ->
    exists W,
      outs (run_calls m (map (call_map fst) cs)) = outs_map fst W /\
      outs (run_calls m (map (call_map snd) cs)) = outs_map snd W /\
      outs (run_calls m (map (call_map plus) cs)) = outs_map plus W.
Proof. exact @superposition. Qed.
Print Assumptions C54_superposition.

(** A map of frames that commutes with all operations of a new network (scaling,
    a spatial shift or flip, a permutation of channels) commutes with the
    network, for every history. *)
Theorem C54_equivariance :
  forall (F : Type) (FA : Frames F) (h : F -> F) (m : md F) (cs : list (call F)),
    h f0 = f0 -> additive h -> equivariant h m -> fresh m ->
    outs (run_calls m (map (call_map h) cs)) = outs_map h (outs (run_calls m cs)).
Proof. exact @equivariance. Qed.
Print Assumptions C54_equivariance.

(** With a bias superposition fails. *)
Theorem C54_bias_refuted :
  exists (m : md Z) (cs : list (call (Z * Z))),
    fresh m /\ ~ exists W,
      outs (run_calls m (map (call_map fst) cs)) = outs_map fst W /\
      outs (run_calls m (map (call_map snd) cs)) = outs_map snd W /\
      outs (run_calls m (map (call_map plus) cs)) = outs_map plus W.
Proof.
  exists (MConv (zconv [1; 1]%Z 1 0 (Some 5%Z) Zeros Zeros) obj_init),
    [CStep (VT (1, 2)%Z) true; CStep (VT (3, 4)%Z) true].
  split; [reflexivity|]. intros (W & H1 & H2 & H3). vm_compute in H1, H2, H3.
  destruct W as [W|]; [|discriminate].
  destruct W as [|a [|b [|c W]]]; try discriminate.
  injection H1 as A1 B1. injection H2 as A2 B2. injection H3 as A3 B3.
  destruct b as [|[x y]| |]; try discriminate. injection B1 as B1. injection B2 as B2. injection B3 as B3.
  cbn in *. subst. discriminate.
Qed.
Print Assumptions C54_bias_refuted.

Lemma zsum_plus (l : list (Z * Z)) : fold_right Z.add 0%Z (map plus l) = (fold_right Z.add 0 (map fst l) + fold_right Z.add 0 (map snd l))%Z.
Proof. induction l as [|[a b] l IH]; [reflexivity|]. cbn [map fold_right fst snd]. rewrite IH. unfold plus. cbn. lia. Qed.

Example C54_example :
  linear ex_net /\ fresh ex_net /\
  outs (run_calls ex_net [CSteps (VS [1; 2; 3; 4; 5; 6; 7; 8; 9]) false true]%Z) = Ok [VS [18669; 33750; 48534]]%Z /\
  outs (run_calls ex_net [CSteps (VS [1; 0; 0; 0; 0; 0; 0; 0; 1]) false true]%Z) = Ok [VS [1011; 20; 300]]%Z /\
  outs (run_calls ex_net [CSteps (VS [2; 2; 3; 4; 5; 6; 7; 8; 10]) false true]%Z) = Ok [VS [19680; 33770; 48834]]%Z.
Proof.
  split.
  { cbn. repeat split; try discriminate; try (intros i x y); try (intros x y); try (intros; cbn; lia); try (apply zsum_plus). }
  split; [cbn; tauto|]. split; [vm_compute; reflexivity|]. split; vm_compute; reflexivity.
Qed.

Example C54_example_scaling :
  equivariant (fun x => x * 3)%Z ex_net /\ fresh ex_net /\ additive (fun x => x * 3)%Z /\
  outs (run_calls ex_net [CSteps (VS [3; 6; 9; 12; 15; 18; 21; 24; 27]) false true]%Z) = Ok [VS [56007; 101250; 145602]]%Z.
Proof.
  split.
  { cbn. repeat split; try discriminate; try (intros i x); try (intros x); try (intros; cbn; lia).
    intros. unfold id. induction x as [|a l IH]; [reflexivity|]. cbn [map fold_right]. rewrite IH. lia. }
  split; [cbn; tauto|]. split; [intros x y; cbn; lia|]. vm_compute. reflexivity.
Qed.
