(** Properties C19-C25 and C39: parallel containers, Residual, ParallelDispatch,
    Conditional, explicit state and warm-up. *)
From Coq Require Import List ZArith Bool Arith Lia.
From Verif Require Import Base Frames CoMod Leaf Rnn Net Spec LeafSpec NetSpec Calls NetDef.
From Verif Require Import NetAlg NetFun NetRes NetThm ZFrames ZNets.
Import ListNotations.

(** C19.  Any history of calls, with all flags, in any state. *)
Theorem C19_broadcast_reduce_as_sequential :
  forall (F : Type) (FA : Frames F) (cs : list (call F)) (ms : list (md F)) (r : red F),
    ms <> [] -> forallb clip_call cs = true ->
    run_calls (as_seq (MBR ms r)) cs
    = bind (run_calls (MBR ms r) cs) (fun p => Ok (fst p, as_seq (snd p))).
Proof. exact @br_seq_calls. Qed.
Print Assumptions C19_broadcast_reduce_as_sequential.

(** The constructors build corresponding objects. *)
Theorem C19_constructors :
  forall (F : Type) (ms : list (md F)) (r : red F) (auto : bool) (m : md F),
    mk_br ms r auto = Ok m ->
    exists p, mk_par ms auto = Ok p /\ mk_seq [MBroadcast None; p; MReduce r] = as_seq m.
Proof. exact @br_seq_make. Qed.
Print Assumptions C19_constructors.

(** They report the same numbers. *)
Theorem C19_reports :
  forall (F : Type) (FA : Frames F) (sh : bool) (ms : list (md F)) (r : red F) (auto : bool) (m : md F),
    (forall x, In x ms -> net sh x) -> aligned ms auto -> mk_br ms r auto = Ok m ->
    same_len (branches m) ->
    rfield (as_seq m) = rfield m /\ padg (as_seq m) = padg m /\
    strd (as_seq m) = strd m /\ del (as_seq m) = del m.
Proof. exact @br_seq_reports. Qed.
Print Assumptions C19_reports.

Example C19_example :
  let history := [CStep (VT 1) true; CStep (VT 2) true; CSteps (VS [3; 4]) true true; CForward (VS [1; 2]);
                  CClean; CStep (VT 3) false]%Z in
  (exists m', run_calls ex_br history = Ok ([VNone; VT 13; VS [24; 35; 31]; VS [13; 15]; VNone; VNone]%Z, m')) /\
  (exists m', run_calls (as_seq ex_br) history = Ok ([VNone; VT 13; VS [24; 35; 31]; VS [13; 15]; VNone; VNone]%Z, m')).
Proof. cbv zeta. runs. Qed.

(** C20.  auto_delay with branches of stride 1: at step n output n - D of every
    branch is reduced, D being the largest delay. *)
Theorem C20_auto_delay :
  forall (F : Type) (FA : Frames F) (FL : FrameLaws F) (sh : bool) (ms : list (md F)) (r : red F) (m : md F)
         (xs ws : list F) (zss : list (list F)),
    (forall x, In x ms -> net sh x) -> (forall x, In x ms -> strd x = 1%Z) ->
    mk_br ms r true = Ok m ->
    Forall2 (fun x zs => nfwd x (xs ++ ws) = Ok zs) ms zss ->
    exists m',
      feed (nstep true) m xs
      = Ok (map (fun n => if Nat.ltb n (Z.to_nat (zmax_list (map del ms))) then None
                          else combined r zss (n - Z.to_nat (zmax_list (map del ms))))
                (seq 0 (length xs)), m').
Proof. exact @auto_delay_step. Qed.
Print Assumptions C20_auto_delay.

Example C20_example :
  exists m m',
    mk_br [cv [1; 10; 100] 1 1; cv [1; 2; 3; 4; 5] 1 2; cv [7] 1 0]%Z zred true = Ok m /\
    feed (nstep true) m [1; 2; 3; 4; 5]%Z = Ok ([None; None; Some 243; Some 375; Some 508]%Z, m') /\
    nfwd (cv [1; 10; 100]%Z 1 1) [1; 2; 3; 4; 5; 0; 0]%Z = Ok [210; 321; 432; 543; 54; 5; 0]%Z /\
    nfwd (cv [1; 2; 3; 4; 5]%Z 1 2) [1; 2; 3; 4; 5; 0; 0]%Z = Ok [26; 40; 55; 40; 26; 14; 5]%Z /\
    (243 = 210 + 26 + 7 * 1 /\ 375 = 321 + 40 + 7 * 2)%Z.
Proof.
  exists (get (mk_br [cv [1; 10; 100] 1 1; cv [1; 2; 3; 4; 5] 1 2; cv [7] 1 0]%Z zred true)). eexists.
  split; [reflexivity|]. runs.
Qed.

(** With stride 2 the delay is counted in output frames and the branches drift
    apart: nothing is ever returned although [forward] and pad_end=True agree. *)
Theorem C20_strided_auto_delay_refuted :
  exists (ms : list (md Z)) (r : red Z) (m : md Z) (xs ys zs : list Z) m1 m2,
    (forall x, In x ms -> net false x) /\ (forall x, In x ms -> strd x = 2%Z) /\
    mk_br ms r true = Ok m /\ nfwd m xs = Ok (ys ++ zs) /\ length ys = 4 /\
    steps m (VS xs) true true = Ok (VS (ys ++ zs), m1) /\
    feed (nstep true) m xs = Ok (repeat None (length xs), m2).
Proof.
  exists [cv [1; 1; 1; 1; 1]%Z 2 2; cv [1; 10; 100]%Z 2 1], zred.
  exists (get (mk_br [cv [1; 1; 1; 1; 1]%Z 2 2; cv [1; 10; 100]%Z 2 1] zred true)).
  exists [1; 2; 3; 4; 5; 6; 7; 8; 9]%Z, [216; 447; 679; 911]%Z, [122]%Z. do 2 eexists.
  split; [intros x [<-|[<-|[]]]; constructor; apply cv_ok; simpl; lia|].
  split; [intros x [<-|[<-|[]]]; reflexivity|]. split; [reflexivity|].
  split; [runs|]. split; [reflexivity|]. split; [run|run].
Qed.
Print Assumptions C20_strided_auto_delay_refuted.

(** C21.  Residual: which input frame is added at each step. *)
Theorem C21_residual_step :
  forall (F : Type) (FA : Frames F) (FL : FrameLaws F) (sh : bool) (m0 : md F) (tf : fill) (r : red F) (rs : rshrink) (m : md F)
         (xs ws ys : list F),
    net sh m0 -> residual m0 tf r rs = Ok m -> nfwd m0 (xs ++ ws) = Ok ys ->
    exists m',
      feed (nstep true) m xs
      = Ok (map (fun n => if Nat.ltb n (Z.to_nat (del m0)) then None
                          else opt_op r (nth_error xs (n - res_offset m0 rs))
                                        (nth_error ys (n - Z.to_nat (del m0))))
                (seq 0 (length xs)), m').
Proof. exact @residual_step. Qed.
Print Assumptions C21_residual_step.

Example C21_example :
  let conv := cv [1; 10; 100]%Z 1 0 in
  nfwd conv [1; 2; 3; 4; 5]%Z = Ok [321; 432; 543]%Z /\
  res_offset conv RLeading = 0 /\ res_offset conv RTrue = 1 /\ res_offset conv RLagging = 2 /\
  (exists m', feed (nstep true) (get (residual conv Zeros zred RLeading)) [1; 2; 3; 4; 5]%Z
     = Ok ([None; None; Some (321 + 3); Some (432 + 4); Some (543 + 5)]%Z, m')) /\
  (exists m', feed (nstep true) (get (residual conv Zeros zred RTrue)) [1; 2; 3; 4; 5]%Z
     = Ok ([None; None; Some (321 + 2); Some (432 + 3); Some (543 + 4)]%Z, m')) /\
  (exists m', feed (nstep true) (get (residual conv Zeros zred RLagging)) [1; 2; 3; 4; 5]%Z
     = Ok ([None; None; Some (321 + 1); Some (432 + 2); Some (543 + 3)]%Z, m')).
Proof. cbv zeta. runs. Qed.

(** "centered": forward works, forward_steps fails on the same clip. *)
Theorem C21_centered_forward_steps_refuted :
  exists (m : md Z) xs ys,
    residual (cv [1; 10; 100]%Z 1 0) Zeros zred RCentered = Ok m /\
    nfwd m xs = Ok ys /\ steps m (VS xs) false true = Err RuntimeError.
Proof.
  exists (get (residual (cv [1; 10; 100]%Z 1 0) Zeros zred RCentered)), [1; 2; 3; 4; 5]%Z, [323; 435; 547]%Z.
  split; [reflexivity|]. runs.
Qed.
Print Assumptions C21_centered_forward_steps_refuted.

(** True and "lagging": pad_end=True fails, or broadcasts silently and returns
    other frames than forward. *)
Theorem C21_pad_end_shrink_refuted :
  forall rs, rs = RTrue \/ rs = RLagging ->
  exists (m : md Z) xs ys xs' y us m',
    residual (cv [1; 10; 100]%Z 1 0) Zeros zred rs = Ok m /\
    nfwd m xs = Ok ys /\ steps m (VS xs) true true = Err RuntimeError /\
    nfwd m xs' = Ok [y] /\ steps m (VS xs') true true = Ok (VS (y :: us), m') /\ us <> [].
Proof.
  intros rs [-> | ->].
  - exists (get (residual (cv [1; 10; 100]%Z 1 0) Zeros zred RTrue)), [1; 2; 3; 4; 5]%Z, [323; 435; 547]%Z, [1; 2; 3]%Z, 323%Z, [324]%Z.
    eexists. split; [reflexivity|]. split; [runs|]. split; [runs|]. split; [runs|]. split; [run|discriminate].
  - exists (get (residual (cv [1; 10; 100]%Z 1 0) Zeros zred RLagging)), [1; 2; 3; 4; 5]%Z, [322; 434; 546]%Z, [1; 2; 3]%Z, 322%Z, [323; 324]%Z.
    eexists. split; [reflexivity|]. split; [runs|]. split; [runs|]. split; [runs|]. split; [run|discriminate].
Qed.
Print Assumptions C21_pad_end_shrink_refuted.

(** C22.  ParallelDispatch. *)
Theorem C22_dispatch_routes :
  forall (F : Type) (FA : Frames F) (d : dmap) (l : list (val F)) (v : val F) (pe upd : bool),
    (fwd (MDispatch d) (VL l) = Ok v <-> routed l d v) /\
    (step (MDispatch d) (VL l) upd = Ok (v, MDispatch d) <-> routed l d v) /\
    (steps (MDispatch d) (VL l) pe upd = Ok (v, MDispatch d) <-> routed l d v).
Proof. exact @dispatch_modes. Qed.
Print Assumptions C22_dispatch_routes.

Theorem C22_dispatch_out_of_range :
  forall (F : Type) (FA : Frames F) (d : dmap) (l : list (val F)) (pe upd : bool),
    (forall v, ~ routed l d v) ->
    fwd (MDispatch d) (VL l) = Err IndexError /\
    step (MDispatch d) (VL l) upd = Err IndexError /\
    steps (MDispatch d) (VL l) pe upd = Err IndexError.
Proof. exact @dispatch_modes_err. Qed.
Print Assumptions C22_dispatch_out_of_range.

Theorem C22_dispatch_identity :
  forall (F : Type) (l : list (val F)),
    dispatch (DL (map (fun i => DI (Z.of_nat i)) (seq 0 (length l)))) l = Ok (VL l).
Proof. exact @dispatch_id. Qed.
Print Assumptions C22_dispatch_identity.

Theorem C22_dispatch_twice :
  forall (F : Type) (ds : list dmap) (d2 d : dmap) (l vs : list (val F)) (v : val F),
    dispatch (DL ds) l = Ok (VL vs) -> compose_map ds d2 = Some d -> dispatch d2 vs = Ok v ->
    dispatch d l = Ok v.
Proof. exact @dispatch_twice. Qed.
Print Assumptions C22_dispatch_twice.

Example C22_example :
  let ds := [DI (-1); DL [DI 0; DI 2]; DI 1]%Z in
  fwd (MDispatch (DL ds)) (VL [VT 7; VT 8; VT 9]%Z) = Ok (VL [VT 9; VL [VT 7; VT 9]; VT 8]%Z) /\
  compose_map ds (DL [DI (-1); DI 0])%Z = Some (DL [DI 1; DI (-1)])%Z /\
  fwd (MDispatch (DL [DI 1; DI (-1)])%Z) (VL [VT 7; VT 8; VT 9]%Z) = Ok (VL [VT 8; VT 9]%Z) /\
  fwd (MDispatch (DL [DI (-4)])%Z) (VL [VT 7; VT 8; VT 9]%Z) = Err IndexError.
Proof. cbv zeta. runs. Qed.

(** C23.  Conditional: stepping is stepping each branch on the frames it is given. *)
Theorem C23_conditional_interleaves :
  forall (F : Type) (FA : Frames F) (p : val F -> bool) (D R : Z) (a b : md F) (xs : list F) ya a' yb b',
    feed (nstep true) a (filter (fun x => p (VT x)) xs) = Ok (ya, a') ->
    feed (nstep true) b (filter (fun x => negb (p (VT x))) xs) = Ok (yb, b') ->
    feed (nstep true) (MCond p D R a (Some b)) xs
    = Ok (interleave (map (fun x => p (VT x)) xs) ya yb, MCond p D R a' (Some b')).
Proof. exact @cond_feed. Qed.
Print Assumptions C23_conditional_interleaves.

(** If the same branch is always selected: the outputs of its forward, with its
    stride and the larger of the two delays. *)
Theorem C23_conditional_selects :
  forall (F : Type) (FA : Frames F) (FL : FrameLaws F) (sh : bool) (p : val F -> bool) (a b : md F) (sel : bool) (xs ws zs : list F),
    net sh a -> net sh b ->
    (forall x, In x xs -> p (VT x) = sel) ->
    nfwd (if sel then a else b) (xs ++ ws) = Ok zs ->
    exists m',
      feed (nstep true) (mk_cond p a (Some b)) xs
      = Ok (map (scheduled (Z.to_nat (Z.max (del a) (del b))) (Z.to_nat (strd (if sel then a else b))) zs)
                (seq 0 (length xs)), m').
Proof. exact @cond_select. Qed.
Print Assumptions C23_conditional_selects.

Theorem C23_conditional_delays :
  forall (F : Type) (FA : Frames F) (sh : bool) (p : val F -> bool) (a b : md F),
    net sh a -> net sh b ->
    match mk_cond p a (Some b) with
    | MCond _ D _ a' (Some b') =>
        del a' = D /\ del b' = D /\ D = Z.max (del a) (del b) /\ del (mk_cond p a (Some b)) = D
    | _ => False
    end.
Proof. exact @cond_delays. Qed.
Print Assumptions C23_conditional_delays.

Definition even_val (v : val Z) : bool :=
  match v with VT x => Z.even x | VS (x :: _) => Z.even x | _ => true end.

Example C23_example :
  let m := mk_cond even_val (cv [1; 10; 100]%Z 1 1) (Some (cv [5]%Z 1 0)) in
  del m = 1%Z /\
  (exists m', feed (nstep true) m [2; 4; 6; 8]%Z = Ok ([None; Some 420; Some 642; Some 864]%Z, m')) /\
  (exists m', feed (nstep true) m [1; 3; 5]%Z = Ok ([None; Some 5; Some 15]%Z, m')) /\
  (exists m', feed (nstep true) m [2; 1; 4; 3; 6]%Z = Ok ([None; None; Some 420; Some 5; Some 642]%Z, m')).
Proof. cbv zeta. runs. Qed.

(** forward_steps drops pad_end ... *)
Theorem C23_conditional_pad_end_refuted :
  exists (m : md Z) xs ys zs m',
    m = mk_cond even_val (cv [1; 10; 100]%Z 1 1) (Some (cv [5]%Z 1 0)) /\
    nfwd m xs = Ok ys /\ steps m (VS xs) true true = Ok (VS zs, m') /\ zs <> ys.
Proof.
  eexists. exists [2; 4; 6; 8]%Z, [420; 642; 864; 86]%Z, [420; 642; 864]%Z. eexists.
  split; [reflexivity|]. split; [runs|]. split; [run|discriminate].
Qed.
Print Assumptions C23_conditional_pad_end_refuted.

(** ... and update_state. *)
Theorem C23_conditional_update_state_refuted :
  exists (m : md Z) xs w m' u u' k k',
    m = mk_cond even_val (cv [1; 10; 100]%Z 1 1) (Some (cv [5]%Z 1 0)) /\
    steps m (VS xs) false false = Ok (w, m') /\
    step m' (VT 2%Z) true = Ok (u, k) /\ step m (VT 2%Z) true = Ok (u', k') /\ u <> u'.
Proof.
  eexists. exists [2; 4]%Z. do 6 eexists.
  split; [reflexivity|]. split; [run|]. split; [run|]. split; [run|discriminate].
Qed.
Print Assumptions C23_conditional_update_state_refuted.

(** Without else-branch the input passes undelayed, whatever the delay. *)
Theorem C23_no_else_undelayed :
  forall (F : Type) (FA : Frames F) (p : val F -> bool) (a : md F) (xs : list F),
    (forall x, In x xs -> p (VT x) = false) ->
    feed (nstep true) (mk_cond p a None) xs = Ok (map Some xs, mk_cond p a None).
Proof. exact @cond_no_else. Qed.
Print Assumptions C23_no_else_undelayed.

Example C23_no_else_example :
  let m := mk_cond even_val (cv [1; 10; 100]%Z 1 1) None in
  del m = 1%Z /\ exists m', feed (nstep true) m [1; 3; 5]%Z = Ok ([Some 1; Some 3; Some 5]%Z, m').
Proof. cbv zeta. runs. Qed.

(** C24.  Explicit state equals stateful stepping. *)
Theorem C24_explicit_state :
  forall (F : Type) (FA : Frames F) (m : md F) (vs : list (val F)),
    fresh m -> cond_free m -> convs_regular m ->
    bind (run_steps m vs) (fun p => Ok (fst p)) = bind (run_fsteps m None vs) (fun p => Ok (fst p)).
Proof. exact @explicit_state. Qed.
Print Assumptions C24_explicit_state.

Example C24_example :
  fresh ex_net /\ cond_free ex_net /\ convs_regular ex_net /\
  (exists m', run_steps ex_net [VT 1; VT 2; VT 3; VT 4; VT 5; VT 6; VT 7]%Z
     = Ok ([VNone; VNone; VNone; VNone; VT 18669; VNone; VT 33750]%Z, m')) /\
  out (run_fsteps ex_net None [VT 1; VT 2; VT 3; VT 4; VT 5; VT 6; VT 7]%Z)
     = Ok [VNone; VNone; VNone; VNone; VT 18669; VNone; VT 33750]%Z.
Proof. split; [cbn; tauto|]. split; [cbn; tauto|]. split; [cbn; intuition lia|]. runs. Qed.

(** Kernel size 1 with stride 2: stateful stepping ignores the stride. *)
Theorem C24_kernel_one_stride_refuted :
  exists (m : md Z) vs,
    fresh m /\ cond_free m /\
    out (run_steps m vs) <> out (run_fsteps m None vs).
Proof.
  exists (cv [3]%Z 2 0), [VT 1; VT 2]%Z. split; [cbn; tauto|]. split; [cbn; tauto|]. vm_compute. discriminate.
Qed.
Print Assumptions C24_kernel_one_stride_refuted.

(** C25.  warm_up. *)
Theorem C25_warm_up_emits :
  forall (F : Type) (FA : Frames F) (sh : bool) (m : md F) (z : F) (xs : list F),
    net sh m -> (0 < del m)%Z ->
    exists m1 ys m2,
      warm_up m z = Ok m1 /\ feed (nstep true) m1 xs = Ok (ys, m2) /\
      map is_some ys = map (fun n => Nat.eqb (n mod Z.to_nat (strd m)) 0) (seq 0 (length xs)).
Proof. exact @warm_up_emits. Qed.
Print Assumptions C25_warm_up_emits.

Theorem C25_warm_up_values :
  forall (F : Type) (FA : Frames F) (FL : FrameLaws F) (sh : bool) (m : md F) (z : F) (xs ws zs : list F),
    net sh m -> (0 < del m)%Z ->
    nfwd m (repeat z (Z.to_nat (del m)) ++ xs ++ ws) = Ok zs ->
    exists m1 m2,
      warm_up m z = Ok m1 /\
      feed (nstep true) m1 xs
      = Ok (map (fun n => if Nat.eqb (n mod Z.to_nat (strd m)) 0
                          then nth_error zs (n / Z.to_nat (strd m)) else None)
                (seq 0 (length xs)), m2).
Proof. exact @warm_up_values. Qed.
Print Assumptions C25_warm_up_values.

Example C25_example :
  nfwd ex_net [9; 9; 9; 9; 1; 2; 3; 4; 5; 0; 0; 0; 0]%Z = Ok [60006; 37420; 21139; 23661; 6584; 104]%Z /\
  exists m1 m2, warm_up ex_net 9%Z = Ok m1 /\
    feed (nstep true) m1 [1; 2; 3; 4; 5]%Z = Ok ([Some 60006; None; Some 37420; None; Some 21139]%Z, m2).
Proof.
  split; [runs|]. exists (match warm_up ex_net 9%Z with Ok m => m | _ => MSeq [] end). eexists.
  split; [vm_cast_no_check (eq_refl (warm_up ex_net 9%Z))|run].
Qed.

(** C39.  Two stages of Parallel: [forward] accepts the clip, the first step raises. *)
Theorem C39_stacked_parallel_refuted :
  exists (p q m : md Z) ys m',
    mk_par [cv [1; 10; 100]%Z 1 1; cv [2]%Z 1 0] true = Ok p /\
    mk_par [cv [1]%Z 1 0; cv [2]%Z 1 0] true = Ok q /\
    m = mk_seq [MBroadcast None; p; q; MReduce zred] /\
    nfwd m [1; 2; 3]%Z = Ok ys /\
    steps m (VS [1; 2; 3]%Z) true true = Ok (VS ys, m') /\
    step m (VT 1%Z) true = Err TypeError /\
    steps m (VS [1]%Z) false true = Err TypeError.
Proof.
  exists (match mk_par [cv [1; 10; 100]%Z 1 1; cv [2]%Z 1 0] true with Ok p => p | _ => MSeq [] end).
  exists (match mk_par [cv [1]%Z 1 0; cv [2]%Z 1 0] true with Ok p => p | _ => MSeq [] end).
  eexists. exists [214; 329; 44]%Z. eexists.
  split; [reflexivity|]. split; [reflexivity|]. split; [reflexivity|].
  split; [runs|]. split; [run|]. runs.
Qed.
Print Assumptions C39_stacked_parallel_refuted.
