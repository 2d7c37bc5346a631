(** Property C63: what an exception leaves behind in a network. *)
From Coq Require Import List ZArith Bool Arith Lia.
From Verif Require Import Base Frames CoMod Leaf Rnn Net Spec LeafSpec NetSpec Calls NetDef.
From Verif Require Import NetThm NetExn NetExnSpec NetExnProof ZFrames ZNets.
Import ListNotations.

(** C63.  Keeping track of the network after an exception changes no result: a
    call returns, or raises, exactly as in [Net.v]. *)
Theorem C63_same_results :
  forall (F : Type) (FA : Frames F) (m : md F) (c : call F),
    match do_call m c with
    | Ok (w, m') => xcall m c = (m', Ok w)
    | Err e => exists m', xcall m c = (m', Err e)
    end.
Proof.
  intros F FA m c. pose proof (xcall_agree m c) as G. destruct (do_call m c) as [[w m']|e]; [exact G|].
  destruct (xcall m c) as [m' r]. cbn in G. subst r. eauto.
Qed.
Print Assumptions C63_same_results.

(** A Sequential raises when one of its modules raises.  The modules before it
    have taken the input and keep what they stored; the modules behind it are as
    before the call. *)
Theorem C63_sequential_forward_step :
  forall (F : Type) (FA : Frames F) (ms : list (md F)) (v : val F) (upd : bool) (m' : md F) (e : exn),
    xstep (MSeq ms) v upd = (m', Err e) <->
    exists pre m post v1 pre' bad,
      ms = pre ++ m :: post /\ m' = MSeq (pre' ++ bad :: post) /\
      step (MSeq pre) v upd = Ok (v1, MSeq pre') /\ (v1 <> VNone \/ pre = []) /\
      xstep m v1 upd = (bad, Err e).
Proof. exact @sequential_step_fails. Qed.
Print Assumptions C63_sequential_forward_step.

Theorem C63_sequential_forward_steps :
  forall (F : Type) (FA : Frames F) (ms : list (md F)) (v : val F) (pe upd : bool) (m' : md F) (e : exn),
    xsteps (MSeq ms) v pe upd = (m', Err e) <->
    exists pre m post v1 pre' bad,
      ms = pre ++ m :: post /\ m' = MSeq (pre' ++ bad :: post) /\
      steps (MSeq pre) v pe upd = Ok (v1, MSeq pre') /\ (v1 <> VNone /\ v1 <> VL []) /\
      xsteps m v1 pe upd = (bad, Err e).
Proof. exact @sequential_steps_fails. Qed.
Print Assumptions C63_sequential_forward_steps.

(** A Delay followed by a Reduce, which refuses the frame: the Delay has moved on. *)
Example C63_sequential_example :
  xrun (MSeq [dl 1; MReduce zred; dl 3]) [CStep (VT 7%Z) true; CStep (VT 8%Z) true]
  = (MSeq [MDelay 1 Zeros ShNo (Obj [8%Z] 0 0); MReduce zred; dl 3], [Ok VNone; Err TypeError]).
Proof. reflexivity. Qed.

(** Parallel: the same, stream by stream; too few inputs are noticed only when the
    first missing one is needed. *)
Theorem C63_parallel_forward_step :
  forall (F : Type) (FA : Frames F) (ms : list (md F)) (l : list (val F)) (upd : bool) (m' : md F) (e : exn),
    xstep (MPar ms) (VL l) upd = (m', Err e) <->
    exists pre m post vs pre' bad,
      ms = pre ++ m :: post /\ m' = MPar (pre' ++ bad :: post) /\
      step (MPar pre) (VL l) upd = Ok (VL vs, MPar pre') /\
      match nth_error l (length pre) with
      | Some x => xstep m x upd = (bad, Err e)
      | None => bad = m /\ e = IndexError
      end.
Proof. exact @parallel_step_fails. Qed.
Print Assumptions C63_parallel_forward_step.

Theorem C63_parallel_forward_steps :
  forall (F : Type) (FA : Frames F) (ms : list (md F)) (l : list (val F)) (pe upd : bool) (m' : md F) (e : exn),
    xsteps (MPar ms) (VL l) pe upd = (m', Err e) <->
    exists pre m post vs pre' bad,
      ms = pre ++ m :: post /\ m' = MPar (pre' ++ bad :: post) /\
      steps (MPar pre) (VL l) pe upd = Ok (VL vs, MPar pre') /\
      match nth_error l (length pre) with
      | Some x => xsteps m x pe upd = (bad, Err e)
      | None => bad = m /\ e = IndexError
      end.
Proof. exact @parallel_steps_fails. Qed.
Print Assumptions C63_parallel_forward_steps.

(** One input for two streams. *)
Example C63_parallel_example :
  xstep (MPar [dl 1; dl 1]) (VL [VT 7%Z]) true
  = (MPar [MDelay 1 Zeros ShNo (Obj [7%Z] 0 0); dl 1], Err IndexError).
Proof. reflexivity. Qed.

(** BroadcastReduce: either a branch raises, and the branches before it are one
    frame ahead of the others; or the reduction raises, and then every branch has
    taken the input. *)
Theorem C63_broadcast_reduce_forward_step :
  forall (F : Type) (FA : Frames F) (ms : list (md F)) (r : red F) (v : val F) (upd : bool) (m' : md F) (e : exn),
    xstep (MBR ms r) v upd = (m', Err e) <->
    (exists pre m post ps bad,
       ms = pre ++ m :: post /\ m' = MBR (map snd ps ++ bad :: post) r /\
       Forall2 (fun m p => step m v upd = Ok p) pre ps /\ xstep m v upd = (bad, Err e)) \/
    (exists ps, m' = MBR (map snd ps) r /\ Forall2 (fun m p => step m v upd = Ok p) ms ps /\
                forallb is_tensor (map fst ps) = true /\ reduce_vals r (map fst ps) = Err e).
Proof. exact @broadcast_reduce_step_fails. Qed.
Print Assumptions C63_broadcast_reduce_forward_step.

Theorem C63_broadcast_reduce_forward_steps :
  forall (F : Type) (FA : Frames F) (ms : list (md F)) (r : red F) (v : val F) (pe upd : bool) (m' : md F) (e : exn),
    xsteps (MBR ms r) v pe upd = (m', Err e) <->
    (exists pre m post ps bad,
       ms = pre ++ m :: post /\ m' = MBR (map snd ps ++ bad :: post) r /\
       Forall2 (fun m p => steps m v pe upd = Ok p) pre ps /\ xsteps m v pe upd = (bad, Err e)) \/
    (exists ps, m' = MBR (map snd ps) r /\ Forall2 (fun m p => steps m v pe upd = Ok p) ms ps /\
                reduce_vals r (map fst ps) = Err e).
Proof. exact @broadcast_reduce_steps_fails. Qed.
Print Assumptions C63_broadcast_reduce_forward_steps.

(** Modules that hold their own buffers: a failing forward_step changes nothing;
    a failing forward_steps changes nothing if the clip itself raises; otherwise it has
    stored the clip and failed in the end padding. *)
Theorem C63_leaf_forward_step :
  forall (F : Type) (FA : Frames F) (m : md F) (v : val F) (upd : bool) (m' : md F) (e : exn),
    leaf m -> xstep m v upd = (m', Err e) -> m' = m.
Proof. exact @leaf_step_fails. Qed.
Print Assumptions C63_leaf_forward_step.

Theorem C63_leaf_forward_steps :
  forall (F : Type) (FA : Frames F) (m : md F) (v : val F) (pe upd : bool) (m' : md F) (e : exn),
    leaf m -> xsteps m v pe upd = (m', Err e) ->
    match steps m v false upd with
    | Ok (_, m1) => pe = true /\ m' = m1
    | Err e' => m' = m /\ e' = e
    end.
Proof. exact @leaf_steps_fails. Qed.
Print Assumptions C63_leaf_forward_steps.

Example C63_leaf_example :
  snd (xsteps (cv [1; 10; 100]%Z 1 1) (VS []) true true) = Err IndexError /\
  snd (xstep (cv [1; 10; 100]%Z 1 1) VNone true) = Err TypeError.
Proof. split; reflexivity. Qed.

(** A network is not transactional: after a call that raised, later results are
    not those of a network that was never called. *)
Theorem C63_atomic_refuted :
  exists (m : md Z) (c : call Z) (e : exn) (m' : md Z),
    cond_free m /\ fresh m /\ xcall m c = (m', Err e) /\
    snd (xrun m' [CStep (VT 5%Z) true]) = [Ok (VT 8%Z)] /\
    snd (xrun m [CStep (VT 5%Z) true]) = [Ok VNone].
Proof.
  exists (MBR [dl 0; dl 2] zred), (CSteps (VS [1; 2; 3; 4]%Z) false true), RuntimeError. eexists.
  split; [cbn; tauto|]. split; [cbn; tauto|]. split; [reflexivity|]. split; reflexivity.
Qed.
Print Assumptions C63_atomic_refuted.

(** With update_state=False a call that raises changes nothing (forward_steps: in
    networks without Conditional, which drops the flag). *)
Theorem C63_peek_forward_step :
  forall (F : Type) (FA : Frames F) (m : md F) (v : val F), fst (xstep m v false) = m.
Proof. exact @xstep_peek. Qed.
Print Assumptions C63_peek_forward_step.

Theorem C63_peek_forward_steps :
  forall (F : Type) (FA : Frames F) (m : md F), cond_free m ->
    forall (v : val F) (pe : bool), fst (xsteps m v pe false) = m.
Proof. exact @xsteps_peek. Qed.
Print Assumptions C63_peek_forward_steps.

Theorem C63_conditional_peek_refuted :
  exists (m : md Z) (v : val Z) (m' : md Z) (e : exn),
    fresh m /\ xsteps m v false false = (m', Err e) /\ m' <> m.
Proof.
  exists (mk_cond (fun _ => true) (MSeq [dl 1; MReduce zred]) None), (VS [1; 2]%Z). do 2 eexists.
  split; [repeat split|]. split; [reflexivity|]. discriminate.
Qed.
Print Assumptions C63_conditional_peek_refuted.

(** clean_state repairs everything: after any history of calls, whichever of them
    raised, it gives back the new network. *)
Theorem C63_clean_after_failures :
  forall (F : Type) (FA : Frames F) (m : md F) (history : list (call F)),
    cond_free m -> fresh m -> clean (fst (xrun m history)) = m.
Proof. exact @xrun_clean. Qed.
Print Assumptions C63_clean_after_failures.

(** The reported numbers survive every history, also with Conditional. *)
Theorem C63_reports :
  forall (F : Type) (FA : Frames F) (m : md F) (history : list (call F)),
    let m' := fst (xrun m history) in
    strd m' = strd m /\ padg m' = padg m /\ rfield m' = rfield m /\ del m' = del m.
Proof. exact @xrun_reports. Qed.
Print Assumptions C63_reports.

Example C63_clean_example :
  let m := MBR [dl 0; dl 2] zred in
  let h := [CSteps (VS [1; 2; 3; 4]%Z) false true; CStep (VT 5%Z) true] in
  cond_free m /\ fresh m /\ snd (xrun m h) = [Err RuntimeError; Ok (VT 8%Z)] /\
  fst (xrun m h) <> m /\ clean (fst (xrun m h)) = m /\ rfield (fst (xrun m h)) = 3%Z.
Proof.
  cbv zeta. split; [cbn; tauto|]. split; [cbn; tauto|]. split; [reflexivity|]. split; [discriminate|].
  split; reflexivity.
Qed.

(** Two stages: the first one sees every input, whatever happens later; the second
    one sees the results the first returned, and its exceptions cost it nothing
    but its own answer. *)
Theorem C63_two_stages :
  forall (F : Type) (FA : Frames F) (upd : bool) (vs : list (val F)) (a b : md F),
    let ra := xrun a (map (fun v => CStep v upd) vs) in
    let rb := xrun b (map (fun v => CStep v upd) (passed (snd ra))) in
    xrun (MSeq [a; b]) (map (fun v => CStep v upd) vs)
    = (MSeq [fst ra; fst rb], answered (snd ra) (snd rb)).
Proof. exact @two_stages. Qed.
Print Assumptions C63_two_stages.

Example C63_two_stages_example :
  let b := mk_cond (fun v => match v with VT x => Z.even x | _ => false end) (MSeq [dl 1; MReduce zred]) (Some (dl 1)) in
  snd (xrun (MSeq [dl 1; b]) (map (fun v => CStep v true) (map VT [1; 2; 3; 4; 5; 7]%Z)))
  = [Ok VNone; Ok VNone; Ok VNone; Ok (VT 1%Z); Err TypeError; Ok (VT 3%Z)].
Proof. reflexivity. Qed.

(** Streams in step: two copies of a strided module, added up. *)
Theorem C63_streams_in_step :
  forall (F : Type) (FA : Frames F) (r : red F) (m : md F) (p : list (F * F)),
    strided m -> exists us m1 ws m2,
      feed (nstep true) m (map fst p) = Ok (us, m1) /\ feed (nstep true) m (map snd p) = Ok (ws, m2) /\
      snd (xrun (MSeq [MPar [m; m]; MReduce r]) (map pair_call p)) = map (fun p => Ok (both r p)) (combine us ws).
Proof. exact @streams_in_step. Qed.
Print Assumptions C63_streams_in_step.

(** One missing frame in the second stream raises, and the streams are out of step
    from then on: no later forward_step returns a frame. *)
Theorem C63_streams_lose_step :
  forall (F : Type) (FA : Frames F) (r : red F) (m : md F) (p : list (F * F)) (x : F) (q : list (F * F)),
    strided m -> exists rs, length rs = length p /\
      snd (xrun (MSeq [MPar [m; m]; MReduce r])
             (map pair_call p ++ CStep (VL [VT x; VNone]) true :: map pair_call q))
      = rs ++ Err TypeError :: repeat (Ok VNone) (length q).
Proof. exact @streams_lose_step. Qed.
Print Assumptions C63_streams_lose_step.

Example C63_streams_example :
  let m := MPool (zsum 2 2 0 1 Zeros) obj_init in
  let n := MSeq [MPar [m; m]; MReduce zred] in
  strided m /\
  snd (xrun n (map pair_call [(1, 10); (2, 20); (3, 30); (4, 40)]%Z)) = [Ok VNone; Ok (VT 33%Z); Ok VNone; Ok (VT 77%Z)] /\
  snd (xrun n (CStep (VL [VT 1%Z; VNone]) true :: map pair_call [(2, 20); (3, 30); (4, 40)]%Z))
  = [Err TypeError; Ok VNone; Ok VNone; Ok VNone] /\
  snd (xrun n (CStep (VL [VT 1%Z; VNone]) true :: CClean :: map pair_call [(2, 20); (3, 30)]%Z))
  = [Err TypeError; Ok VNone; Ok VNone; Ok (VT 55%Z)].
Proof.
  cbv zeta. split; [right; eexists; split; [reflexivity|]; split; [constructor; cbn; lia|cbn; lia]|].
  split; [reflexivity|]. split; reflexivity.
Qed.
