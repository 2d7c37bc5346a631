(** Properties C13, C16, C43 and C44: in-place buffers. *)
From Coq Require Import List ZArith Bool Arith.
From Verif Require Import Base Frames CoMod Leaf Rnn Net Calls ZFrames ZNets Heap HeapSpec HeapThm.
Import ListNotations.

(** C13.  A forward_step with update_state=False changes neither a tensor that
    existed before the call nor any attribute of a module. *)
Theorem C13_peek_step_keeps_every_tensor :
  forall (F : Type) (FA : Frames F) (m : hmd F) (h : heap F) v w m' h',
    separate h m -> hstep m v false h = Ok (w, m', h') -> m' = m /\ preserved h h'.
Proof. exact @hpeek_step. Qed.
Print Assumptions C13_peek_step_keeps_every_tensor.

(** The same for forward_steps, with or without pad_end. *)
Theorem C13_peek_steps_keeps_every_tensor :
  forall (F : Type) (FA : Frames F) (m : hmd F) (h : heap F) v pe w m' h',
    separate h m -> hcond_free h m ->
    hsteps m v pe false h = Ok (w, m', h') -> m' = m /\ preserved h h'.
Proof. exact @hpeek_steps. Qed.
Print Assumptions C13_peek_steps_keeps_every_tensor.

(** A peek returns what the updating call returns. *)
Theorem C13_peek_step_result :
  forall (F : Type) (FA : Frames F) (m : hmd F) (h : heap F) v w m' h',
    separate h m -> hstep m v true h = Ok (w, m', h') ->
    exists h'', hstep m v false h = Ok (w, m, h'') /\ preserved h h''.
Proof. exact @peek_agrees_step. Qed.
Print Assumptions C13_peek_step_result.

Theorem C13_peek_steps_result :
  forall (F : Type) (FA : Frames F) (m : hmd F) (h : heap F) v w m' h',
    separate h m -> hcond_free h m -> hsteps m v false true h = Ok (w, m', h') ->
    exists h'', hsteps m v false false h = Ok (w, m, h'') /\ preserved h h''.
Proof. exact @peek_agrees_steps. Qed.
Print Assumptions C13_peek_steps_result.

(** Erasing all peeks (and [forward] calls) from a history, whatever the mode
    switches, changes no other result. *)
Theorem C13_peeks_can_be_erased :
  forall (F : Type) (FA : Frames F) (m : hmd F) (h : heap F) cs ws m' h',
    separate h m -> hcond_free h m -> hrun m cs h = Ok (ws, m', h') ->
    exists m'' h'',
      hrun m (filter (fun c => match c with HCall c => negb (pure_call c) | HTrain _ => true end) cs) h
        = Ok (keep_outs (calls_of cs) ws, m'', h'') /\ view h'' m'' = view h' m'.
Proof. exact @heap_peek_erasure. Qed.
Print Assumptions C13_peeks_can_be_erased.

(** A delay of 2 holding [3; 4], the next frame to leave being 3: the peek writes
    5 into a copy, the real step writes it in place. *)
Example C13_example :
  let h := [TFrames [3; 4]%Z] in
  let m := HDelay 2 Zeros ShNo (HObj 0 0 0) in
  separate h m /\
  hstep m (VT 5%Z) false h = Ok (VT 3%Z, m, [TFrames [3; 4]; TFrames [5; 4]]%Z) /\
  hstep m (VT 5%Z) true h = Ok (VT 3%Z, HDelay 2 Zeros ShNo (HObj 0 1 0), [TFrames [5; 4]%Z]).
Proof.
  split; [|split; reflexivity]. split.
  - repeat constructor; simpl; tauto.
  - intros r k [E|[]]. inversion E; subst. exists (TFrames [3; 4]%Z). split; reflexivity.
Qed.

(** C16.  Putting back the tuple that [get_state] returned does not restore a
    Delay, a pooling module or a convolution in evaluation mode: after the history
    [cs] and [set_state], the next output is not the one that was due at the time
    of the snapshot. *)
Definition not_restored (m : hmd Z) (h : heap Z) (cs : list (hcall Z)) : Prop :=
  exists s ws m1 h1 w1 w2 n1 n2 k1 k2,
    is_leaf m /\ separate h m /\ hget_state m h = Ok (Some s) /\
    hrun m cs h = Ok (ws, m1, h1) /\
    hstep m (VT 9%Z) true h = Ok (w1, n1, k1) /\
    hstep (hset_state m1 s) (VT 9%Z) true h1 = Ok (w2, n2, k2) /\ w1 <> w2.

Ltac one_ref c := split;
  [repeat constructor; simpl; tauto
  |intros r k [E|[]]; inversion E; subst; exists c; split; reflexivity].

Theorem C16_delay_snapshot_refuted : exists d f sh o h cs, not_restored (HDelay d f sh o) h cs.
Proof.
  exists 2, Zeros, ShNo, (HObj 0 0 0), [TFrames [3; 4]%Z], [HCall (CStep (VT 7%Z) true)].
  exists (HObj 0 0 0). do 9 eexists. split; [exact I|]. split; [one_ref (TFrames [3; 4]%Z)|].
  do 4 (split; [reflexivity|]). vm_compute. discriminate.
Qed.
Print Assumptions C16_delay_snapshot_refuted.

Theorem C16_pool_snapshot_refuted : exists c o h cs, not_restored (HPool c o) h cs.
Proof.
  exists (zsum 2 1 0 1 Zeros), (HObj 0 0 0), [TFrames [3; 4]%Z],
    [HCall (CStep (VT 7%Z) true); HCall (CStep (VT 8%Z) true)].
  exists (HObj 0 0 0). do 9 eexists. split; [exact I|]. split; [one_ref (TFrames [3; 4]%Z)|].
  do 4 (split; [reflexivity|]). vm_compute. discriminate.
Qed.
Print Assumptions C16_pool_snapshot_refuted.

Theorem C16_eval_conv_snapshot_refuted : exists c o h cs, not_restored (HConv c false o) h cs.
Proof.
  exists (zconv [1; 10; 100]%Z 1 0 None Zeros Zeros), (HObj 0 0 0), [TRows [[10; 1]; [20; 2]]%Z],
    [HCall (CStep (VT 7%Z) true)].
  exists (HObj 0 0 0). do 9 eexists. split; [exact I|]. split; [one_ref (TRows [[10; 1]; [20; 2]]%Z)|].
  do 4 (split; [reflexivity|]). vm_compute. discriminate.
Qed.
Print Assumptions C16_eval_conv_snapshot_refuted.

(** A copy of the buffer restores the module after any history of calls and mode
    switches. *)
Theorem C16_copied_snapshot_restores :
  forall (F : Type) (FA : Frames F) (m : hmd F) (h : heap F) s t h1 cs ws m' h2,
    is_leaf m -> separate h m -> hget_state m h = Ok (Some s) -> hcopy_state m s h = Ok (t, h1) ->
    hrun m cs h1 = Ok (ws, m', h2) ->
    separate h2 (hset_state m' t) /\ view h2 (hset_state m' t) = view h m.
Proof. exact @copied_snapshot. Qed.
Print Assumptions C16_copied_snapshot_restores.

(** The tuple itself restores a convolution that stays in training mode, any
    number of times. *)
Theorem C16_training_conv_snapshot_restores :
  forall (F : Type) (FA : Frames F) (m : hmd F) (h : heap F) s cs ws m' h',
    training_conv m -> separate h m -> hget_state m h = Ok (Some s) -> stays_training cs ->
    hrun m cs h = Ok (ws, m', h') ->
    separate h' (hset_state m' s) /\ view h' (hset_state m' s) = view h m.
Proof. exact @training_snapshot. Qed.
Print Assumptions C16_training_conv_snapshot_restores.

Example C16_example :
  let h := [TRows [[10; 1]; [20; 2]]%Z] in
  let c := zconv [1; 10; 100]%Z 1 0 None Zeros Zeros in
  let m := HConv c true (HObj 0 0 0) in
  separate h m /\ hget_state m h = Ok (Some (HObj 0 0 0)) /\
  exists ws m' h', hrun m [HCall (CStep (VT 7%Z) true); HTrain true; HCall (CSteps (VS [8; 9]%Z) true true)] h
                   = Ok (ws, m', h') /\ view h' m' <> view h m /\ view h' (hset_state m' (HObj 0 0 0)) = view h m.
Proof.
  cbv zeta. split; [one_ref (TRows [[10; 1]; [20; 2]]%Z)|]. split; [reflexivity|].
  do 3 eexists. split; [reflexivity|]. split; [|reflexivity]. cbn [view]. intros E.
  apply (f_equal (fun m => match m with MConv _ o => o_buf o | _ => [] end)) in E.
  vm_compute in E. discriminate.
Qed.

(** C43.  Two histories with the same method calls give the same results, however
    [train()] and [eval()] are interleaved, for every network. *)
Theorem C43_mode_switches_do_not_matter :
  forall (F : Type) (FA : Frames F) (m : hmd F) (h : heap F) cs cs',
    separate h m -> calls_of cs = calls_of cs' ->
    match hrun m cs h, hrun m cs' h with
    | Ok (ws, m1, h1), Ok (ws', m2, h2) => ws = ws' /\ view h1 m1 = view h2 m2
    | Err e, Err e' => e = e'
    | _, _ => False
    end.
Proof. exact @mode_switches. Qed.
Print Assumptions C43_mode_switches_do_not_matter.

(** [train()] and [eval()] reach every convolution and change nothing else. *)
Theorem C43_train_reaches_all :
  forall (F : Type) (b : bool) (m : hmd F),
    conv_flags (htrain b m) = map (fun _ => b) (conv_flags m) /\ forall h, view h (htrain b m) = view h m.
Proof. exact @train_reaches. Qed.
Print Assumptions C43_train_reaches_all.

Example C43_train_reaches_all_ex :
  conv_flags (fst (place false ex_net [])) = repeat false 4 /\
  conv_flags (htrain true (fst (place false ex_net []))) = repeat true 4.
Proof. split; reflexivity. Qed.

Example C43_example :
  let m := fst (place false ex_net []) in
  let h := snd (place false ex_net []) in
  let c x := HCall (CStep (VT x) true) in
  separate h m /\
  out (out (hrun m [c 1; c 2; c 3; c 4; c 5; c 6; c 7; c 8]%Z h)) =
  out (out (hrun m [HTrain true; c 1; c 2; HTrain false; c 3; c 4; HTrain true; c 5; c 6; c 7; HTrain false; c 8]%Z h)) /\
  out (out (hrun m [c 1; c 2; c 3; c 4; c 5; c 6; c 7; c 8]%Z h)) =
    Ok [VNone; VNone; VNone; VNone; VT 18669; VNone; VT 33750; VNone]%Z.
Proof.
  cbv zeta. split; [exact (proj1 (place_separate false ex_net [] _ _ (surjective_pairing _)))|].
  split; vm_compute; reflexivity.
Qed.

(** C44.  On a heap where no two modules of the network share a tensor, every
    history of calls (updating or not, cleaning, mode switches) returns what the
    value semantics of [Net.v] returns, raises the same exceptions, keeps the
    modules separate, and touches no tensor of anybody else. *)
Theorem C44_heap_refines_values :
  forall (F : Type) (FA : Frames F) (m : hmd F) (h : heap F) cs,
    separate h m ->
    (forall ws m' h', hrun m cs h = Ok (ws, m', h') ->
       run_calls (view h m) (calls_of cs) = Ok (ws, view h' m') /\ separate h' m' /\
       others_preserved m h h') /\
    (forall e, hrun m cs h = Err e <-> run_calls (view h m) (calls_of cs) = Err e).
Proof. exact @heap_refines. Qed.
Print Assumptions C44_heap_refines_values.

(** Every network can be laid out so, next to any others. *)
Theorem C44_construction_separates :
  forall (F : Type) (tr : bool) (m : md F) (h : heap F) m' h',
    place tr m h = (m', h') ->
    separate h' m' /\ view h' m' = m /\ preserved h h' /\
    (forall n, separate h n -> separate h' n /\ view h' n = view h n /\
               forall r, In r (own n) -> ~ In r (own m')).
Proof. exact @place_separate. Qed.
Print Assumptions C44_construction_separates.

(** Running one network does not change another. *)
Theorem C44_no_interference :
  forall (F : Type) (FA : Frames F) (m n : hmd F) (h : heap F) cs ws m' h',
    separate h m -> separate h n -> (forall r, In r (own n) -> ~ In r (own m)) ->
    hrun m cs h = Ok (ws, m', h') ->
    separate h' n /\ view h' n = view h n /\ (forall r, In r (own n) -> ~ In r (own m')).
Proof. exact @no_interference. Qed.
Print Assumptions C44_no_interference.

(** It does if they share a tensor, as after [b.set_state(a.get_state())]. *)
Theorem C44_shared_state_refuted :
  exists (a b : hmd Z) (h : heap Z) s v w ws a' h',
    separate h a /\ separate h b /\ hget_state a h = Ok (Some s) /\
    hrun a [HCall (CStep (VT 7%Z) true)] h = Ok (ws, a', h') /\
    out (out (hstep (hset_state b s) (VT 9%Z) true h)) = Ok v /\
    out (out (hstep (hset_state b s) (VT 9%Z) true h')) = Ok w /\ v <> w.
Proof.
  exists (HDelay 2 Zeros ShNo (HObj 0 0 0)), (HDelay 2 Zeros ShNo (HObj 1 0 0)),
    [TFrames [3; 4]; TFrames []]%Z, (HObj 0 0 0). do 5 eexists.
  split; [one_ref (TFrames [3; 4]%Z)|]. split; [one_ref (TFrames (@nil Z))|].
  do 4 (split; [reflexivity|]). discriminate.
Qed.
Print Assumptions C44_shared_state_refuted.

Example C44_example :
  let m := fst (place true ex_net []) in
  let h := snd (place true ex_net []) in
  separate h m /\ own m <> [] /\
  out (out (hrun m [HCall (CSteps (VS [1; 2; 3; 4; 5; 6; 7; 8]%Z) true true); HCall (CStep (VT 9%Z) false);
                    HTrain false; HCall (CStep (VT 9%Z) true)] h)) =
  out (run_calls ex_net [CSteps (VS [1; 2; 3; 4; 5; 6; 7; 8]%Z) true true; CStep (VT 9%Z) false; CStep (VT 9%Z) true]).
Proof.
  cbv zeta. split; [exact (proj1 (place_separate true ex_net [] _ _ (surjective_pairing _)))|].
  split; [vm_compute; discriminate|]. vm_compute; reflexivity.
Qed.
