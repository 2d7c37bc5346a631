(** Property C67: networks in which one object occurs several times. *)
From Coq Require Import List ZArith Bool Arith Lia.
From Verif Require Import Base Frames CoMod Leaf Rnn Net Spec LeafSpec NetSpec Calls NetDef NetExn NetExnProof Share ShareSpec ShareProof.
From Verif Require Import NetLen NetPad NetThm ZFrames ZNets.
Import ListNotations.

(** forward gives what the network of copies gives, whatever is shared. *)
Theorem C67_forward :
  forall (F : Type) (FA : Frames F) (n : sn F) (s : list (md F)) (v : val F),
    sfwd n s v = fwd (copies s n) v.
Proof. exact @sfwd_copies. Qed.
Print Assumptions C67_forward.

(** So does stepping with explicit state, the code that is exported to ONNX: it
    keeps a state per occurrence. *)
Theorem C67_explicit_state :
  forall (F : Type) (FA : Frames F) (n : sn F) (s : list (md F)) (vs : list (val F)) (st : option (sst F)),
    srun_fsteps n s st vs = run_fsteps (copies s n) st vs.
Proof. exact @srun_fsteps_copies. Qed.
Print Assumptions C67_explicit_state.

(** If only objects without state occur twice, every history of calls, raising
    ones included, gives what it gives on the network of copies, and the objects
    end up in the same states.  Other objects are not touched. *)
Theorem C67_shared_stateless :
  forall (F : Type) (FA : Frames F) (n : sn F) (s : list (md F)) (history : list (call F)) s' rs,
    shares_no_state s n ->
    srun n s history = (s', rs) ->
    xrun (copies s n) history = (copies s' n, rs) /\
    (forall i, ~ In i (occurrences n) -> nth i s' (MSeq []) = nth i s (MSeq [])).
Proof.
  intros F FA n s history s' rs S E. destruct (srun_good n history s S) as [K O]. rewrite E in K, O.
  split; [exact K|]. intros i Hi. apply O. intros H. destruct (Hi H).
Qed.
Print Assumptions C67_shared_stateless.

(** Modules without buffers (Lambda, Linear, activations, Reshape, Broadcast,
    Reduce, ParallelDispatch, Delay(0) and containers of these) can be shared. *)
Theorem C67_bufferless :
  forall (F : Type) (FA : Frames F) (m : md F), bufferless m -> never_changes m.
Proof. exact @bufferless_never. Qed.
Print Assumptions C67_bufferless.

(** Then forward_steps with pad_end on a clean network is forward (as in C09). *)
Theorem C67_pad_end_is_forward :
  forall (F : Type) (FA : Frames F) (FL : FrameLaws F) (n : sn F) (s : list (md F)) (xs zs : list F),
    shares_no_state s n -> net false (copies s n) -> xs <> [] -> sfwd n s (VS xs) = Ok (VS zs) ->
    snd (ssteps n true true s (VS xs)) = Ok (of_clip (stack_outs zs)).
Proof.
  intros F FA FL n s xs zs S N Hx E. rewrite sfwd_copies in E.
  destruct (net_pad_end (copies s n) xs zs N Hx) as [m' E'].
  { unfold nfwd. now rewrite E. }
  destruct (ssteps_good n true true s (VS xs) S) as [K _].
  assert (X : xsteps (copies s n) (VS xs) true true = (m', Ok (of_clip (stack_outs zs)))).
  { exact (proj2 (xok (copies s n) (CSteps (VS xs) true true) _ m') E'). }
  rewrite X in K. injection K as _ K. now rewrite <- K.
Qed.
Print Assumptions C67_pad_end_is_forward.

(** Sequential(conv, relu, conv', relu) with a single relu object. *)
Definition relu : md Z := MMap (Z.max 0).
Definition ex_shared : sn Z := NSeq [NRef 0; NRef 1; NRef 2; NRef 1].
Definition ex_objects : list (md Z) := [cv [1; -2; 3]%Z 1 1; relu; cv [2; -1]%Z 1 0].
Example C67_example :
  shares_no_state ex_objects ex_shared /\
  snd (srun ex_shared ex_objects [CStep (VT 1%Z) true; CStep (VT 4%Z) true; CStep (VT (-2)%Z) true; CStep (VT 5%Z) true])
  = [Ok VNone; Ok VNone; Ok (VT 20%Z); Ok (VT 0%Z)] /\
  sfwd ex_shared ex_objects (VS [1; 4; -2; 5]%Z) = Ok (VS [20; 0; 46]%Z) /\
  snd (ssteps ex_shared true true ex_objects (VS [1; 4; -2; 5]%Z)) = Ok (VS [20; 0; 46]%Z).
Proof.
  split; [|vm_compute; repeat split].
  intros [|[|[|i]]]; cbn; try lia. intros _. apply bufferless_never. exact I.
Qed.

(** A Conditional whose branches are one object behaves as this object, whatever
    the predicate says. *)
Theorem C67_conditional_same_object :
  forall (F : Type) (FA : Frames F) (p : val F -> bool) (D R : Z) (i : nat) (s : list (md F)) (v : val F),
    let n := NCond p D R (NRef i) (Some (NRef i)) in
    (forall upd, sstep n upd s v = sstep (NRef i) upd s v) /\
    ssteps n false true s v = ssteps (NRef i) false true s v /\
    sfwd n s v = sfwd (NRef i) s v.
Proof. exact @conditional_same_object. Qed.
Print Assumptions C67_conditional_same_object.

(** Branches of a BroadcastReduce that are one object: the object is stepped twice
    with every frame, so it sees the stream with every frame doubled. *)
Theorem C67_branches_same_object :
  forall (F : Type) (FA : Frames F) (r : red F) (vs : list (val F)) (m : md F) ws m',
    run_steps m (twice vs) = Ok (ws, m') ->
    srun (NBR [NRef 0; NRef 0] r) [m] (map (fun v => CStep v true) vs) = ([m'], map (reduced r) (pairs ws)).
Proof. exact @branches_same_object. Qed.
Print Assumptions C67_branches_same_object.

(** BroadcastReduce(conv, conv) with one convolution object, k=2: at time t the
    branches give w . (x_{t-1}, x_t) and w . (x_t, x_t). *)
Example C67_branches_example :
  snd (srun (NBR [NRef 0; NRef 0] zred) [cv [10; 1]%Z 1 0] (map (fun x => CStep (VT x) true) [1; 2; 3]%Z))
  = [Ok VNone; Ok (VT 34%Z); Ok (VT 56%Z)] /\
  sfwd (NBR [NRef 0; NRef 0] zred) [cv [10; 1]%Z 1 0] (VS [1; 2; 3]%Z) = Ok (VS [24; 46]%Z).
Proof. vm_compute. split; reflexivity. Qed.

(** A Delay that follows itself: the first result comes after d steps instead of
    2d, and it is the second frame (for any d >= 1). *)
Theorem C67_delay_twice_refuted :
  forall (F : Type) (FA : Frames F) (d : nat) (f : fill) (sh : shrink) (xs : list F) (x : F),
    sh <> ShTrue -> 1 <= d -> length xs = d ->
    snd (srun (NSeq [NRef 0; NRef 0]) [MDelay d f sh obj_init] (map (fun x => CStep (VT x) true) (xs ++ [x])))
    = repeat (Ok VNone) d ++ [Ok (of_opt (nth_error (xs ++ [x]) 1))] /\
    snd (xrun (MSeq [MDelay d f sh obj_init; MDelay d f sh obj_init]) (map (fun x => CStep (VT x) true) (xs ++ [x])))
    = repeat (Ok VNone) (d + 1).
Proof. exact @delay_twice. Qed.
Print Assumptions C67_delay_twice_refuted.

Example C67_delay_twice_example :
  snd (srun (NSeq [NRef 0; NRef 0]) [MDelay 2 Zeros ShNo obj_init] (map (fun x => CStep (VT x) true) [7; 8; 9]%Z))
  = [Ok VNone; Ok VNone; Ok (VT 8%Z)].
Proof. vm_compute. reflexivity. Qed.

(** A network whose copies are well formed (C09), with one convolution object used
    twice in a Sequential: forward and explicit-state stepping are right, while
    forward_steps on the clean network and forward_step return something else. *)
Theorem C67_shared_state_refuted :
  exists (n : sn Z) (s : list (md Z)) (xs : list Z),
    net false (copies s n) /\
    sfwd n s (VS xs) = Ok (VS [143; 264; 385]%Z) /\
    (exists st, srun_fsteps n s None (map VT xs) = Ok ([VNone; VNone; VT 143%Z; VT 264%Z; VT 385%Z], st)) /\
    snd (ssteps n true true s (VS xs)) = Ok (VS [62; 143; 264; 385]%Z) /\
    snd (srun n s (map (fun x => CStep (VT x) true) xs))
    = [Ok VNone; Ok (VT 32%Z); Ok (VT 153%Z); Ok (VT 1274%Z); Ok (VT 12395%Z)].
Proof.
  exists (NSeq [NRef 0; NRef 0]), [cv [10; 1]%Z 1 0], [1; 2; 3; 4; 5]%Z.
  split; [|vm_compute; repeat split; eauto].
  apply regular_is_net. apply (regular_seq false [cv [10; 1]%Z 1 0; cv [10; 1]%Z 1 0]).
  intros m [<-|[<-|[]]]; constructor; apply cv_ok; simpl; lia.
Qed.
Print Assumptions C67_shared_state_refuted.
