(** Property C70: hooks on the modules of a network. *)
From Coq Require Import List ZArith Bool Arith Lia.
From Verif Require Import Base Frames CoMod Leaf Rnn Net Spec LeafSpec NetSpec NetDef NetLen NetThm ZFrames ZNets.
From Verif Require Import Hooks HooksSpec HooksProof HooksLog HooksPlug.
Import ListNotations.

(** Hooks that return nothing change nothing: in every mode a call gives the same value,
    the same exception and the same new state as without hooks. *)
Theorem C70_observing :
  forall (F : Type) (FA : Frames F) (hk : nat -> hooks F) (m : hmd F) (me : mode) (v : val F),
    (forall i, observing (hk i)) -> wf m = true ->
    match snd (hcall hk me m v) with
    | Ok (w, m') => plain me (erase m) v = Ok (w, erase m')
    | Err e => plain me (erase m) v = Err e
    end.
Proof. intros F FA hk m me v HO Hw. exact (observing_same hk HO m me v Hw). Qed.
Print Assumptions C70_observing.

(** A call that succeeds runs the hooks of each module at most once, all of them, the
    pre-hooks before the hooks and each group in order of registration; those of the called
    module itself exactly once.  Converted torch modules are the exception: in the stepping
    modes their hooks run twice around one run of the module. *)
Theorem C70_how_often :
  forall (F : Type) (FA : Frames F) (hk : nat -> hooks F) (m : hmd F) (me : mode) (v : val F) q,
    NoDup (ids m) -> snd (hcall hk me m v) = Ok q ->
    forall j, (~ In j (ids m) -> seen j (fst (hcall hk me m v)) = []) /\
              (In j (ids m) -> ~ (me <> Fwd /\ In j (converted m)) ->
                 seen j (fst (hcall hk me m v)) = one (hk j) \/ (j <> hid m /\ seen j (fst (hcall hk me m v)) = [])) /\
              (me <> Fwd -> In j (converted m) ->
                 seen j (fst (hcall hk me m v)) = two (hk j) \/ (j <> hid m /\ seen j (fst (hcall hk me m v)) = [])).
Proof. exact @call_log. Qed.
Print Assumptions C70_how_often.

(** forward runs the hooks of all modules, except those of the recurrent modules in
    containers, which it never runs. *)
Theorem C70_forward_runs_all :
  forall (F : Type) (FA : Frames F) (hk : nat -> hooks F) (m : hmd F) (v : val F) q,
    no_cond m = true -> NoDup (ids m) -> snd (hcall hk Fwd m v) = Ok q ->
    forall j, In j (ids m) ->
      (j = hid m \/ ~ In j (rnns m) -> seen j (fst (hcall hk Fwd m v)) = one (hk j)) /\
      (j <> hid m -> In j (rnns m) -> seen j (fst (hcall hk Fwd m v)) = []).
Proof. exact @call_full. Qed.
Print Assumptions C70_forward_runs_all.

(** Hooks that act on the frames are modules: for hooks on modules other than converted and
    recurrent ones, every history of calls gives what it gives on the network in which the
    hooks stand as modules before and after the module. *)
Theorem C70_frame_hooks :
  forall (F : Type) (FA : Frames F) (ps qs : nat -> list (F -> F)) (hk : nat -> hooks F),
    (forall i, hk i = frame_hooks (ps i) (qs i)) ->
    forall (history : list (mode * val F)) (m : hmd F),
      hookable hk m -> forallb fits history = true ->
      match hooked_calls hk m history with
      | Ok (ws, m') => plain_calls (plug ps qs m) history = Ok (ws, plug ps qs m')
      | Err e => plain_calls (plug ps qs m) history = Err e
      end.
Proof. exact @calls_plug. Qed.
Print Assumptions C70_frame_hooks.

(** So stepping with hooks gives the frames of forward with hooks, at the same steps. *)
Theorem C70_schedule :
  forall (F : Type) (FA : Frames F) (ps qs : nat -> list (F -> F)) (hk : nat -> hooks F),
    (forall i, hk i = frame_hooks (ps i) (qs i)) ->
    forall (FL : FrameLaws F) (sh : bool) (m : hmd F) (xs ws zs : list F),
      hookable hk m -> net sh (plug ps qs m) -> hfwd hk m (xs ++ ws) = Ok zs ->
      exists m', feed (hstep hk) m xs =
        Ok (map (scheduled (Z.to_nat (del (plug ps qs m))) (Z.to_nat (strd (plug ps qs m))) zs) (seq 0 (length xs)), m').
Proof. intros F FA ps qs hk HK FL sh m xs ws zs. exact (hooked_schedule ps qs hk HK sh m xs ws zs). Qed.
Print Assumptions C70_schedule.

(** The numbers are those that the network reports, which does not know of its hooks. *)
Theorem C70_reports :
  forall (F : Type) (FA : Frames F) (ps qs : nat -> list (F -> F)) (m : hmd F),
    no_cond m = true ->
    strd (plug ps qs m) = strd (erase m) /\ padg (plug ps qs m) = padg (erase m) /\
    rfield (plug ps qs m) = rfield (erase m) /\
    (forall sh, net sh (erase m) -> net sh (plug ps qs m) -> del (plug ps qs m) = del (erase m)).
Proof.
  intros F FA ps qs m Hc. destruct (plug_reports ps qs m Hc) as (A & B & C).
  repeat split; try assumption. intros sh. apply plug_delay. exact Hc.
Qed.
Print Assumptions C70_reports.

(** A converted module with a pre-hook and a hook: forward applies them once, stepping twice. *)
Theorem C70_converted_twice :
  forall (F : Type) (FA : Frames F) (hk : nat -> hooks F) (i : nat) (p f g : F -> F),
    hk i = frame_hooks [p] [g] ->
    (forall xs, hfwd hk (HLeaf i true (MMap f)) xs = Ok (map (fun x => g (f (p x))) xs)) /\
    (forall x, hstep hk (HLeaf i true (MMap f)) x = Ok (Some (g (g (f (p (p x))))), HLeaf i true (MMap f))).
Proof.
  intros F FA hk i p f g HK. split.
  - intros xs. unfold hfwd, hcall, call_with, hooked. cbn [hid]. rewrite HK. cbn. rewrite !map_map. reflexivity.
  - intros x. unfold hstep, hcall, call_with, hooked. rewrite HK. reflexivity.
Qed.
Print Assumptions C70_converted_twice.

(** A hook of a module that gives no output yet is called with None.  If it cannot deal with
    None, the step raises. *)
Theorem C70_hook_meets_none :
  forall (F : Type) (FA : Frames F) (hk : nat -> hooks F) (i : nat) (lf lf' : md F) (x : F) (h : val F -> val F -> res (option (val F))) (e : exn),
    hk i = {| h_pre := []; h_post := [h] |} -> (forall v, h v VNone = Err e) ->
    step lf (VT x) true = Ok (VNone, lf') ->
    hstep hk (HLeaf i false lf) x = Err e.
Proof.
  intros F FA hk i lf lf' x h e HK He Hs. unfold hstep, hcall, call_with, hooked. cbn [hid hrun leaf_run]. rewrite HK. cbn.
  rewrite Hs. cbn. rewrite He. reflexivity.
Qed.
Print Assumptions C70_hook_meets_none.

(** Stepping and forward disagree when hooks that act on frames are put on a converted
    module, on a recurrent module in a container, or on a branch of a Conditional. *)
Definition hooks_on (i : nat) (g : Z -> Z) (j : nat) : hooks Z := frame_hooks [] (if Nat.eqb i j then [g] else []).
Theorem C70_schedule_refuted :
  (exists g, let m := HSeq 0 [HLeaf 1 true (MMap (fun x => 3 * x)%Z)] in
     hfwd (hooks_on 1 g) m [5]%Z = Ok [16]%Z /\ (exists m', feed (hstep (hooks_on 1 g)) m [5]%Z = Ok ([Some 17]%Z, m'))) /\
  (exists g, let m := HSeq 0 [HLeaf 1 false zrnn] in
     hfwd (hooks_on 1 g) m [5]%Z = Ok [5]%Z /\ (exists m', feed (hstep (hooks_on 1 g)) m [5]%Z = Ok ([Some 6]%Z, m'))) /\
  (exists g, let m := HCond 0 (fun _ => true) 0 1 (HLeaf 1 false (MMap (fun x => 3 * x)%Z)) None in
     hfwd (hooks_on 1 g) m [5]%Z = Ok [16]%Z /\ (exists m', feed (hstep (hooks_on 1 g)) m [5]%Z = Ok ([Some 15]%Z, m'))).
Proof.
  split; [|split]; exists (fun x => x + 1)%Z; (split; [vm_compute; reflexivity|]); eexists; vm_compute; reflexivity.
Qed.
Print Assumptions C70_schedule_refuted.

(** Examples: a convolution, a BroadcastReduce and a converted module, with hooks on the
    network, the convolution and one branch. *)
Definition ex_h : hmd Z :=
  HSeq 0 [HLeaf 1 false (cv [1; 1; 1]%Z 1 1);
          HBR 2 [HLeaf 3 false (cv [1; 10; 100]%Z 1 1); HLeaf 4 false (cv [0; 5; 1]%Z 1 1)] zred;
          HLeaf 5 true (MMap (fun x => 2 * x)%Z)].
Definition ex_ps (i : nat) : list (Z -> Z) := match i with 0 => [fun x => x + 1; fun x => 2 * x]%Z | 3 => [fun x => x - 1]%Z | _ => [] end.
Definition ex_qs (i : nat) : list (Z -> Z) := match i with 1 => [fun x => x * x]%Z | 2 => [fun x => x + 7]%Z | _ => [] end.
Definition ex_hk (i : nat) : hooks Z := frame_hooks (ex_ps i) (ex_qs i).
Example C70_ex_hookable : hookable ex_hk ex_h /\ NoDup (ids ex_h) /\ wf ex_h = true /\ no_cond ex_h = true.
Proof. split; [cbn; repeat split; discriminate|]. split; [repeat constructor; cbn; intuition discriminate|split; reflexivity]. Qed.
Definition res_out {A B} (r : res (A * B)) : res A := match r with Ok (a, _) => Ok a | Err e => Err e end.
Example C70_ex_schedule :
  hfwd ex_hk ex_h [1; 2; 3; 4]%Z = Ok [68242; 126064; 83168; 10864]%Z /\
  res_out (feed (hstep ex_hk) ex_h [1; 2; 3; 4]%Z) = Ok [None; None; Some 68242; Some 126064]%Z /\
  hfwd (fun _ => frame_hooks [] []) ex_h [1; 2; 3; 4]%Z = Ok [1302; 2004; 1696; 228]%Z.
Proof. vm_compute. auto. Qed.
Example C70_ex_log :
  map (fun j => seen j (fst (hcall ex_hk Fwd ex_h (VS [1; 2; 3; 4]%Z)))) [0; 1; 2; 3; 4]
  = [[(false, 0); (false, 1)]; [(true, 0)]; [(true, 0)]; [(false, 0)]; []] /\
  map (fun j => seen j (fst (hcall ex_hk (Step true) ex_h (VT 1%Z)))) [0; 1; 2; 3]
  = [[(false, 0); (false, 1)]; [(true, 0)]; []; []].
Proof. vm_compute. auto. Qed.
Example C70_ex_two :
  seen 5 (fst (hcall (hooks_on 5 (fun x => x)) (Steps false true) ex_h (VS [1; 2; 3; 4]%Z))) = [(true, 0); (true, 0)].
Proof. vm_compute. auto. Qed.
Example C70_ex_net : net true (plug ex_ps ex_qs ex_h).
Proof.
  apply regular_is_net.
  assert (C : forall taps, length taps = 3 -> regular true (cv taps 1 1)) by (intros taps L; constructor; apply cv_ok; lia).
  apply (regular_seq true (map MMap (ex_ps 0) ++ [MSeq (map (plug ex_ps ex_qs)
    [HLeaf 1 false (cv [1; 1; 1]%Z 1 1); HBR 2 [HLeaf 3 false (cv [1; 10; 100]%Z 1 1); HLeaf 4 false (cv [0; 5; 1]%Z 1 1)] zred; HLeaf 5 true (MMap (fun x => 2 * x)%Z)])])).
  intros x [<-|[<-|[<-|[]]]]; [constructor..|].
  match goal with |- regular _ (MSeq ?l) => apply (regular_seq true l) end.
  intros x [<-|[<-|[<-|[]]]].
  - apply (regular_seq true [cv [1; 1; 1]%Z 1 1; MMap (fun x => x * x)%Z]). intros x [<-|[<-|[]]]; [apply C; reflexivity|constructor].
  - apply (regular_seq true [MBR [plug ex_ps ex_qs (HLeaf 3 false (cv [1; 10; 100]%Z 1 1)); plug ex_ps ex_qs (HLeaf 4 false (cv [0; 5; 1]%Z 1 1))] zred; MMap (fun x => x + 7)%Z]).
    intros x [<-|[<-|[]]]; [|constructor].
    eapply regular_br with (ms := [plug ex_ps ex_qs (HLeaf 3 false (cv [1; 10; 100]%Z 1 1)); plug ex_ps ex_qs (HLeaf 4 false (cv [0; 5; 1]%Z 1 1))]) (auto := false) (r := zred); [| | |reflexivity].
    + intros x [<-|[<-|[]]].
      * apply (regular_seq true [MMap (fun x => x - 1)%Z; cv [1; 10; 100]%Z 1 1]). intros x [<-|[<-|[]]]; [constructor|apply C; reflexivity].
      * apply (regular_seq true [cv [0; 5; 1]%Z 1 1]). intros x [<-|[]]. apply C; reflexivity.
    + left. intros a b [<-|[<-|[]]] [<-|[<-|[]]]; reflexivity.
    + intros a b [<-|[<-|[]]] [<-|[<-|[]]]; reflexivity.
  - apply (regular_seq true [MMap (fun x => 2 * x)%Z]). intros x [<-|[]]. constructor.
Qed.
