(** C84: networks with dropout in training mode. *)
From Coq Require Import List ZArith Bool Arith Lia.
From Verif Require Import Base Frames CoMod Leaf Rnn Net Spec LeafSpec NetSpec NetDef ZFrames NetLen NetThm ZNets Calls DropNet DropNetProof.
Import ListNotations.

(** Steps in training mode return what forward of the clip returns, with the reported
    delay and stride, if the [n]-th frame that reaches a dropout module has the same draws
    in both.  Each frame is dropped once, when it reaches the module, and the buffers
    of later modules keep it so in all windows.  A module draws for the frames
    that reach it and for no others. *)
Theorem C84_training :
  forall (F : Type) (FA : Frames F), FrameLaws F ->
    forall (mk : nat -> nat -> F -> F) sh ss, Forall (fresh_stage sh) ss ->
    forall xs ws zs, chain_fwd mk ss (xs ++ ws) = Ok zs ->
    let delay := Z.to_nat (del (MSeq (nets ss))) in
    let stride := Z.to_nat (strd (MSeq (nets ss))) in
    exists ss',
      feed (chain_step mk) ss xs = Ok (map (scheduled delay stride zs) (seq 0 (length xs)), ss')
      /\ drop_counts ss' = reached ss (length xs).
Proof. exact @chain_training. Qed.
Print Assumptions C84_training.

(** The same for a stream given as frames and as clips in any mixture, without end padding. *)
Theorem C84_frames_and_clips :
  forall (F : Type) (FA : Frames F), FrameLaws F ->
    forall (mk : nat -> nat -> F -> F) sh ss, Forall (fresh_stage sh) ss ->
    forall cs, (forall c, In c cs -> frames c <> []) ->
    forall ws zs, chain_fwd mk ss (concat (map frames cs) ++ ws) = Ok zs ->
    let xs := concat (map frames cs) in
    let delay := Z.to_nat (del (MSeq (nets ss))) in
    let stride := Z.to_nat (strd (MSeq (nets ss))) in
    exists ss',
      chain_chunks mk ss cs = Ok (somes (map (scheduled delay stride zs) (seq 0 (length xs))), ss')
      /\ drop_counts ss' = reached ss (length xs).
Proof. exact @chain_calls. Qed.
Print Assumptions C84_frames_and_clips.

(** Without draws (evaluation mode), the dropout modules have no effect on the steps and
    on forward of the container. *)
Theorem C84_evaluation :
  forall (F : Type) (FA : Frames F) (mk : nat -> nat -> F -> F), (forall l n x, mk l n x = x) ->
    forall ss xs,
    (forall os ss', feed (chain_step mk) ss xs = Ok (os, ss') ->
      feed (nstep true) (MSeq (nets ss)) xs = Ok (os, MSeq (nets ss')))
    /\ (forall zs, chain_fwd mk ss xs = Ok zs -> nfwd (MSeq (nets ss)) xs = Ok zs).
Proof. intros F FA mk H ss xs. split; [apply eval_feed, H|apply eval_fwd, H]. Qed.
Print Assumptions C84_evaluation.

(** Modules that drop channels: forward drops a channel in all frames of the clip or in
    none.  Steps draw again for each frame, and there are draws with which they return
    what no draw of forward returns. *)
Theorem C84_channel_dropout_refuted :
  exists (mk : nat -> nat -> Z -> Z) xs os ss',
    (forall l n, (forall x, mk l n x = 0%Z) \/ (forall x, mk l n x = (2 * x)%Z))
    /\ feed (chain_step mk) [Drop 0 0] xs = Ok (os, ss')
    /\ forall f, os <> map Some (channel_fwd f xs).
Proof.
  exists (fun _ n x => if Nat.even n then (2 * x)%Z else 0%Z), [1; 1]%Z, [Some 2; Some 0]%Z, [Drop 0 2].
  split; [|split].
  - intros l n. destruct (Nat.even n); auto.
  - reflexivity.
  - intros f E. injection E as E1 E2. congruence.
Qed.
Print Assumptions C84_channel_dropout_refuted.

(** Convolutions with stride 2 and with padding, a dropout module before, between and behind. *)
Definition ex_mask (l n : nat) (x : Z) : Z := if Nat.eqb ((l + n) mod 3) 0 then 0%Z else (2 * x)%Z.
Definition ex_stages : list (stage Z) :=
  [Drop 0 0; Plain (cv [1; 1]%Z 2 0); Drop 1 0; Plain (cv [1; 10; 100]%Z 1 1); Drop 2 0].
Lemma ex_stages_fresh : Forall (fresh_stage false) ex_stages.
Proof.
  assert (C : forall t a b, conv_ok (zconv t a b None Zeros Zeros) -> fresh_stage false (Plain (cv t a b))).
  { intros t a b H. apply regular_is_net. constructor. exact H. }
  unfold ex_stages. repeat apply Forall_cons; try apply Forall_nil; try reflexivity; apply C, cv_ok; simpl; lia.
Qed.
Example C84_ex_training :
  Forall (fresh_stage false) ex_stages
  /\ chain_fwd ex_mask ex_stages [1; 2; 3; 4; 5; 6; 7; 8]%Z = Ok [2560; 0; 6424; 640]%Z
  /\ (del (MSeq (nets ex_stages)), strd (MSeq (nets ex_stages))) = (3, 2)%Z
  /\ exists ss', feed (chain_step ex_mask) ex_stages [1; 2; 3; 4; 5; 6; 7; 8]%Z
      = Ok ([None; None; None; Some 2560; None; Some 0; None; Some 6424]%Z, ss')
    /\ drop_counts ss' = [8; 4; 3].
Proof.
  split; [exact ex_stages_fresh|].
  split; [vm_compute; reflexivity|split; [vm_compute; reflexivity|eexists; split; vm_compute; reflexivity]].
Qed.
Example C84_ex_evaluation :
  exists ss' m', feed (chain_step (fun _ _ x => x)) ex_stages [1; 2; 3; 4]%Z = Ok ([None; None; None; Some 730]%Z, ss')
    /\ feed (nstep true) (MSeq (nets ex_stages)) [1; 2; 3; 4]%Z = Ok ([None; None; None; Some 730]%Z, m').
Proof. do 2 eexists. split; vm_compute; reflexivity. Qed.
Example C84_ex_frames_and_clips :
  exists ss', chain_chunks ex_mask ex_stages [Frame 1; Clip [2; 3; 4; 5]; Frame 6; Clip [7]; Clip [8]]%Z = Ok ([2560; 0; 6424]%Z, ss')
    /\ drop_counts ss' = [8; 4; 3].
Proof. eexists. split; vm_compute; reflexivity. Qed.
