(** C79: changing the parameters of a network in the middle of a stream. *)
From Coq Require Import List ZArith Bool Arith Lia.
From Verif Require Import Base Frames CoMod Leaf Rnn Net Spec LeafSpec NetSpec NetOk Calls NetDef NetRel NetThm ZFrames ZNets.
From Verif Require Import Reload ReloadSpec ReloadNet ReloadConv.
Import ListNotations.

(** C79.  [m] is a new network, whose parameters are replaced before each of the
    clips of [l] (by an optimiser, or with [load_state_dict]) and finally by those
    of [q].  Nothing raises.  From [receptive_field - 1] frames after the last
    change on, the outputs are those of a network that had the parameters [q] from
    the beginning of the stream.  No law of the frame operations is needed. *)
Theorem C79_new_parameters :
  forall (F : Type) (FA : Frames F) (sh : bool) (q m : md F) (l : list (md F * list F)) (b c : list F),
    net sh q -> rnn_free q -> same_arch m q ->
    (forall p xs, In (p, xs) l -> same_arch (clean p) q) ->
    (rfield q - 1 <= Z.of_nat (length b))%Z ->
    exists yss m1 us ws m2 vs q2,
      train m l = Ok (yss, m1) /\
      feed (nstep true) (load q m1) (b ++ c) = Ok (us ++ ws, m2) /\ length us = length b /\
      feed (nstep true) q (concat (map snd l) ++ b ++ c) = Ok (vs ++ ws, q2) /\
      length vs = length (concat (map snd l)) + length b.
Proof. exact @train_forgets. Qed.
Print Assumptions C79_new_parameters.

(** A network with the architecture of [ex_net] and other weights. *)
Definition ex_net2 : md Z :=
  mk_seq [cv [3; 1; 2]%Z 1 1; get (residual (cv [7; 1; 4]%Z 1 1) Zeros zred RNo);
          get (mk_br [cv [2; 2; 9]%Z 1 1; cv [8]%Z 1 0] zred true); MPool (zsum 2 2 0 1 Zeros) obj_init].
Lemma ex_net2_net sh : net sh ex_net2.
Proof.
  apply regular_is_net. constructor. intros m [<-|[<-|[<-|[<-|[]]]]].
  - constructor. apply cv_ok; simpl; lia.
  - eapply regular_res with (m0 := cv [7; 1; 4]%Z 1 1); [|left; reflexivity|reflexivity]. constructor. apply cv_ok; simpl; lia.
  - eapply regular_br with (ms := [cv [2; 2; 9]%Z 1 1; cv [8]%Z 1 0]) (auto := true) (r := zred); [| | |reflexivity].
    + intros x [<-|[<-|[]]]; constructor; apply cv_ok; simpl; lia.
    + right. split; [reflexivity|]. intros m [<-|[<-|[]]]; reflexivity.
    + intros a b [<-|[<-|[]]] [<-|[<-|[]]]; reflexivity.
  - constructor; [apply zsum_ok; lia|simpl; lia].
Qed.
Ltac arch := unfold same_arch; repeat (first [constructor | intros; exact I | intros ?; intros; exact I]); auto.
Lemma ex_arch : same_arch ex_net ex_net2.
Proof. vm_compute. arch. Qed.


(** The parameters of [ex_net2] are loaded after 5 frames: the receptive field is 8,
    and after 7 further frames the outputs are those of [ex_net2]. *)
Example C79_new_parameters_example :
  rfield ex_net2 = 8%Z /\ net true ex_net2 /\ rnn_free ex_net2 /\ same_arch ex_net ex_net2 /\
  (exists m1, train ex_net [(ex_net, [1; 2; 3]); (ex_net2, [4]); (ex_net, [5])]%Z = Ok ([[None; None; None]; [None]; [Some 11059%Z]], m1)) /\
  (exists m1 m2, train ex_net [(ex_net, [1; 2; 3; 4; 5])]%Z = Ok ([[None; None; None; None; Some 18669%Z]], m1) /\
    feed (nstep true) (load ex_net2 m1) [6; 7; 8; 9; 9; 8; 7; 1; 2; 4; 1; 3]%Z
    = Ok ([None; Some 17070; None; Some 13162; None; Some 22928; None] ++ [Some 26667; None; Some 21204; None; Some 11629], m2)%Z) /\
  exists q2, feed (nstep true) ex_net2 ([1; 2; 3; 4; 5] ++ [6; 7; 8; 9; 9; 8; 7] ++ [1; 2; 4; 1; 3])%Z
    = Ok ([None; None; None; None; Some 4850; None; Some 11256; None; Some 17808; None; Some 23920; None] ++ [Some 26667; None; Some 21204; None; Some 11629], q2)%Z.
Proof.
  split; [reflexivity|]. split; [apply ex_net2_net|]. split; [cbn; tauto|]. split; [exact ex_arch|]. split; [runs|]. split.
  - eexists. eexists. split; [vm_compute; reflexivity|]. run.
  - runs.
Qed.

(** One frame less is not enough: the bound is sharp. *)
Theorem C79_new_parameters_sharp :
  exists (q m : md Z) (xs b : list Z) (x : Z) ys m1 us y m2 vs z q2,
    net true q /\ net true m /\ rnn_free q /\ same_arch m q /\ (rfield q - 1 = Z.of_nat (length b) + 1)%Z /\
    train m [(m, xs)] = Ok ([ys], m1) /\
    feed (nstep true) (load q m1) (b ++ [x]) = Ok (us ++ [Some y], m2) /\
    feed (nstep true) q (xs ++ b ++ [x]) = Ok (vs ++ [Some z], q2) /\ y <> z.
Proof.
  exists ex_net2, ex_net, [1; 2; 3; 4]%Z, [6; 7; 8; 9; 9; 8]%Z, 7%Z, [None; None; None; None]. eexists.
  exists [Some 16383; None; Some 8963; None; Some 18013; None]%Z, 25950%Z. eexists.
  exists [None; None; None; None; Some 4922; None; Some 12052; None; Some 20081; None]%Z, 26062%Z. eexists.
  split; [apply ex_net2_net|]. split; [apply ex_net_net|]. split; [cbn; tauto|]. split; [exact ex_arch|]. split; [reflexivity|].
  split; [vm_compute; reflexivity|]. split; [vm_compute; reflexivity|]. split; [vm_compute; reflexivity|]. discriminate.
Qed.
Print Assumptions C79_new_parameters_sharp.

(** In between, the outputs need not be those of either network. *)
Theorem C79_transition_is_neither :
  exists (q m : md Z) (xs b : list Z) ys m1 y m2 ua ya m3 ub yb q3,
    net true q /\ net true m /\ rnn_free q /\ same_arch m q /\
    train m [(m, xs)] = Ok ([ys], m1) /\ feed (nstep true) (load q m1) b = Ok ([Some y], m2) /\
    feed (nstep true) m (xs ++ b) = Ok (ua ++ [Some ya], m3) /\ feed (nstep true) q (xs ++ b) = Ok (ub ++ [Some yb], q3) /\
    y <> ya /\ y <> yb.
Proof.
  exists (cv [2; 20]%Z 1 0), (cv [1; 10]%Z 1 0), [1]%Z, [1]%Z, [None]. eexists. exists 21%Z. eexists. exists [None], 11%Z. eexists. exists [None], 22%Z. eexists.
  split; [constructor; apply cv_ok; simpl; lia|]. split; [constructor; apply cv_ok; simpl; lia|]. split; [exact I|]. split; [vm_compute; arch|].
  split; [vm_compute; reflexivity|]. split; [vm_compute; reflexivity|]. split; [vm_compute; reflexivity|]. split; [vm_compute; reflexivity|]. split; discriminate.
Qed.
Print Assumptions C79_transition_is_neither.

(** What a network has seen before its last [receptive_field - 1] frames makes no
    difference to any later output, whatever the frame operations are. *)
Theorem C79_memory :
  forall (F : Type) (FA : Frames F) (sh : bool) (q : md F) (a a' b c : list F),
    net sh q -> rnn_free q -> length a = length a' -> (rfield q - 1 <= Z.of_nat (length b))%Z ->
    exists us vs ws q1 q2,
      feed (nstep true) q (a ++ b ++ c) = Ok (us ++ ws, q1) /\ feed (nstep true) q (a' ++ b ++ c) = Ok (vs ++ ws, q2) /\
      length us = length (a ++ b) /\ length vs = length (a' ++ b).
Proof. exact @memory. Qed.
Print Assumptions C79_memory.

(** A clean-up gives the new network; loading the old parameters again gives back
    the old state; [forward] uses the new parameters at once. *)
Theorem C79_load :
  forall (F : Type) (FA : Frames F) (sh : bool) (q m : md F),
    net sh q -> rnn_free q -> same_arch q (clean m) ->
    clean (load q m) = q /\ load m (load q m) = m /\ (forall v, fwd (load q m) v = fwd q v).
Proof. exact @load_facts. Qed.
Print Assumptions C79_load.

Example C79_load_example : exists m1, feed (nstep true) ex_net [1; 2; 3]%Z = Ok ([None; None; None], m1) /\
  same_arch ex_net2 (clean m1) /\ load ex_net2 m1 <> ex_net2.
Proof.
  eexists. split; [vm_compute; reflexivity|]. split; [vm_compute; arch|]. vm_compute. intros E. discriminate E.
Qed.

(** Recurrent modules never forget: here the hidden state left by the old
    parameters is visible in every later output. *)
Definition zcell1 : rnn_cfg Z := {| r_cells := [fun h x => ([hd 0 h + x], hd 0 h + x)%Z]; r_h0 := [0%Z] |}.
Definition zrnn1 : md Z := MRnn zcell1 None.
Theorem C79_rnn_forgets_refuted :
  exists (q m : md Z) (xs : list Z) ys m1 y z,
    net true q /\ net true m /\ same_arch m q /\ train m [(m, xs)] = Ok ([ys], m1) /\ y <> z /\
    forall n, exists us m2 vs q2,
      feed (nstep true) (load q m1) (repeat 0%Z n ++ [0%Z]) = Ok (us ++ [Some y], m2) /\
      feed (nstep true) q (xs ++ repeat 0%Z n ++ [0%Z]) = Ok (vs ++ [Some z], q2).
Proof.
  exists zrnn1, zrnn, [1; 1]%Z, [Some 1; Some 3]%Z. eexists. exists 3%Z, 2%Z.
  split; [constructor|]. split; [constructor|]. split; [vm_compute; arch|]. split; [vm_compute; reflexivity|]. split; [discriminate|].
  assert (S : forall a, nstep true (MRnn zcell1 (Some [[a]])) 0%Z = Ok (Some a, MRnn zcell1 (Some [[a]]))).
  { intros a. unfold nstep. cbn. now rewrite Z.add_0_r. }
  assert (G : forall n a, feed (nstep true) (MRnn zcell1 (Some [[a]])) (repeat 0%Z n ++ [0%Z]) = Ok (repeat (Some a) n ++ [Some a], MRnn zcell1 (Some [[a]]))).
  { intros n a. induction n as [|n IH]; cbn [repeat app feed]; rewrite S; cbn [bind]; [reflexivity|]. now rewrite IH. }
  intros n. exists (repeat (Some 3%Z) n). eexists. exists ([Some 1; Some 2]%Z ++ repeat (Some 2%Z) n). eexists.
  split; [exact (G n 3%Z)|].
  rewrite feed_app. replace (feed (nstep true) zrnn1 [1; 1]%Z) with (Ok ([Some 1; Some 2]%Z, MRnn zcell1 (Some [[2%Z]]))) by reflexivity.
  cbn [bind fst snd]. rewrite G. reflexivity.
Qed.
Print Assumptions C79_rnn_forgets_refuted.

(** Online learning.  The parameters of a convolution may change before every
    step: output [n] is the bias of step [n] plus, for every tap, its frame times
    the weight that was there when the frame arrived, not the present one. *)
Theorem C79_online_learning :
  forall (F : Type) (FA : Frames F) (FL : FrameLaws F) (k s p : nat) (l : list (conv_cfg F * F)) (d : conv_cfg F),
    (forall c x, In (c, x) l -> conv_ok c /\ shaped k s p c) -> conv_ok d -> shaped k s p d ->
    exists o, feed_learning obj_init l
      = Ok (map (fun n => if emits (k - 1 - p) s n then Some (learned l d k n) else None) (seq 0 (length l)), o).
Proof. exact @online_learning. Qed.
Print Assumptions C79_online_learning.

(** Three steps with the kernels [1; 10], [2; 20], [3; 30] and the biases 100, 200, 300. *)
Example C79_online_learning_example :
  let c n := zconv [Z.of_nat n; 10 * Z.of_nat n]%Z 1 1 (Some (100 * Z.of_nat n)%Z) Zeros Zeros in
  let l := [(c 1, 1%Z); (c 2, 1%Z); (c 3, 1%Z)] in
  (forall x y, In (x, y) l -> conv_ok x /\ shaped 2 1 1 x) /\
  map (learned l (c 1) 2) [0; 1; 2] = [110; 221; 332]%Z /\
  exists o, feed_learning obj_init l = Ok ([Some 110; Some 221; Some 332]%Z, o).
Proof.
  cbv zeta. split; [|split; [vm_compute; reflexivity|eexists; vm_compute; reflexivity]].
  intros x y H. repeat (destruct H as [H|H]; [injection H as <- _; split; [constructor; cbn; auto; try discriminate; try lia; intros; apply Z.mul_0_r|repeat split]|]). destruct H.
Qed.
