(** Concrete networks of integer frames, used only in examples and
    counterexamples. *)
From Coq Require Import List ZArith Bool Arith Lia.
From Verif Require Import Base Frames CoMod Leaf Rnn Net LeafSpec NetSpec NetDef ZFrames NetLen NetThm.
Import ListNotations.

Definition cv (taps : list Z) (s p : nat) : md Z := MConv (zconv taps s p None Zeros Zeros) obj_init.
Definition zred : red Z := {| r_op := Z.add; r_bcast := true; r_min2 := true |}.
Definition get (r : res (md Z)) : md Z := match r with Ok m => m | Err _ => MSeq [] end.
Definition dl (d : nat) : md Z := MDelay d Zeros ShNo obj_init.

(** Recurrent module with one layer: h' = 2h + x, y = h'. *)
Definition zrnn : md Z := MRnn {| r_cells := [fun h x => let y := (2 * hd 0 h + x)%Z in ([y], y)]; r_h0 := [0%Z] |} None.

(** Residual(conv k=3 p=1). *)
Definition ex_res : md Z := get (residual (cv [1; 10; 100]%Z 1 1) Zeros zred RNo).
(** BroadcastReduce(conv k=3 p=1, conv k=1) with automatic delay. *)
Definition ex_br : md Z := get (mk_br [cv [1; 2; 3]%Z 1 1; cv [5]%Z 1 0] zred true).
(** Sequential(conv, Residual, BroadcastReduce, sum pooling k=2 s=2). *)
Definition ex_net : md Z :=
  mk_seq [cv [1; 1; 1]%Z 1 1; ex_res; ex_br; MPool (zsum 2 2 0 1 Zeros) obj_init].
(** Residual with shrinking, residual_shrink=True. *)
Definition ex_shrink : md Z := get (residual (cv [1; 10; 100]%Z 1 0) Zeros zred RTrue).

Lemma cv_ok taps s p : 1 <= length taps -> 1 <= s -> p <= length taps - 1 -> (length taps = 1 -> s = 1) ->
  conv_ok (zconv taps s p None Zeros Zeros).
Proof. intros. constructor; cbn; auto; try discriminate; try lia; intros; apply Z.mul_0_r. Qed.
Lemma zsum_ok k s p : 1 <= k -> 1 <= s -> p <= k - 1 -> pool_ok (zsum k s p 1 Zeros).
Proof.
  intros. constructor; cbn; auto; try discriminate; try lia.
  intros l l' Hp. induction Hp; cbn; lia.
Qed.

Lemma ex_res_regular sh : regular sh ex_res.
Proof.
  eapply regular_res with (m0 := cv [1; 10; 100]%Z 1 1); [|left; reflexivity|reflexivity].
  constructor. apply cv_ok; simpl; lia.
Qed.
Lemma ex_br_regular sh : regular sh ex_br.
Proof.
  eapply regular_br with (ms := [cv [1; 2; 3]%Z 1 1; cv [5]%Z 1 0]) (auto := true) (r := zred); [| | |reflexivity].
  - intros x [<-|[<-|[]]]; constructor; apply cv_ok; simpl; lia.
  - right. split; [reflexivity|]. intros m [<-|[<-|[]]]; reflexivity.
  - intros a b [<-|[<-|[]]] [<-|[<-|[]]]; reflexivity.
Qed.
Lemma ex_net_regular sh : regular sh ex_net.
Proof.
  constructor. intros m [<-|[<-|[<-|[<-|[]]]]].
  - constructor. apply cv_ok; simpl; lia.
  - apply ex_res_regular.
  - apply ex_br_regular.
  - constructor; [apply zsum_ok; lia|simpl; lia].
Qed.
Lemma ex_net_net sh : net sh ex_net.
Proof. apply regular_is_net, ex_net_regular. Qed.
Lemma ex_shrink_net : net true ex_shrink.
Proof.
  apply regular_is_net. eapply regular_res with (m0 := cv [1; 10; 100]%Z 1 0) (rs := RTrue); [|right; split; [reflexivity|auto]|reflexivity].
  constructor. apply cv_ok; simpl; lia.
Qed.

(** Output and final state of a run, and a tactic that evaluates a run whose
    outputs or final state are still to be found. *)
Definition out {A M} (r : res (A * M)) : res A := match r with Ok p => Ok (fst p) | Err e => Err e end.
Definition stt {A} (r : res (A * md Z)) : md Z := match r with Ok p => snd p | Err e => MSeq [] end.
Ltac run :=
  match goal with |- ?lhs = Ok (?w, ?m) =>
    (let r := eval vm_compute in (out lhs) in match r with Ok ?v => first [unify w v | idtac] end);
    (first [is_evar m; unify m (stt lhs) | idtac]);
    vm_cast_no_check (eq_refl lhs)
  end.
Ltac runs :=
  match goal with
  | |- _ /\ _ => split; [runs | runs]
  | |- exists _, _ => eexists; runs
  | |- _ = Ok (_, _) => run
  | |- _ => vm_compute; reflexivity
  end.
