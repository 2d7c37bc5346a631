(** Property C57: the exported function of a network continues the object's stream. *)
From Coq Require Import List ZArith Bool Arith Lia.
From Verif Require Import Base Frames CoMod Leaf Rnn Net Spec LeafSpec NetSpec Calls NetDef ZFrames ZNets.
From Verif Require Import OnnxNet OnnxNetSpec OnnxNetProof.
From Verif Require Onnx OnnxSpec.
Import Onnx (ONone, OX, wrapper, state_input_names, state_output_names).
Import OnnxSpec (tensors, wrun).
Import ListNotations.

(** C57. A network from the public constructors streams a prefix longer than its
    delay; the function that the export makes of it, started with the states that
    the object then holds and fed its own states, returns for the following frames
    what [forward] on the whole clip has at those steps. It takes and returns as many
    states as the modules declare. *)
Theorem C57_exported_is_forward :
  forall (F : Type) (FA : Frames F) (FL : FrameLaws F) (sh : bool) (m : md F) (xs1 xs2 ws zs : list F) us m1,
    net sh m -> cells_keep m ->
    nfwd m (xs1 ++ xs2 ++ ws) = Ok zs -> feed (nstep true) m xs1 = Ok (us, m1) ->
    Z.to_nat (del m) < length xs1 ->
    exists st,
      wrun (emb m) (tensors (emb m1)) (map FF xs2)
      = Ok (map (fun n => to_o (of_opt (scheduled (Z.to_nat (del m)) (Z.to_nat (strd m)) zs n)))
                (seq (length xs1) (length xs2)), st) /\
      length (tensors (emb m1)) = n_states m /\ length st = n_states m.
Proof. exact @exported_net. Qed.
Print Assumptions C57_exported_is_forward.

Definition ex_export : md Z := mk_seq [ex_net; zrnn].
Lemma ex_export_net : net false ex_export.
Proof. constructor. intros m [<-|[<-|[]]]; [apply ex_net_net|constructor]. Qed.
Lemma ex_export_cells : cells_keep ex_export.
Proof. cbn. repeat (split; try exact I); repeat constructor. Qed.

Example C57_exported_is_forward_ex :
  net false ex_export /\ cells_keep ex_export /\ n_states ex_export = 17 /\ del ex_export = 4%Z /\
  nfwd ex_export [1; 2; 3; 4; 5; 6; 7; 8; 9; 9; 9]%Z = Ok [18669; 71088; 190710; 442805; 934480]%Z /\
  exists m1,
    feed (nstep true) ex_export [1; 2; 3; 4; 5; 6]%Z = Ok ([None; None; None; None; Some 18669; None]%Z, m1) /\
    out (wrun (emb ex_export) (tensors (emb m1)) (map FF [7; 8; 9; 9]%Z))
    = Ok [OX (FF 71088); ONone; OX (FF 190710); ONone]%Z.
Proof.
  split; [apply ex_export_net|]. split; [apply ex_export_cells|]. split; [reflexivity|]. split; [reflexivity|].
  split; [vm_compute; reflexivity|]. eexists. split; [run|]. vm_compute. reflexivity.
Qed.

(** C57. The same for every reachable object, whatever was stepped before, provided
    that every stateful module holds a state: outputs, states and errors are those of
    [forward_step] on the object. *)
Theorem C57_exported_object :
  forall (F : Type) (FA : Frames F) (m0 : md F) (vs us : list (val F)) (m : md F) (xs : list F),
    fresh m0 -> convs_regular m0 -> cells_keep m0 -> one_branch m0 ->
    run_steps m0 vs = Ok (us, m) -> held m ->
    wrun (emb m0) (tensors (emb m)) (map FF xs) =
    match run_steps m (map VT xs) with
    | Ok (ws, m') => Ok (map to_o ws, tensors (emb m'))
    | Err e => Err e
    end.
Proof. exact @exported_object. Qed.
Print Assumptions C57_exported_object.

Definition ex_cexport : md Z := MSeq [mk_cond (fun v => match v with VT x => Z.ltb x 10 | _ => false end) (dl 1) None; cv [1; 10]%Z 1 0].
Example C57_exported_object_ex :
  fresh ex_cexport /\ convs_regular ex_cexport /\ cells_keep ex_cexport /\ one_branch ex_cexport /\
  exists m, run_steps ex_cexport (map VT [1; 2; 3]%Z) = Ok ([VNone; VNone; VT 21%Z], m) /\ held m /\
    out (wrun (emb ex_cexport) (tensors (emb m)) (map FF [4; 50; 6]%Z)) = Ok [OX (FF 32); OX (FF 503); OX (FF 90)]%Z.
Proof.
  split; [cbn; auto|]. split; [cbn; auto|]. split; [cbn; auto|]. split; [cbn; auto|].
  eexists. split; [run|]. split; [|vm_compute; reflexivity].
  vm_compute. repeat split; try (right; discriminate).
Qed.

(** C57. All states exist once the network has returned something. *)
Theorem C57_states_exist :
  forall (F : Type) (FA : Frames F) (m0 : md F) (vs us : list (val F)) (m : md F),
    fresh m0 -> convs_regular m0 -> cells_keep m0 -> plain m0 ->
    run_steps m0 vs = Ok (us, m) -> (exists w, In w us /\ w <> VNone) -> held m.
Proof. exact @states_exist. Qed.
Print Assumptions C57_states_exist.

(** C57. The numbers of state inputs and outputs of the export. *)
Theorem C57_state_counts :
  forall (F : Type) (FA : Frames F) (m : md F),
    length (state_input_names (emb m)) = n_states m /\
    length (state_output_names (emb m)) = n_states m /\
    (held m -> length (tensors (emb m)) = n_states m).
Proof. exact @emb_counts. Qed.
Print Assumptions C57_state_counts.

Example C57_states_ex :
  exists us m, run_steps ex_export (map VT [1; 2; 3; 4; 5]%Z) = Ok (us, m) /\ last us VNone = VT 18669%Z /\
    length (tensors (emb m)) = 17 /\ length (state_input_names (emb ex_export)) = 17.
Proof. do 2 eexists. split; [run|]. vm_compute. auto. Qed.

(** C57, negative part. Before the first output some states do not exist yet: the
    object has too few states to start the exported function with. *)
Theorem C57_before_first_output_refuted :
  exists (m : md Z) (xs : list Z) us m1 e,
    net false m /\ cells_keep m /\ xs <> [] /\ feed (nstep true) m xs = Ok (us, m1) /\
    length (tensors (emb m1)) < n_states m /\
    wrapper (emb m) (FF 3%Z) (tensors (emb m1)) = Err e /\
    exists y m2, nstep true m1 3%Z = Ok (y, m2).
Proof.
  exists (mk_seq [cv [1; 1]%Z 1 0; cv [1; 10; 100]%Z 1 0]), [1]%Z. do 3 eexists.
  split. { apply net_seq. intros x [<-|[<-|[]]]; constructor; apply cv_ok; simpl; lia. }
  split; [cbn; auto|]. split; [discriminate|]. split; [run|].
  split; [apply Nat.ltb_lt; vm_compute; reflexivity|]. split; [vm_compute; reflexivity|]. do 2 eexists. run.
Qed.
Print Assumptions C57_before_first_output_refuted.
