(** Property C64: a module stores a bounded amount, however long the stream. *)
From Coq Require Import List ZArith Bool Arith Lia QArith Qcanon.
From Verif Require Import Base Frames CoMod Leaf Rnn Net Spec LeafSpec NetSpec Calls NetDef.
From Verif Require Import NetThm NetExn NetExnSpec MemSpec MemProof ZFrames ZNets.
From Verif Require Import Attn AttnMemSpec AttnMem ZAttn.
Import ListNotations.
Close Scope Qc_scope.
Close Scope Q_scope.

(** C64.  After any history of calls, failing calls included, every module of the
    network holds either nothing or exactly what its constructor arguments give room
    for, and its counters stay within limits given by the same arguments. *)
Theorem C64_memory :
  forall (F : Type) (FA : Frames F) (m : md F) (cs : list (call F)),
    proper m -> fresh m ->
    Forall2 (fun h r => h = 0 \/ h = r) (held (fst (xrun m cs))) (room m) /\
    Forall2 (fun z l => (Z.abs z <= Z.of_nat l)%Z) (counters (fst (xrun m cs))) (limits m).
Proof. exact @memory. Qed.
Print Assumptions C64_memory.

Theorem C64_total :
  forall (F : Type) (FA : Frames F) (m : md F) (cs : list (call F)),
    proper m -> fresh m -> list_sum (held (fst (xrun m cs))) <= list_sum (room m).
Proof. exact @memory_total. Qed.
Print Assumptions C64_total.

(** No call other than clean_state gives up a buffer or changes its size: a buffer
    that exists keeps its size for the rest of the stream. *)
Theorem C64_growth :
  forall (F : Type) (FA : Frames F) (m : md F) (before after : list (call F)),
    proper m -> fresh m -> Forall keeps_state after ->
    Forall2 (fun a b => b = a \/ a = 0)
      (held (fst (xrun m before))) (held (fst (xrun (fst (xrun m before)) after))).
Proof. exact @memory_grows. Qed.
Print Assumptions C64_growth.

(** A residual connection around a convolution of kernel size 3 (delay of one step),
    a strided pooling and a recurrent module, with a raising call and clean_state on
    the way. *)
Example C64_example :
  let m := MSeq [ex_res; MPool (zsum 2 2 0 1 Zeros) obj_init; zrnn; dl 3] in
  let steps l := map (fun x => CStep (VT x) true) l in
  proper m /\ fresh m /\ room m = [1; 4; 2; 1; 3] /\ limits m = [2; 3; 5; 2; 4; 6] /\
  held m = [0; 0; 0; 0; 0] /\
  held (fst (xrun m (steps [1]%Z))) = [1; 4; 0; 0; 0] /\
  held (fst (xrun m (steps [1; 2; 3; 4; 5]%Z))) = [1; 4; 2; 1; 3] /\
  held (fst (xrun m (steps [1; 2; 3; 4; 5]%Z ++ CStep VNone true :: steps (repeat 7%Z 100)))) = [1; 4; 2; 1; 3] /\
  held (fst (xrun m (steps [1; 2; 3; 4; 5]%Z ++ [CClean]))) = [0; 0; 0; 0; 0].
Proof.
  cbv zeta. split; [|repeat split].
  cbn. repeat split; try lia. constructor; [|constructor]. intros [|a [|b h]] x H; cbn in *; try discriminate; reflexivity.
Qed.

(** Attention: each head keeps N keys, N values and, when the query is not the newest
    one, the queries to come. *)
Theorem C64_single_output :
  forall (K : Type) (NK : Num K) (c : cfg K) (query_index : Z) (l : list (acalls K)),
    match fst (ahist c (so_sdpa c query_index) None [] l) with
    | None => True
    | Some (heads, _) => map so_rows heads = repeat [so_delay (c_N c) query_index; c_N c; c_N c] (c_H c)
    end.
Proof. exact @so_memory. Qed.
Print Assumptions C64_single_output.

Theorem C64_retroactive :
  forall (K : Type) (NK : Num K) (c : cfg K) (l : list (acalls K)),
    match fst (ahist c (re_sdpa c) None [] l) with
    | None => True
    | Some (heads, _) => map re_rows heads = repeat [c_N c - 1; c_N c - 1; c_N c - 1; c_N c; c_N c] (c_H c)
    end.
Proof. exact @re_memory. Qed.
Print Assumptions C64_retroactive.

Example C64_attention_example :
  let l := [AStep (self (zv [1; 2]%Z)) true; ASteps ex_ts false; ASteps ex_ts true] in
  let rows {A} (f : A -> list nat) (o : option (list A * nat)) := option_map (fun s => map f (fst s)) o in
  rows so_rows (fst (ahist (ac 3) (so_sdpa (ac 3) (-2)) None [] l)) = Some [[1; 3; 3]; [1; 3; 3]] /\
  rows re_rows (fst (ahist (ac 3) (re_sdpa (ac 3)) None [] l)) = Some [[2; 2; 2; 3; 3]; [2; 2; 2; 3; 3]].
Proof. cbv zeta. split; vm_compute; reflexivity. Qed.
