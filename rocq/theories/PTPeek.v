(** C75: update_state=False and pad_end=True on networks of tensor modules, in particular on
    the transformer encoders. *)
From Coq Require Import List ZArith QArith Qcanon Bool Arith Lia.
From Verif Require Import Base Frames CoMod Leaf Attn AttnSpec Trans CallMode Tensor TAttn TPoint TEnc TEncSpec TPeekSpec TPeekProof TPeekThm ZAttn PTEnc.
Import ListNotations.
Close Scope Q_scope.
Close Scope Qc_scope.
Open Scope nat_scope.

(** A step or a clip with update_state=False that returns leaves the network as it was, and
    returned what the call with update_state=True would have returned. *)
Theorem C75_peek :
  forall (K : Type) (NK : Num K) (m : tmod K) ctx me pad_end s x o s',
    me <> Forward -> still ctx m = true -> same m s s ->
    exec ctx me m s x pad_end false = Ok (o, s') ->
    same m s s' /\ (pad_end = false -> exists s1, exec ctx me m s x pad_end true = Ok (o, s1)).
Proof. exact @peek. Qed.
Print Assumptions C75_peek.

(** Networks in states that agree in what can be observed answer every history alike. *)
Theorem C75_alike :
  forall (K : Type) (NK : Num K) (m : tmod K) l s t,
    same m s t ->
    match ucalls m s l, ucalls m t l with
    | Ok (outs, s'), Ok (outs', t') => outs = outs' /\ same m s' t'
    | Err e, Err f => e = f
    | _, _ => False
    end.
Proof. intros K NK m l s t H. exact (ucalls_alike m l s t H). Qed.
Print Assumptions C75_alike.

(** Peeks can be erased from any history of a new network. *)
Theorem C75_erase :
  forall (K : Type) (NK : Num K) (m : tmod K) l outs s',
    Forall (fun c => kept c = true \/ still (ctx_of (fst c)) m = true) l ->
    ucalls m SNone l = Ok (outs, s') ->
    exists t', calls m SNone (map fst (filter kept l)) = Ok (kept_results l outs, t') /\ same m s' t'.
Proof. intros K NK m l outs s'. exact (erase m l SNone SNone outs s' (same_fresh m)). Qed.
Print Assumptions C75_erase.

(** A transformer encoder that has made a step or seen a clip can be peeked at: the peek
    returns what the call would return, and leaves the encoder as it was. *)
Theorem C75_one_layer :
  forall (K : Type) (NK : Num K) (p : layer K) norm l outs s c o s1,
    let m := encoder1 p norm in
    calls m SNone l = Ok (outs, s) -> existsb moves l = true ->
    is_forward c = false -> call m s c = Ok (o, s1) ->
    exists s2, ucall m s c false = Ok (o, s2) /\ same m s s2.
Proof. intros K NK p norm l outs s c o s1 m E Hl Hf. exact (peek_after m (wakes_enc1 p norm) l outs s c o s1 E Hl (still_enc1 p norm (ctx_of c)) Hf). Qed.
Print Assumptions C75_one_layer.

Theorem C75_two_layers :
  forall (K : Type) (NK : Num K) (p1 p2 : layer K) norm l outs s c o s1,
    let m := encoder2 p1 p2 norm in
    calls m SNone l = Ok (outs, s) -> existsb moves l = true ->
    is_forward c = false -> ctx_of c = None -> call m s c = Ok (o, s1) ->
    exists s2, ucall m s c false = Ok (o, s2) /\ same m s s2.
Proof.
  intros K NK p1 p2 norm l outs s c o s1 m E Hl Hf Hc. apply (peek_after m (wakes_enc2 p1 p2 norm) l outs s c o s1 E Hl); [|exact Hf].
  rewrite Hc. apply still_enc2.
Qed.
Print Assumptions C75_two_layers.

(** Before that a peek raises where the call would return. *)
Theorem C75_fresh_peek_raises :
  forall (K : Type) (NK : Num K) (p1 p2 : layer K) norm m c o s',
    m = encoder1 p1 norm \/ m = encoder2 p1 p2 norm ->
    moves c = true -> call m SNone c = Ok (o, s') -> ucall m SNone c false = Err UnboundLocalError.
Proof.
  intros K NK p1 p2 norm m c o s' [-> | ->]; [exact (fresh_peek _ c o s' (raises_enc1 p1 norm))|exact (fresh_peek _ c o s' (raises_enc2 p1 p2 norm))].
Qed.
Print Assumptions C75_fresh_peek_raises.

(** An encoder with one layer ignores [pad_end]. *)
Theorem C75_pad_end_ignored :
  forall (K : Type) (NK : Num K) (p : layer K) norm ctx s x upd,
    exec ctx Steps (encoder1 p norm) s x true upd = exec ctx Steps (encoder1 p norm) s x false upd.
Proof. intros K NK p norm ctx s x upd. exact (padless_enc1 p norm ctx Steps s x upd). Qed.
Print Assumptions C75_pad_end_ignored.

(* ------------------------------------------------------------------ *)

Definition peeked (l : list (tcall Qc)) : list (tcall Qc * bool) := flat_map (fun c => [(c, false); (c, true)]) l.
(** Every call but the first is made as a peek before. *)
Definition ex_peeks : list (tcall Qc * bool) :=
  (CFrame None (ex_fr 0), true) :: peeked [CClip None (ex_cl 1 2); CForward None (ex_cl 7 2); CFrame None (ex_fr 3)].
Example C75_one_layer_ex :
  Forall (fun c => kept c = true \/ still (ctx_of (fst c)) (encoder1 (ex_layer 2 1) ex_final) = true) ex_peeks
  /\ existsb moves [CFrame None (ex_fr 0)] = true
  /\ map kept ex_peeks = [true; false; true; true; true; false; true]
  /\ sees (ucalls (encoder1 (ex_layer 2 1) ex_final) SNone ex_peeks)
     = (outs <- sees (calls (encoder1 (ex_layer 2 1) ex_final) SNone (map fst (filter kept ex_peeks))) ;;
        match outs with [a; b; c; d; e] => Ok [a; b; b; c; d; e; e] | _ => Ok [] end)
  /\ (outs <- sees (ucalls (encoder1 (ex_layer 2 1) ex_final) SNone ex_peeks) ;; Ok (map (option_map fst) outs))
     = Ok [None; Some [2; 2; 2]; Some [2; 2; 2]; Some [2; 2; 2]; Some [2; 2; 2]; Some [2; 2]; Some [2; 2]].
Proof. split; [apply Forall_forall; intros c _; right; apply still_enc1|]. repeat apply conj; vm_compute; reflexivity. Qed.
Example C75_fresh_ex :
  sees1 (ucall (encoder1 (ex_layer 2 1) ex_final) SNone (CFrame None (ex_fr 0)) false) = Err UnboundLocalError
  /\ sees1 (call (encoder1 (ex_layer 2 1) ex_final) SNone (CFrame None (ex_fr 0))) = Ok None
  /\ sees1 (ucall (encoder2 (ex_layer 2 1) (ex_layer 2 2) ex_final) SNone (CFrame None (ex_fr 0)) false) = Err UnboundLocalError.
Proof. repeat apply conj; vm_compute; reflexivity. Qed.
Example C75_two_layers_ex :
  let m := encoder2 (ex_layer 2 1) (ex_layer 2 2) ex_final in
  let l := [(CFrame None (ex_fr 0), true); (CFrame None (ex_fr 5), false); (CFrame None (ex_fr 1), true)] in
  existsb moves [CFrame None (ex_fr 0)] = true
  /\ (outs <- sees (ucalls m SNone l) ;; Ok (map (option_map fst) outs)) = Ok [None; Some [2; 2]; Some [2; 2]]
  /\ (outs <- sees (ucalls m SNone l) ;; Ok (nth 2 outs None)) = (outs <- sees (calls m SNone [CFrame None (ex_fr 0); CFrame None (ex_fr 1)]) ;; Ok (nth 1 outs None)).
Proof. repeat apply conj; vm_compute; reflexivity. Qed.

(** Inside of [with co.call_mode("forward_steps")] a peek moves what a [Lambda] calls: after a
    peek the next clip gives another result. *)
Theorem C75_context_refuted :
  exists (m : tmod Qc) (x y : tens Qc) outs outs',
    sees (ucalls m SNone [(CClip (Some Steps) x, false); (CClip (Some Steps) y, true)]) = Ok outs
    /\ sees (calls m SNone [CClip (Some Steps) y]) = Ok outs'
    /\ nth 1 outs None <> nth 0 outs' None.
Proof.
  exists (MSeq [MLam false true (MDel false 1)]), (ex_cl 0 2), (ex_cl 2 2). eexists _, _. split; [vm_compute; reflexivity|]. split; [vm_compute; reflexivity|].
  cbn [nth]. intros H. discriminate H.
Qed.
Print Assumptions C75_context_refuted.

(** With [pad_end] a peek at a delay does not return what the call returns. *)
Theorem C75_peek_pad_end_refuted :
  exists (m : tmod Qc) (x y : tens Qc) s r r',
    exec None Step m SNone x false true = Ok (None, s)
    /\ sees1 (exec None Steps m s y true false) = Ok r /\ sees1 (exec None Steps m s y true true) = Ok r' /\ r <> r'.
Proof.
  exists (MDel false 2), (ex_fr 0), (ex_cl 1 2). eexists _, _, _. split; [reflexivity|].
  split; [vm_compute; reflexivity|]. split; [vm_compute; reflexivity|]. intros H. discriminate H.
Qed.
Print Assumptions C75_peek_pad_end_refuted.

(** With [pad_end], a single-output layer for another query than the last one adds the wrong
    residual: the same clip gives another token for the one window in it. *)
Theorem C75_pad_end_refuted :
  exists (p : layer Qc) (x : tens Qc) r r',
    layer_ok p /\ clip_holds 2 2 2 x ex_token
    /\ sees1 (exec None Steps (so_layer p 0 true) SNone x false true) = Ok (Some ([2; 2; 1], r))
    /\ sees1 (exec None Steps (so_layer p 0 true) SNone x true true) = Ok (Some ([2; 2; 1], r')) /\ r <> r'.
Proof.
  exists (ex_layer 2 1), (ex_cl 0 2). eexists _, _. split; [apply ex_layer_ok|]. split; [apply (ex_cl_holds 0 2)|].
  split; [vm_compute; reflexivity|]. split; [vm_compute; reflexivity|]. intros H. discriminate H.
Qed.
Print Assumptions C75_pad_end_refuted.
