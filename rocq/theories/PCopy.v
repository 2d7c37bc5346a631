(** C77: deep copies of networks. *)
From Coq Require Import List ZArith Bool Arith Lia.
From Verif Require Import Base CallMode Frames Net Calls Leaf Heap HeapSpec Copy CopySpec CopyProof ZFrames.
Import ListNotations.

(** ** Buffers *)

(** A copy holds the same contents in tensors of its own. *)
Theorem C77_own_tensors :
  forall (F : Type) (h : heap F) (m m' : hmd F) h',
    separate h m -> deepcopy m h = (m', h') ->
    separate h' m /\ view h' m = view h m /\ separate h' m' /\ view h' m' = view h m /\ conv_flags m' = conv_flags m /\
    (forall r, In r (own m') -> ~ In r (own m)) /\ preserved h h'.
Proof. intros. apply deepcopy_ok; assumption. Qed.
Print Assumptions C77_own_tensors.

(** Whatever is done with the two of them in turn, each goes on as the network would have
    done alone, down to the exceptions. *)
Theorem C77_fork :
  forall (F : Type) (FA : Frames F) (h : heap F) (m m' : hmd F) h' cs,
    separate h m -> deepcopy m h = (m', h') ->
    (forall ys a b h2, both m m' cs h' = Ok (ys, a, b, h2) ->
       exists a1 h1 b1 h1', hrun m (only false cs) h = Ok (only false ys, a1, h1) /\ view h2 a = view h1 a1 /\
                            hrun m (only true cs) h = Ok (only true ys, b1, h1') /\ view h2 b = view h1' b1) /\
    (forall e, both m m' cs h' = Err e -> hrun m (only false cs) h = Err e \/ hrun m (only true cs) h = Err e).
Proof. intros. apply fork; assumption. Qed.
Print Assumptions C77_fork.

Theorem C77_fork_runs :
  forall (F : Type) (FA : Frames F) (h : heap F) (m m' : hmd F) h' cs r1 r2,
    separate h m -> deepcopy m h = (m', h') ->
    hrun m (only false cs) h = Ok r1 -> hrun m (only true cs) h = Ok r2 -> exists r, both m m' cs h' = Ok r.
Proof. intros. eapply fork_runs; eassumption. Qed.
Print Assumptions C77_fork_runs.

(** A delay of 2 holding 3 and 4, and a convolution that has seen one frame: the original gets
    the frames 5, 6 and the copy 7, 8, in turn. *)
Definition ex_h : heap Z := [TFrames [3; 4]; TRows [[10]]]%Z.
Definition ex_m : hmd Z := HSeq [HDelay 2 Zeros ShNo (HObj 0 0 0); HConv (zconv [1; 10]%Z 1 0 None Zeros Zeros) false (HObj 1 0 0)].
Definition ex_step (x : Z) : hcall Z := HCall (CStep (VT x) true).
Example C77_fork_ex :
  separate ex_h ex_m /\ own (fst (deepcopy ex_m ex_h)) = [2; 3] /\
  match both ex_m (fst (deepcopy ex_m ex_h)) [(false, ex_step 5); (true, ex_step 7); (true, ex_step 8); (false, ex_step 6); (true, ex_step 9); (false, ex_step 0)]%Z
             (snd (deepcopy ex_m ex_h)) with
  | Ok (ys, _, _, _) => ys = [(false, VT 40); (true, VT 40); (true, VT 43); (false, VT 43); (true, VT 74); (false, VT 54)]%Z
  | Err _ => False
  end.
Proof.
  split; [|split; reflexivity]. split.
  - cbn. repeat constructor; cbn; intuition lia.
  - cbn. intros r k [E|[E|[]]]; injection E as <- <-; eexists; split; reflexivity.
Qed.

(** ** Modules, parameters and call modes *)

(** A copy of a network of continual modules, whose call mode was never set: any history of
    calls in all ways, of call modes and of changes of parameters on both gives what it gives
    on the network alone. *)
Theorem C77_independent :
  forall (X W : Type) (co_fn : meth -> W -> X -> res X) nn_fn unsq sq t (m : mem W) t' m' l,
    present t m -> continual_only t m -> mode (ob m (name t)) = None ->
    copy_net t m = (t', m') -> Forall (fun wo => trains_below (size m) (snd wo)) l ->
    only false (fst (do_both co_fn nn_fn unsq sq (size m) t t' l m')) = fst (do_ops co_fn nn_fn unsq sq 0 t (only false l) m) /\
    only true (fst (do_both co_fn nn_fn unsq sq (size m) t t' l m')) = fst (do_ops co_fn nn_fn unsq sq 0 t (only true l) m).
Proof. intros. apply copy_independent; assumption. Qed.
Print Assumptions C77_independent.

(** If it was set, the methods of the copy and calls in a context still do the same ... *)
Theorem C77_by_name :
  forall (X W : Type) (co_fn : meth -> W -> X -> res X) nn_fn unsq sq t (m : mem W) t' m' s me x,
    present t m -> continual_only t m -> copy_net t m = (t', m') ->
    fst (do_op co_fn nn_fn unsq sq (size m) t' (ORun s me x) m') = fst (do_op co_fn nn_fn unsq sq 0 t (ORun s me x) m) /\
    fst (do_op co_fn nn_fn unsq sq (size m) t' (OCall (Some me) x) m') = fst (do_op co_fn nn_fn unsq sq 0 t (OCall (Some me) x) m).
Proof. intros. apply copy_by_name; assumption. Qed.
Print Assumptions C77_by_name.

(** ... but calling the copy itself raises. *)
Theorem C77_call_raises :
  forall (X W : Type) (co_fn : meth -> W -> X -> res X) nn_fn unsq sq t (m : mem W) t' m' x v,
    present t m -> continual_only t m -> modes_exist m -> copy_net t m = (t', m') ->
    mode (ob m (name t)) = Some v ->
    fst (do_op co_fn nn_fn unsq sq (size m) t' (OCall None x) m') = Err KeyError.
Proof. intros. eapply copy_call; eassumption. Qed.
Print Assumptions C77_call_raises.

(** ** Torch modules converted in place *)

(** The network itself, for comparison: every module computes with its own parameters. *)
Theorem C77_original :
  forall (X W : Type) (co_fn : meth -> W -> X -> res X) nn_fn unsq sq s me i l x (m : mem W),
    with_converted (Seq i l) m -> s = None \/ s = Some me ->
    fst (run_net co_fn nn_fn unsq sq (option_map mode_of s) me (Seq i l) x m) =
    computes co_fn nn_fn unsq sq me (is_converted m) (fun j => par (ob m j)) (Seq i l) x.
Proof. intros. apply original_computes; assumption. Qed.
Print Assumptions C77_original.

(** At any time after the copy was made, the functions stored in the torch modules are still
    those of the original. *)
Theorem C77_functions_stay :
  forall (X W : Type) (co_fn : meth -> W -> X -> res X) nn_fn unsq sq t (m : mem W) t' m' l,
    copy_net t m = (t', m') -> later m (snd (do_both co_fn nn_fn unsq sq (size m) t t' l m')).
Proof. intros. apply later_after. assumption. Qed.
Print Assumptions C77_functions_stay.

(** Then forward of the copy takes the parameters of its torch modules from the original, *)
Theorem C77_copy_forward :
  forall (X W : Type) (co_fn : meth -> W -> X -> res X) nn_fn unsq sq i l (m M : mem W) x,
    present (Seq i l) m -> with_converted (Seq i l) m -> later m M ->
    (forall j, In j (leaves (Seq i l)) -> is_converted m j = true -> t_val (own_mode M j) = 0%Z) ->
    fst (run_net co_fn nn_fn unsq sq None Forward (rename (size m) (Seq i l)) x M) =
    computes co_fn nn_fn unsq sq Forward (is_converted m)
      (fun j => par (ob M (if is_converted m j then j else size m + j))) (Seq i l) x.
Proof. intros. apply copy_forward; assumption. Qed.
Print Assumptions C77_copy_forward.

(** as does every mode in a context, *)
Theorem C77_copy_in_context :
  forall (X W : Type) (co_fn : meth -> W -> X -> res X) nn_fn unsq sq me i l (m M : mem W) x,
    present (Seq i l) m -> with_converted (Seq i l) m -> later m M ->
    fst (run_net co_fn nn_fn unsq sq (Some (mode_of me)) me (rename (size m) (Seq i l)) x M) =
    computes co_fn nn_fn unsq sq me (is_converted m)
      (fun j => par (ob M (if is_converted m j then j else size m + j))) (Seq i l) x.
Proof. intros. apply copy_in_context; assumption. Qed.
Print Assumptions C77_copy_in_context.

(** so that training the torch modules of the copy has no effect on it. *)
Theorem C77_training_has_no_effect :
  forall (X W : Type) (co_fn : meth -> W -> X -> res X) nn_fn unsq sq me i l (m M : mem W) x j w,
    present (Seq i l) m -> with_converted (Seq i l) m -> later m M ->
    (forall j, In j (leaves (Seq i l)) -> is_converted m j = true -> t_val (own_mode M j) = 0%Z) ->
    j < size m -> is_converted m j = true ->
    fst (run_net co_fn nn_fn unsq sq None Forward (rename (size m) (Seq i l)) x (set_par M (size m + j) w)) =
      fst (run_net co_fn nn_fn unsq sq None Forward (rename (size m) (Seq i l)) x M) /\
    fst (run_net co_fn nn_fn unsq sq (Some (mode_of me)) me (rename (size m) (Seq i l)) x (set_par M (size m + j) w)) =
      fst (run_net co_fn nn_fn unsq sq (Some (mode_of me)) me (rename (size m) (Seq i l)) x M).
Proof. intros. apply copy_keeps_torch; assumption. Qed.
Print Assumptions C77_training_has_no_effect.

(** Outside of a context forward_step and forward_steps run up to the first torch module and
    raise there: *)
Theorem C77_copy_steps :
  forall (X W : Type) (co_fn : meth -> W -> X -> res X) nn_fn unsq sq me i l (m M : mem W) x,
    me <> Forward -> present (Seq i l) m -> with_converted (Seq i l) m -> later m M ->
    (forall j, In j (leaves (Seq i l)) -> is_converted m j = true -> t_val (own_mode M j) = 0%Z) ->
    fst (run_net co_fn nn_fn unsq sq None me (rename (size m) (Seq i l)) x M) =
    breaks co_fn me (is_converted m) (fun j => par (ob M (size m + j))) (Seq i l) x.
Proof. intros. apply copy_steps; assumption. Qed.
Print Assumptions C77_copy_steps.

Theorem C77_copy_never_steps :
  forall (X W : Type) (co_fn : meth -> W -> X -> res X) nn_fn unsq sq me i l (m M : mem W) x j,
    me <> Forward -> present (Seq i l) m -> with_converted (Seq i l) m -> later m M ->
    (forall j, In j (leaves (Seq i l)) -> is_converted m j = true -> t_val (own_mode M j) = 0%Z) ->
    In j (leaves (Seq i l)) -> is_converted m j = true ->
    exists e, fst (run_net co_fn nn_fn unsq sq None me (rename (size m) (Seq i l)) x M) = Err e.
Proof. intros. eapply copy_never_steps; eassumption. Qed.
Print Assumptions C77_copy_never_steps.

(** Values are a number of dimensions and an entry. A continual module multiplies; a
    BatchNorm2d adds, and wants 4 dimensions. *)
Definition ex_co (me : meth) (w : Z) (x : nat * Z) : res (nat * Z) :=
  let dims := match me with Step => 3 | _ => 4 end in
  if Nat.eqb (fst x) dims then Ok (fst x, (w * snd x)%Z) else Err RuntimeError.
Definition ex_nn (w : Z) (x : nat * Z) : res (nat * Z) := if Nat.eqb (fst x) 4 then Ok (4, (w + snd x)%Z) else Err ValueError.
Definition ex_unsq (x : nat * Z) := (fst x + 1, snd x).
Definition ex_sq (x : nat * Z) := (fst x - 1, snd x).
Notation ops := (do_ops ex_co ex_nn ex_unsq ex_sq 0).
Notation twins := (do_both ex_co ex_nn ex_unsq ex_sq).

(** Module 0 is [co.Sequential(conv, co.Sequential(conv2))], 4 is [co.Sequential(conv, norm)]. *)
Definition ex_mem : mem Z := Mem 6 3 (fun i => nth i [constructed 0%Z; constructed 2%Z; constructed 0%Z; constructed 3%Z; constructed 0%Z; converted 5%Z 5] (constructed 0%Z)).
Definition ex_net1 : net := Seq 0 [Leaf 1; Seq 2 [Leaf 3]].
Definition ex_net2 : net := Seq 4 [Leaf 1; Leaf 5].

Example C77_independent_ex :
  present ex_net1 ex_mem /\ continual_only ex_net1 ex_mem /\
  let '(t', m') := copy_net ex_net1 ex_mem in
  fst (twins 6 ex_net1 t' [(false, ORun None Step (3, 1%Z)); (true, OTrain 3 100%Z); (true, OMode Step); (true, OCall None (3, 1%Z)); (false, OCall None (4, 1%Z));
                     (false, OTrain 1 7%Z); (true, ORun None Steps (4, 1%Z)); (false, ORun (Some Forward) Forward (4, 1%Z))] m')
  = [(false, Ok (Some (3, 6%Z))); (true, Ok None); (true, Ok None); (true, Ok (Some (3, 200%Z))); (false, Ok (Some (4, 6%Z)));
     (false, Ok None); (true, Ok (Some (4, 200%Z))); (false, Ok (Some (4, 21%Z)))].
Proof.
  split; [split; [intros i I; cbn in I; cbn; intuition lia|cbn; intuition lia]|]. split; [|reflexivity].
  intros i I; cbn in I; intuition subst; reflexivity.
Qed.

(** [net.call_mode = "forward_step"; copy.deepcopy(net)(x)]. *)
Theorem C77_call_refuted :
  exists t (m : mem Z) x y, present t m /\ continual_only t m /\ modes_exist m /\
    let '(_, m1) := do_op ex_co ex_nn ex_unsq ex_sq 0 t (OMode Step) m in
    let '(t', m') := copy_net t m1 in
    fst (do_op ex_co ex_nn ex_unsq ex_sq 0 t (OCall None x) m') = Ok (Some y) /\
    fst (do_op ex_co ex_nn ex_unsq ex_sq (size m) t' (OCall None x) m') = Err KeyError /\
    fst (do_op ex_co ex_nn ex_unsq ex_sq (size m) t' (ORun None Step x) m') = Ok (Some y).
Proof.
  exists ex_net1, ex_mem, (3, 1%Z), (3, 6%Z).
  split; [split; [intros i I; cbn in I; cbn; intuition lia|cbn; intuition lia]|].
  split; [intros i I; cbn in I; intuition subst; reflexivity|]. split; [unfold modes_exist; cbn; lia|].
  cbn. repeat apply conj; reflexivity.
Qed.
Print Assumptions C77_call_refuted.

(** A copy of a network with a converted torch module is not independent: training the original
    changes it, training the copy does not, and it cannot step. *)
Theorem C77_converted_refuted :
  exists t (m : mem Z), present t m /\ with_converted t m /\
    let '(t', m') := copy_net t m in
    let result l := only true (fst (twins (size m) t t' l m')) in
    let x := (4, 1%Z) in
    result [(true, ORun None Forward x)] = [Ok (Some (4, 7%Z))] /\
    result [(false, OTrain 5 100%Z); (true, ORun None Forward x)] = [Ok (Some (4, 102%Z))] /\
    result [(true, OTrain 5 100%Z); (true, ORun None Forward x)] = [Ok None; Ok (Some (4, 7%Z))] /\
    fst (ops t [ORun None Step (3, 1%Z)] m) = [Ok (Some (3, 7%Z))] /\
    result [(true, ORun None Step (3, 1%Z))] = [Err TypeError] /\
    result [(true, ORun (Some Step) Step (3, 1%Z))] = [Ok (Some (3, 7%Z))].
Proof.
  exists ex_net2, ex_mem. split; [split; [intros i I; cbn in I; cbn; intuition lia|cbn; intuition lia]|].
  split; [intros i I; cbn in I; intuition subst; cbn; auto|]. cbn. repeat apply conj; reflexivity.
Qed.
Print Assumptions C77_converted_refuted.

Example C77_copy_forward_ex :
  let '(t', M) := copy_net ex_net2 ex_mem in
  present ex_net2 ex_mem /\ later ex_mem M /\ (forall j, In j (leaves ex_net2) -> is_converted ex_mem j = true -> t_val (own_mode M j) = 0%Z) /\
  leaves ex_net2 = [1; 5] /\ is_converted ex_mem 5 = true.
Proof.
  cbn. split; [split; [intros i I; cbn in I; cbn; intuition lia|cbn; intuition lia]|]. split.
  - intros i I. cbn in I. do 6 (destruct i as [|i]; [split; reflexivity|]). lia.
  - split; [|split; reflexivity]. intros j [<-|[<-|[]]]; reflexivity.
Qed.
