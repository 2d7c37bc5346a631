(** Call modes and temporary parameters: C32 and C33. *)
From Coq Require Import List ZArith Bool Arith Lia String.
From Verif Require Import Base TempParam TempProof CallMode CallSpec CallProof.
Import ListNotations.
Open Scope list_scope.

(** Modules of the examples: a Sequential of a convolution, a converted ReLU and
    a nested Sequential of a second convolution. *)
Definition ex_net : mtree :=
  Cont false 0 [CoLeaf 1; FsLeaf 1; Cont false 2 [CoLeaf 3]].
Definition ex_fails (i : nat) (me : meth) : option exn := None.
Definition ex_pick (i : nat) : bool := true.
Definition ex_store : store :=
  St (fun _ => mode_of Forward) (fun _ => CTensor (mode_of Forward)).

(** C32. Mode names are read case-insensitively, and nothing else is a mode. *)
Theorem C32_mode_names : forall s t,
  callmode (CStr s) = Ok t <-> exists me, lower s = name_of me /\ t = mode_of me.
Proof. exact callmode_iff. Qed.
Print Assumptions C32_mode_names.

Example C32_mode_names_ex : callmode (CStr "Forward_STEP") = Ok (mode_of Step)
  /\ callmode (CStr "step") = Err KeyError.
Proof. split; reflexivity. Qed.

(** C32. Assigning a mode to a module without Conditional sets it for every module
    below and for no other. *)
Theorem C32_assignment_reaches_all : forall m s me st,
  is_fs m = false -> no_cond m = true -> lower s = name_of me ->
  exists st1, set_mode m (CStr s) st = Ok st1
    /\ (forall k, In k (ids m) -> get st1 k = CTensor (mode_of me))
    /\ (forall k, ~ In k (ids m) -> get st1 k = get st k).
Proof. exact assign_reaches. Qed.
Print Assumptions C32_assignment_reaches_all.

Example C32_assignment_reaches_all_ex :
  is_fs ex_net = false /\ no_cond ex_net = true /\ lower "FORWARD_STEPS" = name_of Steps
  /\ ids ex_net = [(false, 0); (false, 1); (true, 1); (false, 2); (false, 3)].
Proof. repeat split; reflexivity. Qed.

(** C32. It stops at a Conditional, whose branches keep their modes. *)
Theorem C32_assignment_stops_at_conditional : forall i b0 b1 t st k,
  k <> (false, i) -> get (set_tensor (Cond i b0 b1) t st) k = get st k.
Proof. exact cond_keeps. Qed.
Print Assumptions C32_assignment_stops_at_conditional.

Example C32_assignment_stops_at_conditional_ex : (false, 2) <> (false, 1).
Proof. discriminate. Qed.

(** C32. Calling a method of a module runs that method at every leaf, whatever
    modes are stored. *)
Theorem C32_method_runs_everywhere : forall fails pick m me st,
  ok_for fails me m = true ->
  exists st', run fails pick None m me st = (map (ev me) (leaves pick m), None, st').
Proof. exact run_explicit. Qed.
Print Assumptions C32_method_runs_everywhere.

Example C32_method_runs_everywhere_ex : ok_for ex_fails Step ex_net = true
  /\ fst (fst (run ex_fails ex_pick None ex_net Step ex_store)) = [(1, Step); (1, Step); (3, Step)].
Proof. split; reflexivity. Qed.

(** C32. Assigning a mode and calling the module runs that method at every leaf,
    even below a Conditional in the two step modes. *)
Theorem C32_assigned_mode_runs : forall fails pick m s me st,
  is_fs m = false -> lower s = name_of me -> ok_for fails me m = true ->
  exists st1 st2, set_mode m (CStr s) st = Ok st1
    /\ call fails pick None m st1 = (map (ev me) (leaves pick m), None, st2).
Proof. exact assign_call. Qed.
Print Assumptions C32_assigned_mode_runs.

Example C32_assigned_mode_runs_ex :
  ok_for ex_fails Steps (Cont false 5 [CoLeaf 6; Cond 7 ex_net None]) = true.
Proof. reflexivity. Qed.

(** C32. A Conditional in forward calls its branch, which then runs in its own
    mode: forward of the whole can run forward_step of a part. *)
Theorem C32_conditional_forward_refuted : exists m st,
  no_cond m = false
  /\ fst (fst (run ex_fails ex_pick None m Forward st)) = [(1, Step)]
  /\ map (ev Forward) (leaves ex_pick m) = [(1, Forward)].
Proof. exact conditional_forward. Qed.
Print Assumptions C32_conditional_forward_refuted.

(** C32. In a call_mode context, a call runs the context's method at every leaf of
    any tree, for any stored modes. *)
Theorem C32_context_call : forall fails pick c m st, quiet fails pick c m ->
  exists st', call fails pick (Some (mode_of c)) m st
              = (map (ev c) (leaves pick m), None, st').
Proof. exact call_scope. Qed.
Print Assumptions C32_context_call.

Example C32_context_call_ex : quiet ex_fails ex_pick Step ex_net.
Proof. repeat constructor. Qed.

(** C32. The context even overrides the method named in the call: forward_steps of
    a container runs forward_step at its leaves. *)
Theorem C32_context_overrides_methods : forall fails pick c me str i l st,
  quiet fails pick c (Cont str i l) ->
  exists st', run fails pick (Some (mode_of c)) (Cont str i l) me st
              = (map (ev c) (leaves pick (Cont str i l)), None, st').
Proof. exact run_cont_scope. Qed.
Print Assumptions C32_context_overrides_methods.

Example C32_context_overrides_methods_ex :
  fst (fst (run ex_fails ex_pick (Some (mode_of Step)) ex_net Steps ex_store))
  = [(1, Step); (1, Step); (3, Step)].
Proof. reflexivity. Qed.

(** C32. Programs whose contexts are not nested behave as with lexical scoping and
    leave the context as it was, also when bodies raise. *)
Theorem C32_flat_programs : forall fails pick b st, forallb flat b = true ->
  execs fails pick b ctx_init st
  = let '(tr, e, st') := execs_lex fails pick None b st in (tr, e, ctx_init, st').
Proof. exact flat_from_init. Qed.
Print Assumptions C32_flat_programs.

Definition ex_flat : list stmt :=
  [SWith (CStr "forward_step") [SCall ex_net]; SCall ex_net;
   STry [SWith (CStr "forward_steps") [SCall ex_net; SRaise ValueError]]; SCall ex_net].

Example C32_flat_programs_ex : forallb flat ex_flat = true
  /\ fst (fst (execs_lex ex_fails ex_pick None ex_flat ex_store))
     = [(1, Step); (1, Step); (3, Step); (1, Forward); (1, Forward); (3, Forward);
        (1, Steps); (1, Steps); (3, Steps); (1, Forward); (1, Forward); (3, Forward)].
Proof. split; reflexivity. Qed.

(** C32. Nesting: the rest of the outer body runs without any context, and the
    context object ends with neither mode nor previous mode. *)
Theorem C32_nested_contexts : forall fails pick t v1 t1 b0 v2 t2 b1 b2 st,
  callmode v1 = Ok t1 -> callmode v2 = Ok t2 ->
  forallb no_with b0 = true -> forallb no_with b1 = true -> forallb no_with b2 = true ->
  exec fails pick (SWith v1 (b0 ++ SWith v2 b1 :: b2)) (Ctx (Some t) None) st
  = let '(tr0, e0, st0) := execs_lex fails pick (Some t1) b0 st in
    match e0 with
    | Some e => (tr0, Some e, Ctx (Some t) None, st0)
    | None =>
        let '(tr1, e1, st1) := execs_lex fails pick (Some t2) b1 st0 in
        match e1 with
        | Some e => (tr0 ++ tr1, Some e, Ctx None None, st1)
        | None =>
            let '(tr2, e2, st2) := execs_lex fails pick None b2 st1 in
            (tr0 ++ tr1 ++ tr2, e2, Ctx None None, st2)
        end
    end.
Proof. exact exec_nested. Qed.
Print Assumptions C32_nested_contexts.

Example C32_nested_contexts_ex :
  fst (fst (fst (exec ex_fails ex_pick
     (SWith (CStr "forward_step")
        [SCall (CoLeaf 1); SWith (CStr "forward_steps") [SCall (CoLeaf 1)]; SCall (CoLeaf 1)])
     ctx_init ex_store)))
  = [(1, Step); (1, Steps); (1, Forward)].
Proof. reflexivity. Qed.

(** C32. From then on contexts have no effect: every program runs as if its with
    statements were not there. *)
Theorem C32_after_nesting : forall fails pick b, forallb flat b = true -> forall st,
  execs fails pick b (Ctx None None) st
  = let '(tr, e, st') := execs_lex fails pick None (flat_map drop_with b) st in
    (tr, e, Ctx None None, st').
Proof. exact execs_dead. Qed.
Print Assumptions C32_after_nesting.

Example C32_after_nesting_ex :
  forallb flat [SWith (CStr "forward_step") [SCall (CoLeaf 1)]] = true
  /\ fst (fst (fst (execs ex_fails ex_pick [SWith (CStr "forward_step") [SCall (CoLeaf 1)]]
                      (Ctx None None) ex_store))) = [(1, Forward)].
Proof. split; reflexivity. Qed.

(** C32. A wrong mode name raises, and leaves the context active: from then on
    every call runs the context's old mode, whatever the modules' own modes. *)
Theorem C32_bad_mode_sticks : forall fails pick v e b b' st,
  callmode v = Err e -> forallb no_with b' = true ->
  execs fails pick (STry [SWith v b] :: b') ctx_init st
  = let '(tr, e', st') := execs_lex fails pick (Some (mode_of Forward)) b' st in
    (tr, e', Ctx (Some (mode_of Forward)) (Some (mode_of Forward)), st').
Proof. exact bad_mode_sticks. Qed.
Print Assumptions C32_bad_mode_sticks.

Example C32_bad_mode_sticks_ex : callmode (CStr "step") = Err KeyError
  /\ fst (fst (fst (execs ex_fails ex_pick
       [STry [SWith (CStr "step") []]; SAssign ex_net (CStr "forward_step"); SCall ex_net]
       ctx_init ex_store))) = [(1, Forward); (1, Forward); (3, Forward)].
Proof. split; reflexivity. Qed.

(** C32. A mode tensor that is not one of the three objects in CALL_MODES cannot be
    called, even with the right value: lookup goes by identity. A deep copy of a
    module whose mode was assigned holds such a tensor. *)
Theorem C32_foreign_tensor_raises : forall fails pick m t st,
  is_fs m = false -> 3 <= t_id t ->
  exists st1, set_mode m (CTensor t) st = Ok st1
    /\ call fails pick None m st1 = ([], Some KeyError, st1).
Proof. exact foreign_tensor. Qed.
Print Assumptions C32_foreign_tensor_raises.

Example C32_foreign_tensor_raises_ex : 3 <= t_id (T 3 2).
Proof. cbn. lia. Qed.

(** C32. A converted torch module (forward_stepping) whose mode tensor was copied
    still runs forward, but raises in the two step modes. *)
Theorem C32_copied_mode_of_stepping_module : forall fails pick i t st,
  fs st i = CTensor t -> 3 <= t_id t ->
  call fails pick None (FsLeaf i) st
  = if Z.eqb (t_val t) 0 then ([(i, Forward)], fails i Forward, st) else ([], Some KeyError, st).
Proof. exact fs_copied. Qed.
Print Assumptions C32_copied_mode_of_stepping_module.

Example C32_copied_mode_of_stepping_module_ex :
  let st v := St (fun _ => mode_of Forward) (fun _ => CTensor (T 3 v)) in
  call ex_fails ex_pick None (FsLeaf 1) (st 0%Z) = ([(1, Forward)], None, st 0%Z)
  /\ call ex_fails ex_pick None (FsLeaf 1) (st 2%Z) = ([], Some KeyError, st 2%Z).
Proof. split; reflexivity. Qed.

(** C32. Calling forward of such a module by name runs the method of its call mode,
    or of the context. *)
Theorem C32_forward_of_stepping_module : forall fails pick i me st,
  (fs st i = CTensor (mode_of me) ->
   invoke fails pick None (FsLeaf i) Forward st = ([(i, me)], fails i me, st))
  /\ invoke fails pick (Some (mode_of me)) (FsLeaf i) Forward st = ([(i, me)], fails i me, st).
Proof. exact (fun fails pick i me st => conj (fs_forward fails pick i me st) (fs_forward_scope fails pick i me st)). Qed.
Print Assumptions C32_forward_of_stepping_module.

Example C32_forward_of_stepping_module_ex :
  fs (St (fun _ => mode_of Forward) (fun _ => CTensor (mode_of Step))) 4 = CTensor (mode_of Step)
  /\ invoke ex_fails ex_pick None (CoLeaf 4) Forward (St (fun _ => mode_of Step) (fun _ => CTensor (mode_of Step)))
     = ([(4, Forward)], None, St (fun _ => mode_of Step) (fun _ => CTensor (mode_of Step))).
Proof. split; reflexivity. Qed.

(** C32. Integer modes always raise. *)
Theorem C32_int_raises : forall m n st, is_fs m = false -> set_mode m (CInt n) st = Err RuntimeError.
Proof. exact int_raises. Qed.
Print Assumptions C32_int_raises.

Example C32_int_raises_ex : is_fs ex_net = false.
Proof. reflexivity. Qed.

(** C32. A BroadcastReduce with a forward_stepping child raises in each mode, and
    the child is left with a string as its mode. *)
Theorem C32_broadcast_reduce_stepping_raises : forall fails pick i j l me st,
  exists st', run fails pick None (Cont true i (FsLeaf j :: l)) me st = ([], Some KeyError, st')
    /\ get st' (true, j) = CStr (name_of me).
Proof. exact string_mode_raises. Qed.
Print Assumptions C32_broadcast_reduce_stepping_raises.

Example C32_broadcast_reduce_stepping_raises_ex :
  fst (run ex_fails ex_pick None (Cont true 0 [FsLeaf 1; CoLeaf 2]) Step ex_store)
  = ([], Some KeyError).
Proof. reflexivity. Qed.

(** C33. If the body leaves the object alone on normal exit, so does
    temporary_parameter: any nesting and any sequence of them restores all. *)
Theorem C33_restores_object : forall a path v b, neutral b -> neutral (temporary_parameter a path v b).
Proof. exact temporary_neutral. Qed.
Print Assumptions C33_restores_object.

Theorem C33_restores_sequences : forall b1 b2, neutral b1 -> neutral b2 -> neutral (seq_body b1 b2).
Proof. exact seq_neutral. Qed.
Print Assumptions C33_restores_sequences.

Definition ex_obj : pyval :=
  PObj [("mode"%string, PNum 1%Z); ("child"%string, PObj [("mode"%string, PNum 2%Z)])].

Example C33_restores_object_ex :
  neutral (fun o => (o, None))
  /\ temporary_parameter "child" ["mode"%string] (PNum 7)
       (temporary_parameter "fresh" [] (PNum 8) (fun o => (o, None))) ex_obj = (ex_obj, None).
Proof. split; [intros o o' [= ->]; reflexivity|reflexivity]. Qed.

Example C33_restores_sequences_ex : neutral (seq_body (fun o => (o, None)) (fun o => (o, None))).
Proof. intros o o' [= ->]. reflexivity. Qed.

(** C33. Whatever the body does, on normal exit the attribute reads as before: the
    old value, or absent if it was absent. *)
Theorem C33_restores_attribute : forall a path v b o o',
  temporary_parameter a path v b o = (o', None) -> rgetattr o' a path = rgetattr o a path.
Proof. exact temporary_attr. Qed.
Print Assumptions C33_restores_attribute.

Example C33_restores_attribute_ex :
  temporary_parameter "mode" [] (PNum 7) (fun _ => (PObj [], None)) ex_obj
  = (PObj [("mode"%string, PNum 1%Z)], None).
Proof. reflexivity. Qed.

(** C33. During the body the attribute has the temporary value, and if the body
    raises, nothing is restored. *)
Theorem C33_exception_not_restored : forall a path v b o,
  (exists w, rgetattr o a path = Ok w) \/ (path = [] /\ exists l, o = PObj l) ->
  exists o1, rsetattr o a path v = Ok o1 /\ rgetattr o1 a path = Ok v
    /\ (forall o2 e, b o1 = (o2, Some e) -> temporary_parameter a path v b o = (o2, Some e)).
Proof. exact temporary_inside. Qed.
Print Assumptions C33_exception_not_restored.

Example C33_exception_not_restored_ex :
  (exists w, rgetattr ex_obj "child" ["mode"%string] = Ok w)
  /\ temporary_parameter "mode" [] (PNum 7) (fun o => (o, Some ValueError)) ex_obj
     = (PObj [("mode"%string, PNum 7%Z); ("child"%string, PObj [("mode"%string, PNum 2%Z)])],
        Some ValueError).
Proof. split; [eexists; reflexivity|reflexivity]. Qed.

(** C33. After a successful call of a container, its own mode and those of its
    direct children are as before. All modules below a child end in the child's
    mode, also those that had another one. *)
Theorem C33_container_restores : forall fails pick scope str i l me st tr st',
  NoDup (ids (Cont str i l)) ->
  run fails pick scope (Cont str i l) me st = (tr, None, st') ->
  get st' (false, i) = get st (false, i)
  /\ (forall ch, In ch l -> own ch st' = own ch st)
  /\ (forall ch k, In ch l -> no_cond ch = true -> In k (ids ch) -> get st' k = own ch st)
  /\ (forall k, ~ In k (ids (Cont str i l)) -> get st' k = get st k).
Proof. exact run_restores. Qed.
Print Assumptions C33_container_restores.

(** C33. So a call changes no mode if below each child all modes agree. *)
Theorem C33_container_neutral : forall fails pick scope str i l me st tr st',
  NoDup (ids (Cont str i l)) -> no_cond (Cont str i l) = true ->
  (forall ch k, In ch l -> In k (ids ch) -> get st k = own ch st) ->
  run fails pick scope (Cont str i l) me st = (tr, None, st') ->
  forall k, get st' k = get st k.
Proof. exact run_uniform. Qed.
Print Assumptions C33_container_neutral.

Lemma ex_nodup : NoDup (ids ex_net).
Proof. repeat constructor; cbn; intuition congruence. Qed.

Example C33_container_restores_ex :
  NoDup (ids ex_net) /\ snd (fst (run ex_fails ex_pick None ex_net Step ex_store)) = None.
Proof. split; [exact ex_nodup|reflexivity]. Qed.

Example C33_container_neutral_ex :
  no_cond ex_net = true
  /\ (forall ch k, In ch [CoLeaf 1; FsLeaf 1; Cont false 2 [CoLeaf 3]] -> In k (ids ch) ->
        get ex_store k = own ch ex_store).
Proof.
  split; [reflexivity|]. intros ch [b n] Hc _.
  destruct Hc as [<-|[<-|[<-|[]]]]; destruct b; reflexivity.
Qed.

(** C33. In general a call changes the modes of grandchildren. *)
Theorem C33_grandchildren_refuted : exists m st k,
  NoDup (ids m) /\ no_cond m = true /\ In k (ids m)
  /\ snd (fst (run ex_fails ex_pick None m Forward st)) = None
  /\ get (snd (run ex_fails ex_pick None m Forward st)) k <> get st k.
Proof. exact grandchild_clobbered. Qed.
Print Assumptions C33_grandchildren_refuted.

(** C33. If a child raises, it stays in the temporary mode. *)
Theorem C33_failing_child : forall fails pick str i j l me e st,
  fails j me = Some e ->
  exists st', run fails pick None (Cont str i (CoLeaf j :: l)) me st = ([(j, me)], Some e, st')
    /\ get st' (false, j) = CTensor (mode_of me).
Proof. exact failing_child. Qed.
Print Assumptions C33_failing_child.

Example C33_failing_child_ex :
  (fun i (me : meth) => if Nat.eqb i 1 then Some ValueError else None) 1 Step = Some ValueError.
Proof. reflexivity. Qed.
