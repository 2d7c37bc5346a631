(** Call modes (continual/module.py, container.py, convert.py): how calling a
    module picks forward, forward_steps or forward_step; the global call_mode
    context; and the temporary call modes set by containers.

    Simplifications. Tensors and states are left out: a run yields the list of
    leaf methods that were executed, and every leaf is taken to yield an output
    (a Sequential whose child yields none stops there, container.py:643-645,
    670-671). Modules are named by numbers and their call
    modes live in a store, so assignments are visible wherever the module is
    used. Tracing (torch.jit) is not modelled; hooks are assumed absent.
    nn.RNNBase children, for which containers call forward directly
    (container.py:58-61), are ordinary leaves here. *)
From Coq Require Import List ZArith Bool Arith Lia String Ascii.
From Verif Require Import Base.
Import ListNotations.
Open Scope list_scope.

Inductive meth := Forward | Steps | Step.

(** A 0-dimensional tensor: its identity and its value. Dictionary lookups of
    tensors go by identity, [==] goes by value. *)
Record tref := T { t_id : nat; t_val : Z }.

(** module.py:34-38 [CALL_MODES]. *)
Definition mode_of (me : meth) : tref :=
  match me with Forward => T 0 0 | Steps => T 1 1 | Step => T 2 2 end.
Definition name_of (me : meth) : string :=
  match me with
  | Forward => "forward" | Steps => "forward_steps" | Step => "forward_step"
  end%string.

(** What can be assigned to call_mode: a string, an int or a tensor. *)
Inductive cmval := CStr (s : string) | CInt (n : Z) | CTensor (t : tref).

(** [str.lower] on ASCII. *)
Definition lower_char (a : ascii) : ascii :=
  let n := nat_of_ascii a in
  if (65 <=? n) && (n <=? 90) then ascii_of_nat (n + 32) else a.
Fixpoint lower (s : string) : string :=
  match s with
  | EmptyString => EmptyString
  | String a s => String (lower_char a) (lower s)
  end.

(** module.py:41-54 [_callmode]; the int branch calls [torch.tensor(int)], on the
    type, which raises. *)
Definition callmode (v : cmval) : res tref :=
  match v with
  | CStr s =>
      let s := lower s in
      if String.eqb s "forward" then Ok (mode_of Forward)
      else if String.eqb s "forward_steps" then Ok (mode_of Steps)
      else if String.eqb s "forward_step" then Ok (mode_of Step)
      else Err KeyError
  | CInt _ => Err RuntimeError
  | CTensor t => Ok t
  end.

(** Modules: leaf CoModules; torch modules wrapped by forward_stepping
    (convert.py:38-114); containers with [__len__], where [str] tells that the
    container assigns strings to its children (BroadcastReduce,
    container.py:871-896) instead of tensors (Sequential and Parallel,
    container.py:326-347, 633-677); and Conditional (container.py:982-1070). *)
Inductive mtree :=
| CoLeaf (i : nat)
| FsLeaf (i : nat)
| Cont (str : bool) (i : nat) (l : list mtree)
| Cond (i : nat) (on_true : mtree) (on_false : option mtree).

Definition root (m : mtree) : nat :=
  match m with CoLeaf i | FsLeaf i | Cont _ i _ | Cond i _ _ => i end.

(** Stored call modes: a CoModule stores a tensor, a forward_stepping module
    whatever was assigned to its plain attribute. *)
Record store := St { co : nat -> tref; fs : nat -> cmval }.
Definition upd {A} (f : nat -> A) (i : nat) (v : A) : nat -> A :=
  fun j => if Nat.eqb i j then v else f j.

(** [m.call_mode]. *)
Definition own (m : mtree) (st : store) : cmval :=
  match m with FsLeaf i => fs st i | _ => CTensor (co st (root m)) end.

(** module.py:333-339, the setter, once the value is a tensor: the container's
    own mode and, if it has [__len__], those of its children. *)
Fixpoint set_tensor (m : mtree) (t : tref) (st : store) : store :=
  match m with
  | CoLeaf i | Cond i _ _ => St (upd (co st) i t) (fs st)
  | FsLeaf i => St (co st) (upd (fs st) i (CTensor t))
  | Cont _ i l =>
      fold_left (fun st ch => set_tensor ch t st) l (St (upd (co st) i t) (fs st))
  end.

(** [m.call_mode = v]; a forward_stepping module stores [v] as it is. *)
Definition set_mode (m : mtree) (v : cmval) (st : store) : res store :=
  match m with
  | FsLeaf i => Ok (St (co st) (upd (fs st) i v))
  | _ => t <- callmode v ;; Ok (set_tensor m t st)
  end.

(** module.py:347-353: the method that [__call__] runs. [scope] is the mode of
    the active context, if any. *)
Definition lookup (v : cmval) : res meth :=
  match v with
  | CTensor t =>
      match t_id t with 0 => Ok Forward | 1 => Ok Steps | 2 => Ok Step | _ => Err KeyError end
  | _ => Err KeyError
  end.
Definition current (scope : option tref) (v : cmval) : cmval :=
  match scope with Some t => CTensor t | None => v end.

(** convert.py:102-110 for forward_stepping modules: [==] compares by value, and
    is False for a string. *)
Definition dispatch (scope : option tref) (m : mtree) (st : store) : res meth :=
  let v := current scope (own m st) in
  match m, v with
  | FsLeaf _, CTensor t => if Z.eqb (t_val t) 0 then Ok Forward else lookup v
  | _, _ => lookup v
  end.

(** A trace lists leaf executions. *)
Definition trace := list (nat * meth).
Definition outcome : Type := trace * option exn * store.

Section Run.
(** [fails i me]: the exception that leaf [i] raises in method [me].
    [pick i]: the branch that Conditional [i] takes. *)
Variable fails : nat -> meth -> option exn.
Variable pick : nat -> bool.
Variable scope : option tref.

(** Calling a method by name. Containers set the call mode of each child
    (utils.py:40-58 temporary_parameter, without try/finally), call it, and
    restore the mode. Conditional calls the branch in forward, and the branch's
    method otherwise. *)
Fixpoint run (m : mtree) (me : meth) (st : store) {struct m} : outcome :=
  match m with
  | CoLeaf i | FsLeaf i => ([(i, me)], fails i me, st)
  | Cont str i l =>
      (fix loop (l : list mtree) (st : store) : outcome :=
         match l with
         | [] => ([], None, st)
         | ch :: l =>
             let prev := own ch st in
             match set_mode ch (if str then CStr (name_of me) else CTensor (mode_of me)) st with
             | Err e => ([], Some e, st)
             | Ok st1 =>
                 match dispatch scope ch st1 with
                 | Err e => ([], Some e, st1)
                 | Ok me' =>
                     match run ch me' st1 with
                     | (tr, Some e, st2) => (tr, Some e, st2)
                     | (tr, None, st2) =>
                         match set_mode ch prev st2 with
                         | Err e => (tr, Some e, st2)
                         | Ok st3 =>
                             let '(tr', e, st4) := loop l st3 in
                             (tr ++ tr', e, st4)
                         end
                     end
                 end
             end
         end) l st
  | Cond i b0 b1 =>
      if pick i then
        match me with
        | Forward =>
            match dispatch scope b0 st with
            | Err e => ([], Some e, st)
            | Ok me' => run b0 me' st
            end
        | _ => run b0 me st
        end
      else
        match b1 with
        | None => ([], None, st)
        | Some b1 =>
            match me with
            | Forward =>
                match dispatch scope b1 st with
                | Err e => ([], Some e, st)
                | Ok me' => run b1 me' st
                end
            | _ => run b1 me st
            end
        end
  end.

(** [m(...)]: module.py:341-366. *)
Definition call (m : mtree) (st : store) : outcome :=
  match dispatch scope m st with
  | Err e => ([], Some e, st)
  | Ok me => run m me st
  end.

(** [m.forward(...)], [m.forward_steps(...)], [m.forward_step(...)]. The forward
    of a forward_stepping module is replaced by forward_with_callmode
    (convert.py:102-112), which looks at the call mode. *)
Definition invoke (m : mtree) (me : meth) (st : store) : outcome :=
  match m, me with
  | FsLeaf _, Forward => call m st
  | _, _ => run m me st
  end.

End Run.

(** ** The call_mode context, module.py:57-92 *)

Record ctx := Ctx { cur : option tref; prev : option tref }.

(** module.py:76-78. *)
Definition ctx_init : ctx := Ctx (Some (mode_of Forward)) None.

(** module.py:80-83 [__call__]: [prev] is assigned before the value is checked. *)
Definition ctx_call (v : cmval) (c : ctx) : res ctx * ctx :=
  let c1 := Ctx (cur c) (cur c) in
  match callmode v with
  | Ok t => (Ok (Ctx (Some t) (cur c)), Ctx (Some t) (cur c))
  | Err e => (Err e, c1)
  end.

(** module.py:88-90 [__exit__]. *)
Definition ctx_exit (c : ctx) : ctx := Ctx (prev c) None.

(** module.py:347: the context counts only when [prev] is not None. *)
Definition effective (c : ctx) : option tref :=
  match prev c with Some _ => cur c | None => None end.

(** User programs. *)
Inductive stmt :=
| SCall (m : mtree)                       (* m(x) *)
| SRun (m : mtree) (me : meth)            (* m.forward_step(x), ... *)
| SAssign (m : mtree) (v : cmval)         (* m.call_mode = v *)
| SWith (v : cmval) (body : list stmt)    (* with co.call_mode(v): body *)
| SRaise (e : exn)
| STry (body : list stmt).                (* try: body / except: pass *)

Section Exec.
Variable fails : nat -> meth -> option exn.
Variable pick : nat -> bool.

Definition xstate : Type := trace * option exn * ctx * store.

Fixpoint exec (s : stmt) (c : ctx) (st : store) {struct s} : xstate :=
  let fix execs (l : list stmt) (c : ctx) (st : store) {struct l} : xstate :=
    match l with
    | [] => ([], None, c, st)
    | s :: l =>
        match exec s c st with
        | (tr, Some e, c, st) => (tr, Some e, c, st)
        | (tr, None, c, st) =>
            let '(tr', e, c, st) := execs l c st in (tr ++ tr', e, c, st)
        end
    end in
  match s with
  | SCall m => let '(tr, e, st) := call fails pick (effective c) m st in (tr, e, c, st)
  | SRun m me => let '(tr, e, st) := invoke fails pick (effective c) m me st in (tr, e, c, st)
  | SAssign m v =>
      match set_mode m v st with
      | Ok st => ([], None, c, st)
      | Err e => ([], Some e, c, st)
      end
  | SWith v body =>
      match ctx_call v c with
      | (Err e, c) => ([], Some e, c, st)
      | (Ok _, c) =>
          let '(tr, e, c, st) := execs body c st in (tr, e, ctx_exit c, st)
      end
  | SRaise e => ([], Some e, c, st)
  | STry body => let '(tr, _, c, st) := execs body c st in (tr, None, c, st)
  end.

Fixpoint execs (l : list stmt) (c : ctx) (st : store) {struct l} : xstate :=
  match l with
  | [] => ([], None, c, st)
  | s :: l =>
      match exec s c st with
      | (tr, Some e, c, st) => (tr, Some e, c, st)
      | (tr, None, c, st) =>
          let '(tr', e, c, st) := execs l c st in (tr ++ tr', e, c, st)
      end
  end.

End Exec.
