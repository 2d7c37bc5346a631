(** [copy.deepcopy(net)]: how a copied network behaves.

    Python's deepcopy rebuilds an object and everything reachable from its attributes.
    Every object is copied once, however often it is met (the memo), so sharing inside of
    the network is kept.  Tensors are copied; functions are not: they are returned as they
    are, together with the variables they close over.  Class attributes belong to the
    class and are not touched.

    The first part copies buffers ([Heap.v]).  The second part copies modules with their
    parameters, their call modes and the functions that [forward_stepping] stores in torch
    modules (convert.py:86-112), which close over the module they were made for.

    Simplifications: all tensors and modules of the memory are copied; those that the
    network does not reach are referred to by nobody.  Calls are made under
    [torch.no_grad()]; torch refuses to copy tensors that depend on parameters with a
    gradient.  In the second part modules keep no buffers, containers are Sequentials,
    every child yields an output, and call modes are assigned as tensors, which is what
    containers do; [CallMode.v] has the other values.  Hooks and tracing are not modelled. *)
From Coq Require Import List ZArith Bool Arith.
From Verif Require Import Base Frames Net Heap CallMode.
Import ListNotations.

(** ** Buffers *)
Section Buffers.
Context {F : Type}.

(** The copy of reference [r] when [n] tensors are copied behind the others. *)
Definition move (n : nat) (o : hobj) : hobj := HObj (n + h_ref o) (h_idx o) (h_str o).
Fixpoint moved_net (n : nat) (m : hmd F) : hmd F :=
  match m with
  | HDelay d f sh o => HDelay d f sh (move n o)
  | HConv c tr o => HConv c tr (move n o)
  | HPool c o => HPool c (move n o)
  | HSeq ms => HSeq (map (moved_net n) ms)
  | HPar ms => HPar (map (moved_net n) ms)
  | HBR ms r => HBR (map (moved_net n) ms) r
  | HCond p D R a b => HCond p D R (moved_net n a) (option_map (moved_net n) b)
  | HSkip _ _ | HMap _ | HRnn _ _ | HBroadcast _ | HDispatch _ | HReduce _ => m
  end.
(** [copy.deepcopy(m)]. *)
Definition deepcopy (m : hmd F) (h : heap F) : hmd F * heap F := (moved_net (length h) m, h ++ h).

(** A program that calls two networks in turn; [true] stands for the second. *)
Context {FA : Frames F}.
Fixpoint both (a b : hmd F) (cs : list (bool * hcall F)) (h : heap F)
  : res (list (bool * val F) * hmd F * hmd F * heap F) :=
  match cs with
  | [] => Ok ([], a, b, h)
  | (w, c) :: cs =>
      '(y, m, h) <- hdo (if w then b else a) c h ;;
      '(ys, a, b, h) <- both (if w then a else m) (if w then m else b) cs h ;;
      Ok (match c with HCall _ => (w, y) :: ys | HTrain _ => ys end, a, b, h)
  end.
End Buffers.

(** ** Modules *)
Section Modules.
(** [X]: values passed between modules. [W]: parameters of a module. *)
Context {X W : Type}.

(** A module object: its parameters; the call mode stored in the object, if any (else that
    of the class, module.py:116); and for a torch module changed by [forward_stepping] the
    module that its stored functions close over. *)
Record mobj := Mo { par : W; mode : option tref; fns : option nat }.
(** Memory: [size] modules; the tensors that hold call modes are numbered below [top]. *)
Record mem := Mem { size : nat; top : nat; ob : nat -> mobj }.
Inductive net := Leaf (i : nat) | Seq (i : nat) (l : list net).
Definition name (t : net) : nat := match t with Leaf i | Seq i _ => i end.

(** convert.py:38-114 for a torch module: functions over the module itself, and the call mode
    stored in the object. *)
Definition converted (w : W) (i : nat) : mobj := Mo w (Some (mode_of Forward)) (Some i).
(** A new continual module. *)
Definition constructed (w : W) : mobj := Mo w None None.

(** deepcopy of one attribute and of one object, and of a network.  A tensor becomes a new
    one with the same value; the stored functions stay. *)
Definition copy_tensor (n : nat) (t : tref) : tref := T (n + t_id t) (t_val t).
Definition copy_object (n : nat) (o : mobj) : mobj := Mo (par o) (option_map (copy_tensor n) (mode o)) (fns o).
Fixpoint rename (n : nat) (t : net) : net :=
  match t with Leaf i => Leaf (n + i) | Seq i l => Seq (n + i) (map (rename n) l) end.
Definition copy_net (t : net) (m : mem) : net * mem :=
  (rename (size m) t,
   Mem (size m + size m) (top m + top m)
       (fun i => if Nat.ltb i (size m) then ob m i else copy_object (top m) (ob m (i - size m)))).

Definition put (m : mem) (i : nat) (o : mobj) : mem := Mem (size m) (top m) (CallMode.upd (ob m) i o).
Definition set_par (m : mem) (i : nat) (w : W) : mem := put m i (Mo w (mode (ob m i)) (fns (ob m i))).
Definition set_own (m : mem) (i : nat) (t : tref) : mem := put m i (Mo (par (ob m i)) (Some t) (fns (ob m i))).
(** [module.call_mode]. *)
Definition own_mode (m : mem) (i : nat) : tref :=
  match mode (ob m i) with Some t => t | None => mode_of Forward end.
(** [module.call_mode = t]: module.py:333-339; a plain attribute of a converted module. *)
Fixpoint assign (t : net) (v : tref) (m : mem) : mem :=
  match t with
  | Leaf i => set_own m i v
  | Seq i l => fold_left (fun m c => assign c v m) l (set_own m i v)
  end.
(** The mode that counts, module.py:347 and convert.py:103-107. *)
Definition current_mode (scope : option tref) (own : tref) : tref := match scope with Some t => t | None => own end.

(** Keyword arguments of a call: none, update_state, or pad_end and update_state; and the
    methods that take them. *)
Inductive kwargs := KwNone | KwStep | KwSteps.
Definition takes (me : meth) (kw : kwargs) : bool :=
  match me, kw with _, KwNone | Step, KwStep | Steps, _ => true | _, _ => false end.
Definition kw_of (me : meth) : kwargs := match me with Forward => KwNone | Step => KwStep | Steps => KwSteps end.

(** The methods of continual modules, and the forward of the torch modules. *)
Variable co_fn : meth -> W -> X -> res X.
Variable nn_fn : W -> X -> res X.
Variables unsq sq : X -> X.

(** The functions stored by [forward_stepping], closed over module [j]: convert.py:54-74. *)
Definition stored (me : meth) (m : mem) (j : nat) (x : X) : res X :=
  match me with
  | Step => y <- nn_fn (par (ob m j)) (unsq x) ;; Ok (sq y)
  | _ => nn_fn (par (ob m j)) x
  end.
(** convert.py:102-112 [forward_with_callmode]; [==] compares values, and
    [orig_forward( *args, *kwargs)] passes the names of the keyword arguments on as further
    arguments, which torch's forward does not take. *)
Definition with_mode (scope : option tref) (m : mem) (j : nat) (kw : kwargs) (x : X) : res X :=
  let v := current_mode scope (own_mode m j) in
  if Z.eqb (t_val v) 0 then match kw with KwNone => nn_fn (par (ob m j)) x | _ => Err TypeError end
  else me <- lookup (CTensor v) ;;
       if takes me kw then stored me m (match fns (ob m j) with Some k => k | None => j end) x else Err TypeError.

Section Run.
Variable scope : option tref.

(** [module(x, **kw)]: module.py:341-366 for continual modules, torch's __call__ and
    [forward_with_callmode] for converted ones. *)
Definition call_leaf (m : mem) (i : nat) (kw : kwargs) (x : X) : res X :=
  match fns (ob m i) with
  | Some j => with_mode scope m j kw x
  | None => me <- lookup (CTensor (current_mode scope (own_mode m i))) ;;
            if takes me kw then co_fn me (par (ob m i)) x else Err TypeError
  end.
(** container.py:633-637, 639-648, 668-677, with utils.py:40-58: the mode of the child is set,
    and restored unless something raises. *)
Definition child_loop (cl : net -> kwargs -> X -> mem -> res X * mem) (me : meth) :=
  fix go (l : list net) (x : X) (m : mem) : res X * mem :=
    match l with
    | [] => (Ok x, m)
    | c :: l =>
        let prev := own_mode m (name c) in
        match cl c (kw_of me) x (assign c (mode_of me) m) with
        | (Err e, m) => (Err e, m)
        | (Ok y, m) => go l y (assign c prev m)
        end
    end.
Fixpoint call_net (t : net) (kw : kwargs) (x : X) (m : mem) {struct t} : res X * mem :=
  match t with
  | Leaf i => (call_leaf m i kw x, m)
  | Seq i l =>
      match lookup (CTensor (current_mode scope (own_mode m i))) with
      | Err e => (Err e, m)
      | Ok me => if takes me kw then child_loop call_net me l x m else (Err TypeError, m)
      end
  end.
(** [module.forward(x)], [module.forward_step(x)], [module.forward_steps(x)]. *)
Definition run_net (me : meth) (t : net) (x : X) (m : mem) : res X * mem :=
  match t with
  | Leaf i =>
      (match fns (ob m i), me with
       | Some j, Forward => with_mode scope m j KwNone x
       | Some j, _ => stored me m j x
       | None, _ => co_fn me (par (ob m i)) x
       end, m)
  | Seq i l => child_loop call_net me l x m
  end.
End Run.

(** What a program does with a network, and with two. *)
Inductive op :=
| OCall (scope : option meth) (x : X)              (* net(x), in a context or not *)
| ORun (scope : option meth) (me : meth) (x : X)   (* net.forward_step(x), ... *)
| OMode (me : meth)                                (* net.call_mode = "forward_step", ... *)
| OTrain (i : nat) (w : W).                        (* new values for the parameters of the i-th module *)
Definition do_op (n : nat) (t : net) (o : op) (m : mem) : res (option X) * mem :=
  match o with
  | OCall s x => let '(y, m) := call_net (option_map mode_of s) t KwNone x m in (y <- y ;; Ok (Some y), m)
  | ORun s me x => let '(y, m) := run_net (option_map mode_of s) me t x m in (y <- y ;; Ok (Some y), m)
  | OMode me => (Ok None, assign t (mode_of me) m)
  | OTrain i w => (Ok None, set_par m (n + i) w)
  end.
(** A history; exceptions are caught. *)
Fixpoint do_ops (n : nat) (t : net) (l : list op) (m : mem) : list (res (option X)) * mem :=
  match l with
  | [] => ([], m)
  | o :: l => let '(y, m) := do_op n t o m in let '(ys, m) := do_ops n t l m in (y :: ys, m)
  end.
(** A history of the network [t] and its copy [t'], whose modules come [n] places later. *)
Fixpoint do_both (n : nat) (t t' : net) (l : list (bool * op)) (m : mem) : list (bool * res (option X)) * mem :=
  match l with
  | [] => ([], m)
  | (w, o) :: l =>
      let '(y, m) := if w then do_op n t' o m else do_op 0 t o m in
      let '(ys, m) := do_both n t t' l m in ((w, y) :: ys, m)
  end.
End Modules.
Arguments mobj W : clear implicits.
Arguments mem W : clear implicits.
Arguments op X W : clear implicits.
