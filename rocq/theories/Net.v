(** Networks: module objects with their state, and the methods of the container
    classes (continual/container.py). *)
From Coq Require Import List ZArith Bool Arith.
From Verif Require Import Base Frames CoMod Leaf Rnn.
Import ListNotations.

Section Net.
Context {F : Type} {FA : Frames F}.

(** What is passed between modules: None, a single frame (argument of
    forward_step), a clip (argument of forward and forward_steps), or a Python
    list of such values. *)
Inductive val :=
| VNone
| VT (x : F)
| VS (xs : list F)
| VL (l : list val).

Definition of_opt (o : option F) : val := match o with Some x => VT x | None => VNone end.
Definition of_clip (o : option (list F)) : val := match o with Some x => VS x | None => VNone end.

(** container.py:443-461: mapping of ParallelDispatch. *)
Inductive dmap := DI (i : Z) | DL (l : list dmap).

(** Reductions (container.py:37-48, 64-96) acting frame by frame through a binary
    operation: sum, mul and max fold an element-wise operation with torch
    broadcasting ([r_bcast = true]) and assert at least two inputs; concat joins
    channels without broadcasting.  Simplification: user-supplied reductions are
    covered only when they are of this form. *)
Record red := { r_op : F -> F -> F; r_bcast : bool; r_min2 : bool }.

(** Module objects.  A constructor carries the configuration and the current
    buffers.  [MMap g] stands for the stateless modules that act on each frame
    by [g] in all modes: Linear (linear.py:79-97), Reshape (shape.py:48-65),
    Lambda/Add/Multiply/Identity/... (closure.py:111-220) and torch modules
    converted by [forward_stepping] (convert.py:38-114); see [Point.v].
    Simplification: no module object occurs twice in a network (but see [Share.v]). *)
Inductive md :=
| MDelay (d : nat) (m : fill) (sh : shrink) (o : obj F)
| MSkip (n : nat) (o : Z)
| MConv (c : conv_cfg F) (o : obj (list F))
| MPool (c : pool_cfg F) (o : obj F)
| MMap (g : F -> F)
| MRnn (c : rnn_cfg F) (o : option (list (hid F)))
| MSeq (ms : list md)
| MBroadcast (n : option nat)
| MPar (ms : list md)
| MDispatch (map : dmap)
| MReduce (r : red)
| MBR (ms : list md) (r : red)
| MCond (pred : val -> bool) (D R : Z) (a : md) (b : option md).
  (* [D], [R]: reported delay and receptive field, fixed at construction
     (container.py:1021-1024) *)

(* ------------------------------------------------------------------ *)
(** ** Reductions *)

(** torch broadcasting of two clips along time. *)
Definition zip_bcast (op : F -> F -> F) (bc : bool) (xs ys : list F) : res (list F) :=
  if Nat.eqb (length xs) (length ys)
  then Ok (map (fun p => op (fst p) (snd p)) (combine xs ys))
  else if bc then
    match xs, ys with
    | [x], _ => Ok (map (op x) ys)
    | _, [y] => Ok (map (fun x => op x y) xs)
    | _, _ => Err RuntimeError
    end
  else Err RuntimeError.

(** Binary operation on two tensors: both frames or both clips.
    Simplification: combining a frame with a clip is an error here. *)
Definition op_val (r : red) (a b : val) : res val :=
  match a, b with
  | VT x, VT y => Ok (VT (r_op r x y))
  | VS xs, VS ys => zs <- zip_bcast (r_op r) (r_bcast r) xs ys ;; Ok (VS zs)
  | _, _ => Err TypeError
  end.

Fixpoint fold_op (r : red) (acc : val) (l : list val) : res val :=
  match l with
  | [] => Ok acc
  | v :: t => a <- op_val r acc v ;; fold_op r a t
  end.

Definition is_tensor (v : val) : bool :=
  match v with VT _ | VS _ => true | _ => false end.
Definition is_none (v : val) : bool :=
  match v with VNone => true | _ => false end.

(** container.py:64-96 under [nonempty] (container.py:99-106): None if an input is
    None (a list has no [shape] and raises first if it comes first).
    Simplification: batches of size 0 do not occur. *)
Fixpoint any_none (l : list val) : res bool :=
  match l with
  | [] => Ok false
  | VNone :: _ => Ok true
  | VL _ :: _ => Err AttributeError
  | _ :: t => any_none t
  end.

Definition reduce_vals (r : red) (l : list val) : res val :=
  n <- any_none l ;;
  if n then Ok VNone
  else match l with
       | [] => if r_min2 r then Err AssertionError else Err RuntimeError
       | v :: t => if r_min2 r && Nat.ltb (length l) 2 then Err AssertionError
                   else fold_op r v t
       end.

(* ------------------------------------------------------------------ *)
(** ** ParallelDispatch (container.py:463-471) *)

(** Python list indexing, negative indices count from the end. *)
Definition py_index (l : list val) (i : Z) : res val :=
  let j := if Z.ltb i 0 then (i + Z.of_nat (length l))%Z else i in getz l j.

Fixpoint dispatch (m : dmap) (l : list val) : res val :=
  match m with
  | DI i => py_index l i
  | DL ms =>
      vs <- (fix go ms := match ms with
                          | [] => Ok []
                          | m :: t => v <- dispatch m l ;; vs <- go t ;; Ok (v :: vs)
                          end) ms ;;
      Ok (VL vs)
  end.

Definition dispatch_val (m : dmap) (v : val) : res val :=
  match v with VL l => dispatch m l | _ => Err TypeError end.

(** container.py:189-193 [Broadcast.forward], used by all modes (195-202). *)
Definition broadcast_val (n : option nat) (v : val) : res val :=
  match n with Some k => Ok (VL (repeat v k)) | None => Err AssertionError end.

(** container.py:543-544, 554-555: [Reduce.forward] and [forward_steps]; a
    non-list argument is an error. *)
Definition reduce_fwd (r : red) (v : val) : res val :=
  match v with VL l => reduce_vals r l | _ => Err TypeError end.

(** container.py:546-552 [Reduce._forward_step]/[forward_step]. *)
Definition reduce_step (r : red) (v : val) : res val :=
  match v with
  | VL l => if forallb is_tensor l then reduce_vals r l else Ok VNone
  | _ => Err TypeError
  end.

(* ------------------------------------------------------------------ *)
(** ** Loops over the children of a container *)

Section Loops.
(** [call] is the method called on each child. *)
Variable call : md -> val -> res (val * md).

(** container.py:639-648: stop with None as soon as a module returns None. *)
Fixpoint seq_step (ms : list md) (v : val) : res (val * list md) :=
  match ms with
  | [] => Ok (v, [])
  | m :: t =>
      '(v1, m1) <- call m v ;;
      if is_none v1 then Ok (VNone, m1 :: t)
      else '(v2, t2) <- seq_step t v1 ;; Ok (v2, m1 :: t2)
  end.

(** container.py:669-670: [not type(input) in {Tensor, list} or len(input) == 0]. *)
Definition stops (v : val) : bool :=
  match v with VNone => true | VL [] => true | _ => false end.

(** container.py:668-677. *)
Fixpoint seq_steps (ms : list md) (v : val) : res (val * list md) :=
  match ms with
  | [] => Ok (v, [])
  | m :: t =>
      if stops v then Ok (VNone, m :: t)
      else '(v1, m1) <- call m v ;;
           '(v2, t2) <- seq_steps t v1 ;; Ok (v2, m1 :: t2)
  end.

(** container.py:326-331, 333-340: child i gets [inputs[i]]. *)
Fixpoint par_run (ms : list md) (l : list val) : res (list val * list md) :=
  match ms with
  | [] => Ok ([], [])
  | m :: t =>
      match l with
      | [] => Err IndexError
      | x :: lt =>
          '(v1, m1) <- call m x ;;
          '(vs, t2) <- par_run t lt ;; Ok (v1 :: vs, m1 :: t2)
      end
  end.

(** container.py:871-875, 881-886: every child gets the input. *)
Fixpoint br_run (ms : list md) (v : val) : res (list val * list md) :=
  match ms with
  | [] => Ok ([], [])
  | m :: t =>
      '(v1, m1) <- call m v ;;
      '(vs, t2) <- br_run t v ;; Ok (v1 :: vs, m1 :: t2)
  end.

End Loops.

Section FLoops.
Variable call : md -> val -> res val.

(** container.py:633-637. *)
Fixpoint seq_fwd (ms : list md) (v : val) : res val :=
  match ms with
  | [] => Ok v
  | m :: t => v1 <- call m v ;; seq_fwd t v1
  end.

(** container.py:342-347. *)
Fixpoint par_fwd (ms : list md) (l : list val) : res (list val) :=
  match ms with
  | [] => Ok []
  | m :: t =>
      match l with
      | [] => Err IndexError
      | x :: lt => v1 <- call m x ;; vs <- par_fwd t lt ;; Ok (v1 :: vs)
      end
  end.

(** container.py:890-894. *)
Fixpoint br_fwd (ms : list md) (v : val) : res (list val) :=
  match ms with
  | [] => Ok []
  | m :: t => v1 <- call m v ;; vs <- br_fwd t v ;; Ok (v1 :: vs)
  end.

End FLoops.

(* ------------------------------------------------------------------ *)
(** ** forward_step *)

(** Stateful step of a network: returned value and new object.  Calls through
    [__call__] with the temporary call mode are modelled as direct calls of the
    selected method (the dispatch itself is modelled in [CallMode.v]). *)
Fixpoint step (m : md) (v : val) (upd : bool) {struct m} : res (val * md) :=
  match m with
  | MDelay d f sh o =>
      match v with
      | VT x => '(y, o') <- delay_forward_step d f sh o x upd ;; Ok (of_opt y, MDelay d f sh o')
      | _ => Err TypeError
      end
  | MSkip n o =>
      match v with
      | VT x => '(y, o') <- skip_forward_step n o x upd ;; Ok (of_opt y, MSkip n o')
      | _ => Err TypeError
      end
  | MConv c o =>
      match v with
      | VT x => '(y, o') <- conv_forward_step c o x upd ;; Ok (of_opt y, MConv c o')
      | _ => Err TypeError
      end
  | MPool c o =>
      match v with
      | VT x => '(y, o') <- pool_forward_step c o x upd ;; Ok (of_opt y, MPool c o')
      | _ => Err TypeError
      end
  | MMap g => match v with VT x => Ok (VT (g x), m) | _ => Err TypeError end
  | MRnn c o =>
      match v with
      | VT x => '(y, o') <- rnn_forward_step c o x upd ;; Ok (of_opt y, MRnn c o')
      | _ => Err TypeError
      end
  | MSeq ms =>                                        (* container.py:639-648 *)
      '(w, ms') <- seq_step (fun m v => step m v upd) ms v ;; Ok (w, MSeq ms')
  | MBroadcast n => w <- broadcast_val n v ;; Ok (w, m)
  | MPar ms =>                                        (* container.py:326-331 *)
      match v with
      | VL l => '(vs, ms') <- par_run (fun m v => step m v upd) ms l ;; Ok (VL vs, MPar ms')
      | _ => Err TypeError
      end
  | MDispatch d => w <- dispatch_val d v ;; Ok (w, m)
  | MReduce r => w <- reduce_step r v ;; Ok (w, m)
  | MBR ms r =>                                       (* container.py:871-879 *)
      '(vs, ms') <- br_run (fun m v => step m v upd) ms v ;;
      w <- (if forallb is_tensor vs then reduce_vals r vs else Ok VNone) ;;
      Ok (w, MBR ms' r)
  | MCond p D R a b =>                                    (* container.py:1048-1053 *)
      if p v then '(w, a') <- step a v upd ;; Ok (w, MCond p D R a' b)
      else match b with
           | Some b0 => '(w, b') <- step b0 v upd ;; Ok (w, MCond p D R a (Some b'))
           | None => Ok (v, m)
           end
  end.

(* ------------------------------------------------------------------ *)
(** ** forward_steps *)

Fixpoint steps (m : md) (v : val) (pe upd : bool) {struct m} : res (val * md) :=
  match m with
  | MDelay d f sh o =>
      match v with
      | VS x => '(y, o') <- delay_forward_steps d f sh o x pe upd ;; Ok (of_clip y, MDelay d f sh o')
      | _ => Err TypeError
      end
  | MSkip n o =>
      match v with
      | VS x => '(y, o') <- skip_forward_steps n o x pe upd ;; Ok (of_clip y, MSkip n o')
      | _ => Err TypeError
      end
  | MConv c o =>
      match v with
      | VS x => '(y, o') <- conv_forward_steps c o x pe upd ;; Ok (of_clip y, MConv c o')
      | _ => Err TypeError
      end
  | MPool c o =>
      match v with
      | VS x => '(y, o') <- pool_forward_steps c o x pe upd ;; Ok (of_clip y, MPool c o')
      | _ => Err TypeError
      end
  | MMap g => match v with VS x => Ok (VS (map g x), m) | _ => Err TypeError end
  | MRnn c o =>
      match v with
      | VS x => '(y, o') <- rnn_forward_steps c o x pe upd ;; Ok (of_clip y, MRnn c o')
      | _ => Err TypeError
      end
  | MSeq ms =>                                        (* container.py:668-677 *)
      '(w, ms') <- seq_steps (fun m v => steps m v pe upd) ms v ;; Ok (w, MSeq ms')
  | MBroadcast n => w <- broadcast_val n v ;; Ok (w, m)
  | MPar ms =>                                        (* container.py:333-340 *)
      match v with
      | VL l => '(vs, ms') <- par_run (fun m v => steps m v pe upd) ms l ;; Ok (VL vs, MPar ms')
      | _ => Err TypeError
      end
  | MDispatch d => w <- dispatch_val d v ;; Ok (w, m)
  | MReduce r => w <- reduce_fwd r v ;; Ok (w, m)
  | MBR ms r =>                                       (* container.py:881-888 *)
      '(vs, ms') <- br_run (fun m v => steps m v pe upd) ms v ;;
      w <- reduce_vals r vs ;;
      Ok (w, MBR ms' r)
  | MCond p D R a b =>              (* container.py:1065-1070: flags are not passed on *)
      if p v then '(w, a') <- steps a v false true ;; Ok (w, MCond p D R a' b)
      else match b with
           | Some b0 => '(w, b') <- steps b0 v false true ;; Ok (w, MCond p D R a (Some b'))
           | None => Ok (v, m)
           end
  end.

(* ------------------------------------------------------------------ *)
(** ** forward *)

Fixpoint fwd (m : md) (v : val) {struct m} : res val :=
  match m with
  | MDelay d f sh _ =>
      match v with VS x => Ok (VS (delay_forward d sh x)) | _ => Err TypeError end
  | MSkip n _ => match v with VS x => Ok (VS (skip_forward n x)) | _ => Err TypeError end
  | MConv c _ => match v with VS x => y <- conv_forward c x ;; Ok (VS y) | _ => Err TypeError end
  | MPool c _ => match v with VS x => y <- pool_forward c x ;; Ok (VS y) | _ => Err TypeError end
  | MMap g => match v with VS x => Ok (VS (map g x)) | _ => Err TypeError end
  | MRnn c _ => match v with VS x => y <- rnn_forward c x ;; Ok (VS y) | _ => Err TypeError end
  | MSeq ms => seq_fwd fwd ms v                       (* container.py:633-637 *)
  | MBroadcast n => broadcast_val n v
  | MPar ms =>                                        (* container.py:342-347 *)
      match v with
      | VL l => vs <- par_fwd fwd ms l ;; Ok (VL vs)
      | _ => Err TypeError
      end
  | MDispatch d => dispatch_val d v
  | MReduce r => reduce_fwd r v
  | MBR ms r => vs <- br_fwd fwd ms v ;; reduce_vals r vs     (* container.py:890-896 *)
  | MCond p D R a b =>                                    (* container.py:1041-1046 *)
      if p v then fwd a v
      else match b with Some b0 => fwd b0 v | None => Ok v end
  end.

(* ------------------------------------------------------------------ *)
(** ** _forward_step with explicit state *)

(** States as returned by [_forward_step]: leaf tuples, and lists for
    containers. *)
Inductive sst :=
| SD (s : obj F)                 (* Delay and pooling tuples *)
| SK (s : Z)                     (* Skip *)
| SC (s : obj (list F))          (* convolution tuples *)
| SR (s : list (hid F))          (* recurrent *)
| SN (l : list (option sst)).    (* containers *)

(** [prev_state or [None for _ in range(n)]] (container.py:318, 651, 860). *)
Definition prev_list (prev : option sst) (n : nat) : res (list (option sst)) :=
  match prev with
  | None => Ok (repeat None n)
  | Some (SN []) => Ok (repeat None n)
  | Some (SN l) => Ok l
  | Some _ => Err ValueError
  end.

(** [prev_state[i]] of a list. *)
Definition nth_state (l : list (option sst)) : res (option sst * list (option sst)) :=
  match l with [] => Err IndexError | s :: t => Ok (s, t) end.

Section SLoops.
Variable call : md -> val -> option sst -> res (val * option sst).

(** container.py:650-658. *)
Fixpoint seq_fstep (ms : list md) (v : val) (pl : list (option sst))
  : res (val * list (option sst)) :=
  match ms with
  | [] => Ok (v, pl)
  | m :: t =>
      '(p, pt) <- nth_state pl ;;
      '(v1, s1) <- call m v p ;;
      if is_none v1 then Ok (VNone, s1 :: pt)
      else '(v2, st) <- seq_fstep t v1 pt ;; Ok (v2, s1 :: st)
  end.

(** container.py:318-324. *)
Fixpoint par_fstep (ms : list md) (l : list val) (pl : list (option sst))
  : res (list val * list (option sst)) :=
  match ms with
  | [] => Ok ([], [])
  | m :: t =>
      match l with
      | [] => Err IndexError
      | x :: lt =>
          '(p, pt) <- nth_state pl ;;
          '(v1, s1) <- call m x p ;;
          '(vs, st) <- par_fstep t lt pt ;; Ok (v1 :: vs, s1 :: st)
      end
  end.

(** container.py:860-866. *)
Fixpoint br_fstep (ms : list md) (v : val) (pl : list (option sst))
  : res (list val * list (option sst)) :=
  match ms with
  | [] => Ok ([], pl)
  | m :: t =>
      '(p, pt) <- nth_state pl ;;
      '(v1, s1) <- call m v p ;;
      '(vs, st) <- br_fstep t v pt ;; Ok (v1 :: vs, s1 :: st)
  end.

End SLoops.

Fixpoint fstep (m : md) (v : val) (prev : option sst) {struct m} : res (val * option sst) :=
  match m with
  | MDelay d f sh _ =>                                (* delay.py:90-111 *)
      match v, prev with
      | VT x, None => '(y, s) <- delay_fstep d f sh x None ;; Ok (of_opt y, option_map SD s)
      | VT x, Some (SD s0) => '(y, s) <- delay_fstep d f sh x (Some s0) ;; Ok (of_opt y, option_map SD s)
      | _, _ => Err TypeError
      end
  | MSkip n _ =>                                      (* skip.py:44-57 *)
      match v, prev with
      | VT x, None => '(y, s) <- skip_fstep n x None ;; Ok (of_opt y, option_map SK s)
      | VT x, Some (SK s0) => '(y, s) <- skip_fstep n x (Some s0) ;; Ok (of_opt y, option_map SK s)
      | _, _ => Err TypeError
      end
  | MConv c _ =>                                      (* conv.py:171-278 *)
      match v, prev with
      | VT x, None => '(y, s) <- conv_fstep c x None ;; Ok (of_opt y, option_map SC s)
      | VT x, Some (SC s0) => '(y, s) <- conv_fstep c x (Some s0) ;; Ok (of_opt y, option_map SC s)
      | _, _ => Err TypeError
      end
  | MPool c _ =>                                      (* pooling.py:180-212 *)
      match v, prev with
      | VT x, None => '(y, s) <- pool_fstep c x None ;; Ok (of_opt y, option_map SD s)
      | VT x, Some (SD s0) => '(y, s) <- pool_fstep c x (Some s0) ;; Ok (of_opt y, option_map SD s)
      | _, _ => Err TypeError
      end
  | MMap g => match v with VT x => Ok (VT (g x), prev) | _ => Err TypeError end
  | MRnn c _ =>                                       (* rnn.py:210-217 *)
      match v, prev with
      | VT x, None => '(y, s) <- rnn_fstep c x None ;; Ok (of_opt y, option_map SR s)
      | VT x, Some (SR s0) => '(y, s) <- rnn_fstep c x (Some s0) ;; Ok (of_opt y, option_map SR s)
      | _, _ => Err TypeError
      end
  | MSeq ms =>                                        (* container.py:650-658 *)
      pl <- prev_list prev (length ms) ;;
      '(w, ss) <- seq_fstep fstep ms v pl ;;
      Ok (w, Some (SN ss))
  | MBroadcast n => w <- broadcast_val n v ;; Ok (w, prev)   (* container.py:195-196 *)
  | MPar ms =>                                        (* container.py:315-324 *)
      match v with
      | VL l =>
          pl <- prev_list prev (length ms) ;;
          '(vs, ss) <- par_fstep fstep ms l pl ;;
          Ok (VL vs, Some (SN ss))
      | _ => Err TypeError
      end
  | MDispatch d => w <- dispatch_val d v ;; Ok (w, prev)     (* container.py:473-474 *)
  | MReduce r => w <- reduce_step r v ;; Ok (w, prev)        (* container.py:546-549 *)
  | MBR ms r =>                                       (* container.py:859-869 *)
      pl <- prev_list prev (length ms) ;;
      '(vs, ss) <- br_fstep fstep ms v pl ;;
      w <- (if forallb is_tensor vs then reduce_vals r vs else Ok VNone) ;;
      Ok (w, Some (SN ss))
  | MCond p D R a b =>
      (* container.py:1055-1063: the child's state is returned as is.  Indexing a
         leaf's tuple yields a tensor, which the child cannot use: an error. *)
      let pick (i : nat) : res (option sst) :=
        match prev with
        | None => Ok None
        | Some (SN []) => Ok None
        | Some (SN l) => match nth_error l i with Some s => Ok s | None => Err IndexError end
        | Some _ => Err ValueError
        end in
      if p v then s <- pick 0 ;; fstep a v s
      else match b with
           | Some b0 => s <- pick 1 ;; fstep b0 v s
           | None => Ok (v, match prev with
                            | None => Some (SN [None; None])
                            | Some (SN []) => Some (SN [None; None])
                            | _ => prev
                            end)
           end
  end.

(* ------------------------------------------------------------------ *)
(** ** clean_state *)

Fixpoint clean (m : md) : md :=
  match m with
  | MDelay d f sh o => MDelay d f sh (obj_clean o)
  | MSkip n _ => MSkip n (skip_init n)
  | MConv c o => MConv c (obj_clean o)
  | MPool c o => MPool c (obj_clean o)
  | MMap g => MMap g
  | MRnn c o => MRnn c (rnn_clean o)
  | MSeq ms => MSeq (map clean ms)
  | MBroadcast n => MBroadcast n
  | MPar ms => MPar (map clean ms)
  | MDispatch d => MDispatch d
  | MReduce r => MReduce r
  | MBR ms r => MBR (map clean ms) r
  | MCond p D R a b => MCond p D R a b     (* inherits the empty CoModule.clean_state, module.py:184-186 *)
  end.

(* ------------------------------------------------------------------ *)
(** ** receptive_field, stride, padding, delay *)

Open Scope Z_scope.

Definition zmax_list (l : list Z) : Z :=
  match l with [] => 0 | x :: t => fold_left Z.max t x end.

Fixpoint strd (m : md) : Z :=
  match m with
  | MConv c _ => Z.of_nat (cs c)
  | MPool c _ => Z.of_nat (ps c)
  | MSeq ms =>                                        (* container.py:689-694 *)
      fold_left Z.mul (map strd ms) 1
  | MPar (m :: _) | MBR (m :: _) _ => strd m          (* container.py:357-359, 906-908 *)
  | _ => 1                                            (* module.py:115 *)
  end.

Fixpoint padg (m : md) : Z :=
  match m with
  | MConv c _ => Z.of_nat (cp c)
  | MPool c _ => Z.of_nat (pp c)
  | MSeq ms =>                                        (* container.py:696-704 *)
      match map (fun m => (padg m, strd m)) ms with
      | [] => 0
      | (p, s) :: t =>
          fst (fold_left (fun ps m => (fst ps + fst m * snd ps, snd ps * snd m)) t (p, s))
      end
  | MPar ms | MBR ms _ =>                             (* container.py:361-363, 910-912 *)
      zmax_list (map padg ms)
  | _ => 0                                            (* module.py:116 *)
  end.

Fixpoint rfield (m : md) : Z :=
  match m with
  | MDelay d _ _ _ => Z.of_nat d + 1                  (* delay.py:136-138 *)
  | MConv c _ => Z.of_nat (conv_rf c)
  | MPool c _ => Z.of_nat (pool_rf c)
  | MSeq ms =>                                        (* container.py:679-687 *)
      match rev (map (fun m => (rfield m, strd m)) ms) with
      | [] => 1
      | (r, _) :: t => fold_left (fun rf m => snd m * rf + fst m - snd m) t r
      end
  | MPar ms | MBR ms _ =>                             (* container.py:301-302, 845-846 *)
      zmax_list (map rfield ms)
  | MCond _ _ R _ _ => R                              (* container.py:1084-1086 *)
  | _ => 1                                            (* module.py:114 *)
  end.

Fixpoint del (m : md) : Z :=
  match m with
  | MDelay d _ _ _ => Z.of_nat d                      (* delay.py:140-142 *)
  | MSkip _ _ => 0                                    (* skip.py:66-68 *)
  | MRnn _ _ => 0                                     (* rnn.py:179-181 *)
  | MPar ms | MBR ms _ =>                             (* container.py:293-299, 842-843 *)
      zmax_list (map del ms)
  | MCond _ D _ _ _ => D                              (* container.py:1080-1082 *)
  | _ => rfield m - 1 - padg m                        (* module.py:188-190 *)
  end.

(* ------------------------------------------------------------------ *)
(** ** Constructors of containers *)

(** container.py:271-284 and 809-822: auto_delay.  [Delay(n)] has zero fill and no
    shrinking by default (delay.py:46-51). *)
Definition delay_to (D : Z) (m : md) : md :=
  if Z.ltb (del m) D
  then MSeq [m; MDelay (Z.to_nat (D - del m)) Zeros ShNo obj_init]
  else m.

Definition auto_delay (ms : list md) : list md :=
  let D := zmax_list (map del ms) in map (delay_to D) ms.

(** container.py:286-288, 824-826. *)
Definition same_stride (ms : list md) : bool :=
  match ms with [] => false | m :: t => forallb (fun m' => Z.eqb (strd m') (strd m)) t end.

(** container.py:259-302 [Parallel.__init__]; [max([])] raises ValueError. *)
Definition mk_par (ms : list md) (auto : bool) : res md :=
  if auto && match ms with [] => true | _ => false end then Err ValueError
  else let ms' := if auto then auto_delay ms else ms in
       if same_stride ms' then Ok (MPar ms') else Err AssertionError.

(** container.py:792-846 [BroadcastReduce.__init__]. *)
Definition mk_br (ms : list md) (r : red) (auto : bool) : res md :=
  if Nat.leb (length ms) 1 then Err AssertionError
  else let ms' := if auto then auto_delay ms else ms in
       if same_stride ms' then Ok (MBR ms' r) else Err AssertionError.

(** Values of [residual_shrink] (container.py:923-928, 941-945). *)
Inductive rshrink := RNo | RTrue | RCentered | RLagging | RLeading.

(** container.py:953-979 [Residual]. *)
Definition residual (m : md) (tf : fill) (r : red) (rs : rshrink) : res md :=
  if negb (Z.eqb (strd m) 1) then Err AssertionError
  else
    let delay := del m in
    let rs := if Z.eqb (rfield m - padg m * 2) 1 then RNo else rs in
    delay <- (match rs with
              | RTrue | RCentered =>
                  if Z.eqb (delay mod 2) 0 then Ok (delay / 2) else Err AssertionError
              | _ => Ok delay
              end) ;;
    br <- (match rs with
            | RLeading =>                              (* skip.py:29: steps > 0 *)
                if Z.ltb 0 delay
                then Ok (MSkip (Z.to_nat delay) (skip_init (Z.to_nat delay)))
                else Err AssertionError
            | _ =>                                     (* delay.py:52: delay >= 0 *)
                if Z.ltb delay 0 then Err AssertionError
                else Ok (MDelay (Z.to_nat delay) tf
                           (match rs with RTrue => ShTrue | RCentered => ShCentered
                                        | RLagging => ShLagging | _ => ShNo end) obj_init)
            end) ;;
    mk_br [br; m] r false.

(** container.py:1002-1039 [Conditional.__init__]: the Delay goes first here. *)
Definition delay_front (D : Z) (m : md) : md :=
  if Z.eqb (del m) D then m
  else MSeq [MDelay (Z.to_nat (D - del m)) Zeros ShNo obj_init; m].

Definition mk_cond (p : val -> bool) (a : md) (b : option md) : md :=
  let D := Z.max (del a) (match b with Some b0 => del b0 | None => 0 end) in
  let R := Z.max (rfield a) (match b with Some b0 => rfield b0 | None => 1 end) in
  MCond p D R (delay_front D a) (option_map (delay_front D) b).

(** container.py:609-628 [Sequential.__init__]: a Broadcast followed by a Parallel
    gets its number of streams (0 streams count as unset). *)
Fixpoint infer_streams (ms : list md) : list md :=
  match ms with
  | MBroadcast n :: ((MPar ps :: _) as t) =>
      MBroadcast (match n with Some (S k) => Some (S k) | _ => Some (length ps) end)
      :: infer_streams t
  | m :: t => m :: infer_streams t
  | [] => []
  end.
Definition mk_seq (ms : list md) : md := MSeq (infer_streams ms).

End Net.
Arguments val F : clear implicits.
Arguments md F : clear implicits.
Arguments sst F : clear implicits.
Arguments red F : clear implicits.
