(** ONNX export: nested states as flat lists (continual/onnx.py:208-281,
    utils.py:233-247) and explicit-state stepping of module trees.

    Modules are trees over arbitrary leaves: a leaf has any number of state tensors
    and any step function, so that convolutions, poolings, delays, recurrent
    modules, attention and positional encodings are all instances. Simplifications:
    tensors are values (no aliasing between states); tracing by torch.onnx is not
    modelled, only the wrapper's own forward and the names handed to torch. *)
From Coq Require Import List ZArith Bool Arith String Ascii DecimalString.
From Verif Require Import Base.
Import ListNotations.
Open Scope list_scope.

(** [_state_shape]: an int, or a list for containers. *)
Inductive shape := SInt (n : nat) | SList (l : list shape).

(** Python states: None, a tuple of tensors, or a list. *)
Inductive pst (A : Type) := PNone | PTup (l : list A) | PList (l : list (pst A)).
Arguments PNone {A}. Arguments PTup {A} l. Arguments PList {A} l.

(** utils.py:240-247 [_flatten]; None is an element like any other. *)
Fixpoint flat_pst {A} (p : pst A) : list (option A) :=
  match p with
  | PNone => [None]
  | PTup l => map Some l
  | PList l => flat_map flat_pst l
  end.
Fixpoint flat_shape (s : shape) : list nat :=
  match s with SInt n => [n] | SList l => flat_map flat_shape l end.

(** utils.py:233-237 [flatten(..., remove_none=True)]. *)
Definition drop_none {A} (l : list (option A)) : list A :=
  flat_map (fun o => match o with Some a => [a] | None => [] end) l.

(** onnx.py:234-243 [_shape_list]; Python slices stop at the end of the list. *)
Fixpoint shape_list {A} (lst : list A) (s : shape) (idx : nat) {struct s} : pst A * nat :=
  match s with
  | SInt n => (PTup (firstn n (skipn idx lst)), idx + n)
  | SList l =>
      let '(ret, idx) :=
        (fix go (l : list shape) (idx : nat) : list (pst A) * nat :=
           match l with
           | [] => ([], idx)
           | s :: l =>
               let '(o, idx) := shape_list lst s idx in
               let '(ret, idx) := go l idx in (o :: ret, idx)
           end) l idx in
      (PList ret, idx)
  end.

Section Modules.
(** [X]: frames. [A]: state tensors. *)
Context {X A : Type}.

Inductive oval := ONone | OX (x : X) | OL (l : list oval).

Definition of_o (o : option X) : oval := match o with Some x => OX x | None => ONone end.
Definition no_out (v : oval) : bool := match v with ONone => true | _ => false end.
Definition tensor (v : oval) : bool := match v with OX _ => true | _ => false end.

(** Leaves with state. [l_pos] tells that the second positional parameter of
    [_forward_step] is the state; for multi-head attention it is the key
    (single_output_mha.py:302-308, retroactive_mha.py). [l_step] gets [None] when there is
    no state yet, as in module.py:214. *)
Record leaf := Leaf {
  l_dyn : list bool;                       (* _dynamic_state_inds *)
  l_step : X -> option (list A) -> res (option X * list A);   (* _forward_step *)
  l_pos : bool
}.

(** [_state_shape]. *)
Definition l_n (f : leaf) : nat := List.length (l_dyn f).

(** Module objects with their current state. [OPure] stands for the stateless
    modules: [_state_shape = 0], [_forward_step] hands the state through. *)
Inductive om :=
| OLeaf (f : leaf) (st : option (list A))
| OPure (g : oval -> res oval)
| OSeq (l : list om)
| OPar (l : list om)
| OBR (l : list om) (r : list oval -> res oval)
| OCond (p : oval -> bool) (a : om) (b : option om).

(** container.py:308-309, 661-662, 852-853, 1073-1074. *)
Fixpoint oshape (m : om) : shape :=
  match m with
  | OLeaf f _ => SInt (l_n f)
  | OPure _ => SInt 0
  | OSeq l | OPar l | OBR l _ => SList (map oshape l)
  | OCond _ a b => SList (oshape a :: match b with Some b => [oshape b] | None => [] end)
  end.

(** container.py:312-313, 665-666, 856-857, 1077-1078. *)
Fixpoint odyn (m : om) : pst bool :=
  match m with
  | OLeaf f _ => PTup (l_dyn f)
  | OPure _ => PTup []
  | OSeq l | OPar l | OBR l _ => PList (map odyn l)
  | OCond _ a b => PList (odyn a :: match b with Some b => [odyn b] | None => [] end)
  end.

(** *** forward_step: module.py:212-219 on leaves, container.py:326-331, 639-648,
    871-879, 1048-1053. *)
Section Loops.
Variable call : om -> oval -> res (oval * om).
Fixpoint seq_go (l : list om) (v : oval) : res (oval * list om) :=
  match l with
  | [] => Ok (v, [])
  | m :: l =>
      '(w, m') <- call m v ;;
      if no_out w then Ok (ONone, m' :: l)
      else '(w2, l') <- seq_go l w ;; Ok (w2, m' :: l')
  end.
Fixpoint par_go (l : list om) (vs : list oval) : res (list oval * list om) :=
  match l with
  | [] => Ok ([], [])
  | m :: l =>
      match vs with
      | [] => Err IndexError
      | v :: vs =>
          '(w, m') <- call m v ;; '(ws, l') <- par_go l vs ;; Ok (w :: ws, m' :: l')
      end
  end.
Fixpoint br_go (l : list om) (v : oval) : res (list oval * list om) :=
  match l with
  | [] => Ok ([], [])
  | m :: l => '(w, m') <- call m v ;; '(ws, l') <- br_go l v ;; Ok (w :: ws, m' :: l')
  end.
End Loops.

Definition reduced (r : list oval -> res oval) (ws : list oval) : res oval :=
  if forallb tensor ws then r ws else Ok ONone.

Fixpoint ostep (m : om) (v : oval) {struct m} : res (oval * om) :=
  match m with
  | OLeaf f st =>
      match v with
      | OX x =>
          '(y, s') <- l_step f x st ;; Ok (of_o y, OLeaf f (Some s'))
      | _ => Err TypeError
      end
  | OPure g => w <- g v ;; Ok (w, m)
  | OSeq l => '(w, l') <- seq_go ostep l v ;; Ok (w, OSeq l')
  | OPar l =>
      match v with
      | OL vs => '(ws, l') <- par_go ostep l vs ;; Ok (OL ws, OPar l')
      | _ => Err TypeError
      end
  | OBR l r => '(ws, l') <- br_go ostep l v ;; w <- reduced r ws ;; Ok (w, OBR l' r)
  | OCond p a b =>
      if p v then '(w, a') <- ostep a v ;; Ok (w, OCond p a' b)
      else match b with
           | Some b => '(w, b') <- ostep b v ;; Ok (w, OCond p a (Some b'))
           | None => Ok (v, m)
           end
  end.

(** *** _forward_step with explicit Python states *)

(** [prev_state or [None for _ in range(n)]]; a nonempty tuple stays a tuple. *)
Definition prev_or (p : pst A) (n : nat) : res (list (pst A)) :=
  match p with
  | PNone | PTup [] | PList [] => Ok (repeat PNone n)
  | PList l => Ok l
  | PTup _ => Err AttributeError
  end.

Section SLoops.
Variable call : om -> oval -> pst A -> res (oval * pst A).
Fixpoint seq_sgo (l : list om) (v : oval) (ps : list (pst A)) : res (oval * list (pst A)) :=
  match l with
  | [] => Ok (v, ps)
  | m :: l =>
      match ps with
      | [] => Err IndexError
      | p :: ps =>
          '(w, p') <- call m v p ;;
          if no_out w then Ok (ONone, p' :: ps)
          else '(w2, ps') <- seq_sgo l w ps ;; Ok (w2, p' :: ps')
      end
  end.
Fixpoint par_sgo (l : list om) (vs : list oval) (ps : list (pst A))
  : res (list oval * list (pst A)) :=
  match l with
  | [] => Ok ([], [])
  | m :: l =>
      match vs, ps with
      | v :: vs, p :: ps =>
          '(w, p') <- call m v p ;; '(ws, ps') <- par_sgo l vs ps ;; Ok (w :: ws, p' :: ps')
      | _, _ => Err IndexError
      end
  end.
Fixpoint br_sgo (l : list om) (v : oval) (ps : list (pst A)) : res (list oval * list (pst A)) :=
  match l with
  | [] => Ok ([], ps)
  | m :: l =>
      match ps with
      | [] => Err IndexError
      | p :: ps =>
          '(w, p') <- call m v p ;; '(ws, ps') <- br_sgo l v ps ;; Ok (w :: ws, p' :: ps')
      end
  end.
End SLoops.

(** [kw]: the state is passed as keyword [prev_state] (Sequential, Parallel,
    BroadcastReduce) or as second positional argument (OnnxWrapper.forward,
    onnx.py:261; Conditional, container.py:1060-1062). *)
Fixpoint fstep (m : om) (kw : bool) (v : oval) (p : pst A) {struct m} : res (oval * pst A) :=
  match m with
  | OLeaf f _ =>
      if negb (kw || l_pos f) then Err TypeError else
      match v with
      | OX x =>
          s <- match p with
               | PNone => Ok None
               | PTup l => if Nat.eqb (List.length l) (l_n f) then Ok (Some l) else Err ValueError
               | PList _ => Err ValueError
               end ;;
          '(y, s') <- l_step f x s ;; Ok (of_o y, PTup s')
      | _ => Err TypeError
      end
  | OPure g => w <- g v ;; Ok (w, p)
  | OSeq l =>                                  (* container.py:650-658 *)
      ps <- prev_or p (List.length l) ;;
      '(w, ps') <- seq_sgo (fun m => fstep m true) l v ps ;; Ok (w, PList ps')
  | OPar l =>                                  (* container.py:315-324 *)
      match v with
      | OL vs =>
          ps <- prev_or p (List.length l) ;;
          '(ws, ps') <- par_sgo (fun m => fstep m true) l vs ps ;; Ok (OL ws, PList ps')
      | _ => Err TypeError
      end
  | OBR l r =>                                 (* container.py:859-869 *)
      ps <- prev_or p (List.length l) ;;
      '(ws, ps') <- br_sgo (fun m => fstep m true) l v ps ;;
      w <- reduced r ws ;; Ok (w, PList ps')
  | OCond c a b =>                             (* container.py:1055-1063 *)
      ps <- prev_or p 2 ;;
      if c v then
        match ps with p0 :: _ => fstep a false v p0 | [] => Err IndexError end
      else
        match b with
        | Some b => match ps with _ :: p1 :: _ => fstep b false v p1 | _ => Err IndexError end
        | None => Ok (v, PList ps)
        end
  end.

(** onnx.py:258-262 [OnnxWrapper.forward]. *)
Definition wrapper (m : om) (x : X) (states : list A) : res (oval * list (option A)) :=
  let '(p, _) := shape_list states (oshape m) 0 in
  '(out, p') <- fstep m false (OX x) p ;;
  Ok (out, flat_pst p').

(** onnx.py:264-274 the names of the states. *)
Definition nat_str (n : nat) : string := NilEmpty.string_of_uint (Nat.to_uint n).
Definition state_input_names (m : om) : list string :=
  map (fun i => String "s"%char (nat_str i)) (seq 0 (list_sum (flat_shape (oshape m)))).
Definition i2o_name (s : string) : string := String "n"%char s.
Definition state_output_names (m : om) : list string := map i2o_name (state_input_names m).

(** onnx.py:276-281: the names with a dynamic batch axis. *)
Definition dynamic_inputs (m : om) : list string :=
  map fst (filter snd (combine (state_input_names m) (drop_none (flat_pst (odyn m))))).
Definition dynamic_axes (m : om) : list string :=
  dynamic_inputs m ++ map i2o_name (dynamic_inputs m).

End Modules.
