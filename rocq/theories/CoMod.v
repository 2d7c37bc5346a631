(** The generic streaming loop of [CoModule] (continual/module.py), value
    semantics: buffers are values.  The aliasing of in-place buffers is
    modelled separately in [Heap.v]. *)
From Coq Require Import List ZArith Bool Arith.
From Verif Require Import Base Frames.
Import ListNotations.

(** Registered buffers of a stateful leaf module: [state_buffer],
    [state_index], [stride_index] (conv.py:121-123, pooling.py:148-150,
    delay.py:62-63; Delay has no [stride_index], the field is unused there).
    The same record is used for the state tuple returned by [get_state]. *)
Record obj (B : Type) := Obj { o_buf : list B; o_idx : Z; o_str : Z }.
Arguments Obj {B} _ _ _.
Arguments o_buf {B} _.
Arguments o_idx {B} _.
Arguments o_str {B} _.

(** Object right after construction (conv.py:121-123, delay.py:62-63). *)
Definition obj_init {B} : obj B := Obj [] 0 0.

(** conv.py:157-160, pooling.py:168-171, delay.py:78-80: [clean_state]. *)
Definition obj_clean {B} (o : obj B) : obj B := Obj [] 0 0.

(** conv.py:162-165, pooling.py:173-175, delay.py:82-85: [get_state] is None
    while the buffer is empty. *)
Definition obj_get {B} (o : obj B) : option (obj B) :=
  match o_buf o with [] => None | _ => Some o end.

(** conv.py:167-168, pooling.py:177-178, delay.py:87-88: [set_state]. *)
Definition obj_set {B} (o s : obj B) : obj B := s.

(** module.py:288-292: [None] when there are no outputs, else [torch.stack]. *)
Definition stack_outs {F} (l : list F) : option (list F) :=
  match l with [] => None | _ => Some l end.

Section CoModule.
Context {F : Type}.
(** Object and state-tuple types, and the overridable methods. *)
Context {Ob St : Type}.
Variable get_state : Ob -> option St.
Variable set_state : Ob -> St -> Ob.
Variable fstep : F -> option St -> res (option F * option St).  (* _forward_step *)
Variable mkpad : F -> F.                                        (* _make_padding *)

(** module.py:213-219 [CoModule.forward_step].  ([_clone_first] is the identity
    on values.) *)
Definition co_forward_step (o : Ob) (x : F) (upd : bool) : res (option F * Ob) :=
  '(out, s') <- fstep x (get_state o) ;;
  Ok (out, match s' with
           | Some s => if upd then set_state o s else o
           | None => o
           end).

(** module.py:268-271: the loop over time of [_forward_steps_impl]. *)
Fixpoint co_loop (xs : list F) (s : option St) : res (list F * option St) :=
  match xs with
  | [] => Ok ([], s)
  | x :: t =>
      '(o, s1) <- fstep x s ;;
      '(outs, s2) <- co_loop t s1 ;;
      Ok (match o with Some y => y :: outs | None => outs end, s2)
  end.

(** module.py:282-284: [input[:, :, -1]] is evaluated once per padding step. *)
Definition end_frames (pad : nat) (xs : list F) : res (list F) :=
  match pad with
  | O => Ok []
  | _ => match xs with
         | [] => Err IndexError
         | x :: _ => Ok (repeat (mkpad (last xs x)) pad)
         end
  end.

(** module.py:248-292 [CoModule._forward_steps_impl]. [pad] is [self.padding[0]].
    [None] is returned when there are no outputs. *)
Definition co_forward_steps (pad : nat) (o : Ob) (xs : list F) (pad_end upd : bool)
  : res (option (list F) * Ob) :=
  '(outs, s1) <- co_loop xs (get_state o) ;;
  let o1 := match s1 with
            | Some s => if upd then set_state o s else o
            | None => o
            end in
  '(outs2) <- (if pad_end then
       let s2 := match get_state o1 with Some s => Some s | None => s1 end in
       fs <- end_frames pad xs ;;
       '(outs', _) <- co_loop fs s2 ;;
       Ok outs'
     else Ok []) ;;
  Ok (stack_outs (outs ++ outs2), o1).

End CoModule.
