(** Hooks (torch's register_forward_pre_hook and register_forward_hook) on the modules of a
    network: who runs them, with which arguments and how often (module.py:341-413,
    container.py:58-61, convert.py:38-114).

    Simplifications.  Hooks are functions of the values they see, and may raise; which hooks
    were called with what is recorded in a list.  Backward hooks, global hooks and tracing
    are not modelled (global hooks would be treated like hooks of every module).  Every module
    is called in the mode of the method that its container runs, as [CallMode.v] shows for
    default call modes (a converted torch module directly in a BroadcastReduce raises in the
    stepping modes, C32; here it does not).  A recurrent module called by itself (not by a container) returns a
    pair in forward; here its hooks see the first component. *)
From Coq Require Import List ZArith Bool Arith.
From Verif Require Import Base Frames CoMod Leaf Rnn Net.
Import ListNotations.

Section Hooks.
Context {F : Type} {FA : Frames F}.

(** A hook returns None to leave the value alone, or the value to use instead. *)
Record hooks := { h_pre : list (val F -> res (option (val F)));
                  h_post : list (val F -> val F -> res (option (val F))) }.

(** Networks whose modules have numbers; [fs] marks torch modules converted by
    forward_stepping. *)
Inductive hmd :=
| HLeaf (i : nat) (fs : bool) (m : md F)
| HSeq (i : nat) (ms : list hmd)
| HPar (i : nat) (ms : list hmd)
| HBR (i : nat) (ms : list hmd) (r : red F)
| HCond (i : nat) (pred : val F -> bool) (D R : Z) (a : hmd) (b : option hmd).
Definition hid (m : hmd) : nat :=
  match m with HLeaf i _ _ | HSeq i _ | HPar i _ | HBR i _ _ | HCond i _ _ _ _ _ => i end.

(** The method that runs. *)
Inductive mode := Fwd | Steps (pe upd : bool) | Step (upd : bool).

(** What is recorded: hook number [n] of module [i] was called with these arguments. *)
Inductive event := EPre (i n : nat) (x : val F) | EPost (i n : nat) (x y : val F).
Definition M (A : Type) : Type := list event * res A.
Definition ret {A} (r : res A) : M A := ([], r).
Definition mbind {A B} (a : M A) (f : A -> M B) : M B :=
  match a with
  | (l, Ok x) => (l ++ fst (f x), snd (f x))
  | (l, Err e) => (l, Err e)
  end.

Variable hk : nat -> hooks.

(** module.py:371-380: the pre-hooks in order of registration. *)
Fixpoint pre_from (i n : nat) (l : list (val F -> res (option (val F)))) (v : val F) : M (val F) :=
  match l with
  | [] => ret (Ok v)
  | h :: t =>
      mbind ([EPre i n v], h v)
            (fun r => pre_from i (S n) t (match r with Some w => w | None => v end))
  end.
(** module.py:387-394: the hooks see the input (after the pre-hooks) and the result. *)
Fixpoint post_from (i n : nat) (l : list (val F -> val F -> res (option (val F)))) (v r : val F) : M (val F) :=
  match l with
  | [] => ret (Ok r)
  | h :: t =>
      mbind ([EPost i n v r], h v r)
            (fun o => post_from i (S n) t v (match o with Some w => w | None => r end))
  end.
(** module.py:354-413 [_call_impl] once the method [f] is chosen. *)
Definition hooked {A} (i : nat) (f : val F -> M (val F * A)) (v : val F) : M (val F * A) :=
  mbind (pre_from i 0 (h_pre (hk i)) v) (fun w =>
  mbind (f w) (fun '(r, a) =>
  mbind (post_from i 0 (h_post (hk i)) w r) (fun r' => ret (Ok (r', a))))).

(** The methods of a module without children. *)
Definition leaf_run (me : mode) (m : md F) (v : val F) : res (val F * md F) :=
  match me with
  | Fwd => w <- fwd m v ;; Ok (w, m)
  | Steps pe upd => steps m v pe upd
  | Step upd => step m v upd
  end.
Definition is_rnn (m : hmd) : bool := match m with HLeaf _ _ (MRnn _ _) => true | _ => false end.

(** [m(x)].  The call of a converted torch module is torch's own _call_impl; it runs the
    hooks around forward_with_callmode (convert.py:102-110), which in the stepping modes calls
    CoModule._call_impl, which runs the hooks again. *)
Definition call_with (run : hmd -> val F -> M (val F * hmd)) (me : mode) (m : hmd) (v : val F) : M (val F * hmd) :=
  match m, me with
  | HLeaf i true _, Steps _ _ | HLeaf i true _, Step _ => hooked i (hooked i (run m)) v
  | _, _ => hooked (hid m) (run m) v
  end.
(** How a container calls a child: container.py:58-61 in forward, else [m(x)]. *)
Definition child_with (run : hmd -> val F -> M (val F * hmd)) (me : mode) (m : hmd) (v : val F) : M (val F * hmd) :=
  match me with
  | Fwd => if is_rnn m then run m v else call_with run me m v
  | _ => call_with run me m v
  end.

Section Loops.
Variable call : hmd -> val F -> M (val F * hmd).
(** container.py:633-637. *)
Fixpoint hseq_fwd (ms : list hmd) (v : val F) : M (val F * list hmd) :=
  match ms with
  | [] => ret (Ok (v, []))
  | m :: t => mbind (call m v) (fun '(v1, m1) => mbind (hseq_fwd t v1) (fun '(v2, t2) => ret (Ok (v2, m1 :: t2))))
  end.
(** container.py:639-648. *)
Fixpoint hseq_step (ms : list hmd) (v : val F) : M (val F * list hmd) :=
  match ms with
  | [] => ret (Ok (v, []))
  | m :: t => mbind (call m v) (fun '(v1, m1) =>
                if is_none v1 then ret (Ok (VNone, m1 :: t))
                else mbind (hseq_step t v1) (fun '(v2, t2) => ret (Ok (v2, m1 :: t2))))
  end.
(** container.py:668-677. *)
Fixpoint hseq_steps (ms : list hmd) (v : val F) : M (val F * list hmd) :=
  match ms with
  | [] => ret (Ok (v, []))
  | m :: t => if stops v then ret (Ok (VNone, m :: t))
              else mbind (call m v) (fun '(v1, m1) => mbind (hseq_steps t v1) (fun '(v2, t2) => ret (Ok (v2, m1 :: t2))))
  end.
(** container.py:326-347. *)
Fixpoint hpar (ms : list hmd) (l : list (val F)) : M (list (val F) * list hmd) :=
  match ms with
  | [] => ret (Ok ([], []))
  | m :: t =>
      match l with
      | [] => ret (Err IndexError)
      | x :: lt => mbind (call m x) (fun '(v1, m1) => mbind (hpar t lt) (fun '(vs, t2) => ret (Ok (v1 :: vs, m1 :: t2))))
      end
  end.
(** container.py:871-896. *)
Fixpoint hbr (ms : list hmd) (v : val F) : M (list (val F) * list hmd) :=
  match ms with
  | [] => ret (Ok ([], []))
  | m :: t => mbind (call m v) (fun '(v1, m1) => mbind (hbr t v) (fun '(vs, t2) => ret (Ok (v1 :: vs, m1 :: t2))))
  end.
End Loops.

(** The methods of the modules, called directly. *)
Fixpoint hrun (me : mode) (m : hmd) (v : val F) {struct m} : M (val F * hmd) :=
  match m with
  | HLeaf i fs lf => ret ('(w, lf') <- leaf_run me lf v ;; Ok (w, HLeaf i fs lf'))
  | HSeq i ms =>
      mbind (match me with
             | Fwd => hseq_fwd (child_with (hrun me) me) ms v
             | Steps _ _ => hseq_steps (child_with (hrun me) me) ms v
             | Step _ => hseq_step (child_with (hrun me) me) ms v
             end) (fun '(w, ms') => ret (Ok (w, HSeq i ms')))
  | HPar i ms =>
      match v with
      | VL l => mbind (hpar (child_with (hrun me) me) ms l) (fun '(vs, ms') => ret (Ok (VL vs, HPar i ms')))
      | _ => ret (Err TypeError)
      end
  | HBR i ms r =>
      mbind (hbr (child_with (hrun me) me) ms v) (fun '(vs, ms') =>
        ret (w <- (match me with
                   | Step _ => if forallb is_tensor vs then reduce_vals r vs else Ok VNone
                   | _ => reduce_vals r vs
                   end) ;; Ok (w, HBR i ms' r)))
  | HCond i p D R a b =>
      (* container.py:1041-1070: the branch is called in forward; its forward_step or
         forward_steps is called directly otherwise *)
      let branch (c : hmd) : M (val F * hmd) :=
        match me with
        | Fwd => child_with (hrun Fwd) Fwd c v
        | Steps _ _ => hrun (Steps false true) c v
        | Step upd => hrun (Step upd) c v
        end in
      if p v then mbind (branch a) (fun '(w, a') => ret (Ok (w, HCond i p D R a' b)))
      else match b with
           | Some b0 => mbind (branch b0) (fun '(w, b') => ret (Ok (w, HCond i p D R a (Some b'))))
           | None => ret (Ok (v, m))
           end
  end.

(** [m(x)] in a mode. *)
Definition hcall (me : mode) (m : hmd) (v : val F) : M (val F * hmd) := call_with (hrun me) me m v.

End Hooks.
Arguments hmd F : clear implicits.
Arguments hooks F : clear implicits.
Arguments event F : clear implicits.
