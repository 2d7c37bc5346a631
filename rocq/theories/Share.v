(** Networks in which one module object occurs several times, as in
    [co.Sequential(conv, conv)].  A network is a tree of containers whose leaves
    are references to objects; the objects live in a list, so what one occurrence
    stores is seen by the others.  Torch allows this: containers keep their
    children in [_modules] under different names, and iterating over a container
    ([for m in self]) yields an object once for every occurrence. *)
From Coq Require Import List ZArith Bool Arith.
From Verif Require Import Base Frames CoMod Leaf Rnn Net Calls NetExn.
Import ListNotations.

Section Share.
Context {F : Type} {FA : Frames F}.

(** [NRef i] is the i-th object: a leaf or any network of its own.  A container
    that occurs twice is a subtree that occurs twice (containers have no state
    besides that of their children, see [Net.md]). *)
Inductive sn :=
| NRef (i : nat)
| NSeq (ns : list sn)
| NPar (ns : list sn)
| NBR (ns : list sn) (r : red F)
| NCond (p : val F -> bool) (D R : Z) (a : sn) (b : option sn).

(** Simplification: a reference to no object (impossible in Python) stands for an
    empty Sequential. *)
Definition object (s : list (md F)) (i : nat) : md F := nth i s (MSeq []).

(** A method call on the i-th object. *)
Definition on_object (call : md F -> val F -> md F * res (val F)) (i : nat) (s : list (md F)) (v : val F)
  : list (md F) * res (val F) :=
  let '(m', r) := call (object s i) v in (set_nth s i m', r).

Section Loops.
(** [call] is the method called on each child. *)
Variable call : sn -> list (md F) -> val F -> list (md F) * res (val F).

(** container.py:639-648. *)
Fixpoint nseq_step (ns : list sn) (s : list (md F)) (v : val F) : list (md F) * res (val F) :=
  match ns with
  | [] => (s, Ok v)
  | n :: t =>
      match call n s v with
      | (s1, Err e) => (s1, Err e)
      | (s1, Ok v1) => if is_none v1 then (s1, Ok VNone) else nseq_step t s1 v1
      end
  end.

(** container.py:668-677. *)
Fixpoint nseq_steps (ns : list sn) (s : list (md F)) (v : val F) : list (md F) * res (val F) :=
  match ns with
  | [] => (s, Ok v)
  | n :: t =>
      if stops v then (s, Ok VNone)
      else match call n s v with
           | (s1, Err e) => (s1, Err e)
           | (s1, Ok v1) => nseq_steps t s1 v1
           end
  end.

(** container.py:326-331, 333-340. *)
Fixpoint npar_run (ns : list sn) (s : list (md F)) (l : list (val F)) : list (md F) * res (list (val F)) :=
  match ns with
  | [] => (s, Ok [])
  | n :: t =>
      match l with
      | [] => (s, Err IndexError)
      | x :: lt =>
          match call n s x with
          | (s1, Err e) => (s1, Err e)
          | (s1, Ok v1) =>
              let '(s2, r) := npar_run t s1 lt in
              (s2, match r with Ok vs => Ok (v1 :: vs) | Err e => Err e end)
          end
      end
  end.

(** container.py:871-875, 881-886. *)
Fixpoint nbr_run (ns : list sn) (s : list (md F)) (v : val F) : list (md F) * res (list (val F)) :=
  match ns with
  | [] => (s, Ok [])
  | n :: t =>
      match call n s v with
      | (s1, Err e) => (s1, Err e)
      | (s1, Ok v1) =>
          let '(s2, r) := nbr_run t s1 v in
          (s2, match r with Ok vs => Ok (v1 :: vs) | Err e => Err e end)
      end
  end.

End Loops.

(** forward_step: container.py:639-648, 326-331, 871-879, 1048-1053. *)
Fixpoint sstep (n : sn) (upd : bool) (s : list (md F)) (v : val F) {struct n} : list (md F) * res (val F) :=
  match n with
  | NRef i => on_object (fun m v => xstep m v upd) i s v
  | NSeq ns => nseq_step (fun n => sstep n upd) ns s v
  | NPar ns =>
      match v with
      | VL l => xmap (fun s => s) VL (npar_run (fun n => sstep n upd) ns s l)
      | _ => (s, Err TypeError)
      end
  | NBR ns r =>
      match nbr_run (fun n => sstep n upd) ns s v with
      | (s', Err e) => (s', Err e)
      | (s', Ok vs) => (s', if forallb is_tensor vs then reduce_vals r vs else Ok VNone)
      end
  | NCond p D R a b =>
      if p v then sstep a upd s v
      else match b with Some b0 => sstep b0 upd s v | None => (s, Ok v) end
  end.

(** forward_steps: container.py:668-677, 333-340, 881-888, 1065-1070. *)
Fixpoint ssteps (n : sn) (pe upd : bool) (s : list (md F)) (v : val F) {struct n} : list (md F) * res (val F) :=
  match n with
  | NRef i => on_object (fun m v => xsteps m v pe upd) i s v
  | NSeq ns => nseq_steps (fun n => ssteps n pe upd) ns s v
  | NPar ns =>
      match v with
      | VL l => xmap (fun s => s) VL (npar_run (fun n => ssteps n pe upd) ns s l)
      | _ => (s, Err TypeError)
      end
  | NBR ns r =>
      match nbr_run (fun n => ssteps n pe upd) ns s v with
      | (s', Err e) => (s', Err e)
      | (s', Ok vs) => (s', reduce_vals r vs)
      end
  | NCond p D R a b =>
      if p v then ssteps a false true s v
      else match b with Some b0 => ssteps b0 false true s v | None => (s, Ok v) end
  end.

Section FLoops.
Variable call : sn -> val F -> res (val F).

(** container.py:633-637. *)
Fixpoint nseq_fwd (ns : list sn) (v : val F) : res (val F) :=
  match ns with
  | [] => Ok v
  | n :: t => v1 <- call n v ;; nseq_fwd t v1
  end.

(** container.py:342-347. *)
Fixpoint npar_fwd (ns : list sn) (l : list (val F)) : res (list (val F)) :=
  match ns with
  | [] => Ok []
  | n :: t =>
      match l with
      | [] => Err IndexError
      | x :: lt => v1 <- call n x ;; vs <- npar_fwd t lt ;; Ok (v1 :: vs)
      end
  end.

(** container.py:890-894. *)
Fixpoint nbr_fwd (ns : list sn) (v : val F) : res (list (val F)) :=
  match ns with
  | [] => Ok []
  | n :: t => v1 <- call n v ;; vs <- nbr_fwd t v ;; Ok (v1 :: vs)
  end.

End FLoops.

(** forward: container.py:633-637, 342-347, 890-896, 1041-1046. *)
Fixpoint sfwd (n : sn) (s : list (md F)) (v : val F) {struct n} : res (val F) :=
  match n with
  | NRef i => fwd (object s i) v
  | NSeq ns => nseq_fwd (fun n => sfwd n s) ns v
  | NPar ns =>
      match v with
      | VL l => vs <- npar_fwd (fun n => sfwd n s) ns l ;; Ok (VL vs)
      | _ => Err TypeError
      end
  | NBR ns r => vs <- nbr_fwd (fun n => sfwd n s) ns v ;; reduce_vals r vs
  | NCond p D R a b =>
      if p v then sfwd a s v
      else match b with Some b0 => sfwd b0 s v | None => Ok v end
  end.

Section SLoops.
Variable call : sn -> val F -> option (sst F) -> res (val F * option (sst F)).

(** container.py:650-658. *)
Fixpoint nseq_fstep (ns : list sn) (v : val F) (pl : list (option (sst F)))
  : res (val F * list (option (sst F))) :=
  match ns with
  | [] => Ok (v, pl)
  | n :: t =>
      '(p, pt) <- nth_state pl ;;
      '(v1, s1) <- call n v p ;;
      if is_none v1 then Ok (VNone, s1 :: pt)
      else '(v2, st) <- nseq_fstep t v1 pt ;; Ok (v2, s1 :: st)
  end.

(** container.py:318-324. *)
Fixpoint npar_fstep (ns : list sn) (l : list (val F)) (pl : list (option (sst F)))
  : res (list (val F) * list (option (sst F))) :=
  match ns with
  | [] => Ok ([], [])
  | n :: t =>
      match l with
      | [] => Err IndexError
      | x :: lt =>
          '(p, pt) <- nth_state pl ;;
          '(v1, s1) <- call n x p ;;
          '(vs, st) <- npar_fstep t lt pt ;; Ok (v1 :: vs, s1 :: st)
      end
  end.

(** container.py:860-866. *)
Fixpoint nbr_fstep (ns : list sn) (v : val F) (pl : list (option (sst F)))
  : res (list (val F) * list (option (sst F))) :=
  match ns with
  | [] => Ok ([], pl)
  | n :: t =>
      '(p, pt) <- nth_state pl ;;
      '(v1, s1) <- call n v p ;;
      '(vs, st) <- nbr_fstep t v pt ;; Ok (v1 :: vs, s1 :: st)
  end.

End SLoops.

(** _forward_step with explicit state, which is what gets exported: container.py:
    650-658, 315-324, 859-869, 1055-1063.  The state is a list with an entry per
    occurrence; the objects are not written to. *)
Fixpoint sfstep (n : sn) (s : list (md F)) (v : val F) (prev : option (sst F)) {struct n}
  : res (val F * option (sst F)) :=
  match n with
  | NRef i => fstep (object s i) v prev
  | NSeq ns =>
      pl <- prev_list prev (length ns) ;;
      '(w, ss) <- nseq_fstep (fun n => sfstep n s) ns v pl ;;
      Ok (w, Some (SN ss))
  | NPar ns =>
      match v with
      | VL l =>
          pl <- prev_list prev (length ns) ;;
          '(vs, ss) <- npar_fstep (fun n => sfstep n s) ns l pl ;;
          Ok (VL vs, Some (SN ss))
      | _ => Err TypeError
      end
  | NBR ns r =>
      pl <- prev_list prev (length ns) ;;
      '(vs, ss) <- nbr_fstep (fun n => sfstep n s) ns v pl ;;
      w <- (if forallb is_tensor vs then reduce_vals r vs else Ok VNone) ;;
      Ok (w, Some (SN ss))
  | NCond p D R a b =>
      let pick (i : nat) : res (option (sst F)) :=
        match prev with
        | None => Ok None
        | Some (SN []) => Ok None
        | Some (SN l) => match nth_error l i with Some st => Ok st | None => Err IndexError end
        | Some _ => Err ValueError
        end in
      if p v then st <- pick 0 ;; sfstep a s v st
      else match b with
           | Some b0 => st <- pick 1 ;; sfstep b0 s v st
           | None => Ok (v, match prev with
                            | None => Some (SN [None; None])
                            | Some (SN []) => Some (SN [None; None])
                            | _ => prev
                            end)
           end
  end.

(** clean_state: container.py:365-368, 714-717, 914-917 call it on every child, so
    an object is cleaned once per occurrence; Conditional inherits the empty method
    (module.py:184-186). *)
Fixpoint sclean (n : sn) (s : list (md F)) {struct n} : list (md F) :=
  match n with
  | NRef i => set_nth s i (clean (object s i))
  | NSeq ns | NPar ns | NBR ns _ =>
      (fix go (ns : list sn) (s : list (md F)) :=
         match ns with [] => s | n :: t => go t (sclean n s) end) ns s
  | NCond _ _ _ _ _ => s
  end.

(** A call inside [try: ... except: pass], and a history of such calls. *)
Definition scall (n : sn) (s : list (md F)) (c : call F) : list (md F) * res (val F) :=
  match c with
  | CStep v upd => sstep n upd s v
  | CSteps v pe upd => ssteps n pe upd s v
  | CForward v => (s, sfwd n s v)
  | CClean => (sclean n s, Ok VNone)
  end.

Fixpoint srun (n : sn) (s : list (md F)) (cs : list (call F)) : list (md F) * list (res (val F)) :=
  match cs with
  | [] => (s, [])
  | c :: t => let '(s1, r) := scall n s c in let '(s2, rs) := srun n s1 t in (s2, r :: rs)
  end.

(** Stepping with the state passed explicitly. *)
Fixpoint srun_fsteps (n : sn) (s : list (md F)) (st : option (sst F)) (vs : list (val F))
  : res (list (val F) * option (sst F)) :=
  match vs with
  | [] => Ok ([], st)
  | v :: t => '(w, st1) <- sfstep n s v st ;; '(ws, st2) <- srun_fsteps n s st1 t ;; Ok (w :: ws, st2)
  end.

End Share.
Arguments sn F : clear implicits.
