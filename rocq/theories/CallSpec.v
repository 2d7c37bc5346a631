(** Specification vocabulary for call modes: which leaves a tree has, and how
    programs should behave if call_mode contexts were lexically scoped. *)
From Coq Require Import List ZArith Bool Arith Lia String.
From Verif Require Import Base CallMode.
Import ListNotations.
Open Scope list_scope.

(** The leaves that a call reaches, in order, given the branches taken. *)
Fixpoint leaves (pick : nat -> bool) (m : mtree) : list nat :=
  match m with
  | CoLeaf i | FsLeaf i => [i]
  | Cont _ _ l => flat_map (leaves pick) l
  | Cond i b0 b1 =>
      if pick i then leaves pick b0
      else match b1 with Some b1 => leaves pick b1 | None => [] end
  end.

(** All modules of a tree; forward_stepping modules are marked [true]. *)
Fixpoint ids (m : mtree) : list (bool * nat) :=
  match m with
  | CoLeaf i => [(false, i)]
  | FsLeaf i => [(true, i)]
  | Cont _ i l => (false, i) :: flat_map ids l
  | Cond i b0 b1 => (false, i) :: ids b0 ++ match b1 with Some b1 => ids b1 | None => [] end
  end.

(** The call mode of a module. *)
Definition get (st : store) (k : bool * nat) : cmval :=
  if fst k then fs st (snd k) else CTensor (co st (snd k)).

(** Trees without Conditional. *)
Fixpoint no_cond (m : mtree) : bool :=
  match m with
  | CoLeaf _ | FsLeaf _ => true
  | Cont _ _ l => forallb no_cond l
  | Cond _ _ _ => false
  end.

Definition is_fs (m : mtree) : bool := match m with FsLeaf _ => true | _ => false end.

(** Executing method [me] on leaf [i]. *)
Definition ev (me : meth) (i : nat) : nat * meth := (i, me).

(** No leaf that is reached raises. *)
Definition quiet (fails : nat -> meth -> option exn) (pick : nat -> bool) (me : meth) (m : mtree)
  : Prop :=
  Forall (fun i => fails i me = None) (leaves pick m).

(** The trees for which an explicit call of [me] works without a context: no
    leaf raises, no BroadcastReduce directly over a forward_stepping module, and
    no Conditional in forward. *)
Fixpoint ok_for (fails : nat -> meth -> option exn) (me : meth) (m : mtree) : bool :=
  match m with
  | CoLeaf i | FsLeaf i => match fails i me with None => true | Some _ => false end
  | Cont str _ l => forallb (fun ch => ok_for fails me ch && negb (str && is_fs ch)) l
  | Cond i b0 b1 =>
      match me with
      | Forward => false
      | _ => ok_for fails me b0 && match b1 with Some b1 => ok_for fails me b1 | None => true end
      end
  end.

Section Lex.
Variable fails : nat -> meth -> option exn.
Variable pick : nat -> bool.

(** Programs with lexically scoped contexts: [scope] is the mode of the innermost
    enclosing with statement. A wrong mode raises and has no other effect. *)
Fixpoint exec_lex (scope : option tref) (s : stmt) (st : store) {struct s} : outcome :=
  let fix execs (scope : option tref) (l : list stmt) (st : store) {struct l} : outcome :=
    match l with
    | [] => ([], None, st)
    | s :: l =>
        match exec_lex scope s st with
        | (tr, Some e, st) => (tr, Some e, st)
        | (tr, None, st) => let '(tr', e, st) := execs scope l st in (tr ++ tr', e, st)
        end
    end in
  match s with
  | SCall m => call fails pick scope m st
  | SRun m me => invoke fails pick scope m me st
  | SAssign m v =>
      match set_mode m v st with Ok st => ([], None, st) | Err e => ([], Some e, st) end
  | SWith v body =>
      match callmode v with
      | Ok t => execs (Some t) body st
      | Err e => ([], Some e, st)
      end
  | SRaise e => ([], Some e, st)
  | STry body => let '(tr, _, st) := execs scope body st in (tr, None, st)
  end.

Fixpoint execs_lex (scope : option tref) (l : list stmt) (st : store) {struct l} : outcome :=
  match l with
  | [] => ([], None, st)
  | s :: l =>
      match exec_lex scope s st with
      | (tr, Some e, st) => (tr, Some e, st)
      | (tr, None, st) => let '(tr', e, st) := execs_lex scope l st in (tr ++ tr', e, st)
      end
  end.

End Lex.

(** No with statement at all. *)
Fixpoint no_with (s : stmt) : bool :=
  match s with
  | SWith _ _ => false
  | STry b => forallb no_with b
  | _ => true
  end.

(** With statements with a valid mode, and not nested. *)
Fixpoint flat (s : stmt) : bool :=
  match s with
  | SWith v b => match callmode v with Ok _ => forallb no_with b | Err _ => false end
  | STry b => forallb flat b
  | _ => true
  end.

(** The program with all its with statements removed. *)
Fixpoint drop_with (s : stmt) : list stmt :=
  match s with
  | SWith _ b => flat_map drop_with b
  | STry b => [STry (flat_map drop_with b)]
  | s => [s]
  end.
