(** Logging (continual/logging.py:30-59). A logger's [_log] method is wrapped by
    [getLogger]; the wrappers are kept as a list, the outermost first. *)
From Coq Require Import List Bool ZArith.
From Verif Require Import Base.
Import ListNotations.

Section Logging.
(** [M]: the arguments of a call of [_log] (level, message, arguments, keywords).
    [hash]: Python's hash of them; None if some argument cannot be hashed. *)
Context {M : Type}.
Variable hash : M -> option Z.

(** [once] with its set [mem], [if_rank_zero]. *)
Inductive wrapper := Once (mem : list Z) | RankZero.

(** Calling the wrapped [_log]: the new wrappers, whether the logger's own method is
    reached, and whether a TypeError is raised. logging.py:33-39, 45-49. *)
Fixpoint call (rank : nat) (ws : list wrapper) (m : M) : list wrapper * bool * bool :=
  match ws with
  | [] => ([], true, false)
  | RankZero :: ws =>
      if Nat.eqb rank 0
      then let '(ws, out, err) := call rank ws m in (RankZero :: ws, out, err)
      else (RankZero :: ws, false, false)
  | Once mem :: ws =>
      match hash m with
      | None => (Once mem :: ws, false, true)
      | Some h =>
          if existsb (Z.eqb h) mem then (Once mem :: ws, false, false)
          else let '(ws, out, err) := call rank ws m in (Once (h :: mem) :: ws, out, err)
      end
  end.

(** logging.py:54-59; torch's logging.getLogger returns the same object each time. *)
Definition get_logger (log_once : bool) (ws : list wrapper) : list wrapper :=
  RankZero :: (if log_once then Once [] :: ws else ws).

(** A history of one logger. *)
Inductive event := Get (log_once : bool) | Log (m : M).

(** The messages that reach the logger's own method. *)
Fixpoint emitted (rank : nat) (ws : list wrapper) (l : list event) : list M :=
  match l with
  | [] => []
  | Get b :: l => emitted rank (get_logger b ws) l
  | Log m :: l =>
      let '(ws, out, _) := call rank ws m in
      (if out then [m] else []) ++ emitted rank ws l
  end.

(** The messages for which the call raises. *)
Fixpoint raised (rank : nat) (ws : list wrapper) (l : list event) : list M :=
  match l with
  | [] => []
  | Get b :: l => raised rank (get_logger b ws) l
  | Log m :: l =>
      let '(ws, _, err) := call rank ws m in
      (if err then [m] else []) ++ raised rank ws l
  end.
End Logging.

(** Python's hash of small integers: -1 is taken for errors in C. *)
Definition int_hash (n : Z) : Z := if Z.eqb n (-1) then (-2)%Z else n.

(** A call [logger.warning(msg, *args)] with integer arguments: the hash of a tuple is
    a function [th] of the hashes of its elements. *)
Definition log_hash (th : list Z -> Z) (m : Z * Z * list Z) : option Z :=
  let '(level, msg, args) := m in
  Some (th [int_hash level; msg; th (map int_hash args)]).
