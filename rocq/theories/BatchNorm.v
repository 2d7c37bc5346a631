(** Normalisation modules that are converted as they are: nn.BatchNorm1d/2d/3d and nn.GroupNorm
    (convert.py:149-154), which forward_stepping (convert.py:38-113) calls on clips of one
    frame.  torch's nn.modules.batchnorm._BatchNorm.forward, F.batch_norm and F.group_norm in exact
    arithmetic.

    A frame is the list of all values of one channel (of one sample and group, for group
    normalisation): channels do not affect each other.  [nrm v] is 1/sqrt(v + eps), which
    is any function here.  Simplification: frames have at least one value. *)
From Coq Require Import List ZArith Bool Arith QArith Qcanon.
From Verif Require Import Base.
Import ListNotations.
Open Scope nat_scope.

Definition qn (n : nat) : Qc := Q2Qc (inject_Z (Z.of_nat n)).
Definition qsum (xs : list Qc) : Qc := fold_right Qcplus 0%Qc xs.
Definition mean (xs : list Qc) : Qc := (qsum xs / qn (length xs))%Qc.
Definition dev2 (xs : list Qc) : Qc := qsum (map (fun x => (x - mean xs) * (x - mean xs))%Qc xs).
(** The variance that normalises, and the one that enters running_var. *)
Definition var (xs : list Qc) : Qc := (dev2 xs / qn (length xs))%Qc.
Definition unbiased (xs : list Qc) : Qc := (dev2 xs / qn (length xs - 1))%Qc.

Section Norm.
Variable nrm : Qc -> Qc.

Definition affine (w b m v x : Qc) : Qc := ((x - m) * nrm v * w + b)%Qc.

(** nn.BatchNorm: track_running_stats, momentum, weight and bias; running_mean, running_var and
    num_batches_tracked. *)
Record bn := { b_track : bool; b_momentum : option Qc; b_w : Qc; b_b : Qc }.
Record stats := { r_mean : Qc; r_var : Qc; r_count : nat }.
Definition reset : stats := {| r_mean := 0%Qc; r_var := 1%Qc; r_count := 0 |}.

(** exponential_average_factor, after num_batches_tracked has been increased. *)
Definition factor (c : bn) (count : nat) : Qc :=
  match b_momentum c with Some f => f | None => (1 / qn count)%Qc end.
Definition running (c : bn) (s : stats) (xs : list Qc) : stats :=
  let f := factor c (S (r_count s)) in
  {| r_mean := ((1 - f) * r_mean s + f * mean xs)%Qc; r_var := ((1 - f) * r_var s + f * unbiased xs)%Qc;
     r_count := S (r_count s) |}.

(** forward on a clip; forward_steps is the same (convert.py:68-74).  F.batch_norm refuses a single
    value per channel when it takes the statistics from the input; the
    counter has been increased then. *)
Definition bn_call (c : bn) (training : bool) (s : stats) (clip : list (list Qc)) : stats * res (list (list Qc)) :=
  let xs := concat clip in
  let tracks := training && b_track c in
  if training || negb (b_track c) then
    if Nat.eqb (length xs) 1 then
      (if tracks then {| r_mean := r_mean s; r_var := r_var s; r_count := S (r_count s) |} else s, Err ValueError)
    else (if tracks then running c s xs else s,
          Ok (map (map (affine (b_w c) (b_b c) (mean xs) (var xs))) clip))
  else (s, Ok (map (map (affine (b_w c) (b_b c) (r_mean s) (r_var s))) clip)).

(** forward_step, convert.py:61-66: a clip of one frame; update_state is not used. *)
Definition bn_step (c : bn) (training : bool) (s : stats) (x : list Qc) (update_state : bool) : stats * res (list Qc) :=
  let '(s, r) := bn_call c training s [x] in (s, y <- r ;; Ok (hd [] y)).

(** Steps, up to the first exception. *)
Fixpoint bn_run (c : bn) (training : bool) (s : stats) (xs : list (list Qc * bool)) : stats * res (list (list Qc)) :=
  match xs with
  | [] => (s, Ok [])
  | (x, upd) :: xs =>
      let '(s, r) := bn_step c training s x upd in
      match r with
      | Err e => (s, Err e)
      | Ok y => let '(s, r) := bn_run c training s xs in (s, ys <- r ;; Ok (y :: ys))
      end
  end.

(** nn.GroupNorm: the statistics of the sample, over time too, in both modes. *)
Definition gn_call (w b : Qc) (clip : list (list Qc)) : list (list Qc) :=
  let xs := concat clip in map (map (affine w b (mean xs) (var xs))) clip.
Definition gn_step (w b : Qc) (x : list Qc) : list Qc := hd [] (gn_call w b [x]).

End Norm.

(** What running statistics should be: an exponential average, newest last. *)
Definition exponential (f start : Qc) (ms : list Qc) : Qc :=
  ((1 - f) ^ length ms * start
   + qsum (map (fun t => f * (1 - f) ^ (length ms - 1 - t) * nth t ms 0) (seq 0 (length ms))))%Qc.
