(** Frames (one time step of a tensor) and the temporal part of torch's
    convolution and pooling. *)
From Coq Require Import List ZArith Bool Arith Permutation.
From Verif Require Import Base.
Import ListNotations.

(** A frame is [x[:, :, t]].  The temporal code only needs the all-zeros frame
    ([torch.zeros_like]), the frame made by [neginf_like] (utils.py:250-251) and
    torch's addition of two frames.  Nothing is assumed about them: they may
    round, overflow or produce NaN.  Simplification: shapes and dtypes are not
    part of a frame. *)
Class Frames (F : Type) := {
  f0 : F;
  finf : F;
  fadd : F -> F -> F
}.

(** The laws of exact arithmetic.  Only the theorems that mention [FrameLaws]
    use them; all the others hold for floating point numbers as well. *)
Class FrameLaws (F : Type) {FA : Frames F} : Prop := {
  fadd_comm : forall a b : F, fadd a b = fadd b a;
  fadd_assoc : forall a b c : F, fadd a (fadd b c) = fadd (fadd a b) c;
  fadd_0_l : forall a : F, fadd f0 a = a
}.

(** module.py:21-24: PaddingMode. *)
Inductive fill := Zeros | Replicate | NegInf.

Section Time.
Context {F : Type} {FA : Frames F}.

(** conv.py:104-107, pooling.py:95-99, delay.py:57-59: [_make_padding]. *)
Definition make_padding (m : fill) (x : F) : F :=
  match m with Zeros => f0 | Replicate => x | NegInf => finf end.

(** [torch.sum(..., dim=0)]: exact sum. *)
Definition fsum (l : list F) : F := fold_right fadd f0 l.

(** Temporal padding done by [F.convNd(padding=p)] (zeros), by
    [F.pad(mode="replicate")] and by torch's max pooling (minus infinity). *)
Definition pad_time (m : fill) (p : nat) (xs : list F) : res (list F) :=
  match m with
  | Zeros => Ok (repeat f0 p ++ xs ++ repeat f0 p)
  | NegInf => Ok (repeat finf p ++ xs ++ repeat finf p)
  | Replicate =>
      match xs with
      | [] => Err RuntimeError
      | x :: _ => Ok (repeat x p ++ xs ++ repeat (last xs x) p)
      end
  end.

Definition add_bias (b : option F) (y : F) : F :=
  match b with Some v => fadd y v | None => y end.

(** torch [F.conv1d/2d/3d] along time, without padding: output [j] is
    [bias + sum_i W_i x_(j*s+i)].  [W i] is the spatial/channel part of tap [i].
    Raises if the (padded) input is shorter than the kernel. *)
Definition xcorr (W : nat -> F -> F) (b : option F) (k s : nat) (xs : list F)
  : res (list F) :=
  if Nat.ltb (length xs) k then Err RuntimeError
  else Ok (map (fun j =>
             add_bias b (fsum (map (fun i => W i (nth (j * s + i) xs f0)) (seq 0 k))))
           (seq 0 ((length xs - k) / s + 1))).

(** torch [nn.AvgPoolNd / nn.MaxPoolNd] along time on already padded and
    spatially pooled frames: output [j] aggregates frames [j*s + i*d], i < k.
    Simplification: [ceil_mode=False]. *)
Definition xpool (agg : list F -> F) (k s d : nat) (xs : list F) : res (list F) :=
  if Nat.ltb (length xs) (d * (k - 1) + 1) then Err RuntimeError
  else Ok (map (fun j => agg (map (fun i => nth (j * s + i * d) xs f0) (seq 0 k)))
           (seq 0 ((length xs - (d * (k - 1) + 1)) / s + 1))).

End Time.
