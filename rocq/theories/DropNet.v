(** Networks with nn.Dropout in training mode: a Sequential (container.py:558-677) of
    networks of continual modules and of nn.Dropout modules that forward_stepping
    (convert.py:38-113, 155-160) lets act on single frames.

    A dropout module [l] treats the frames that it gets one after the other.  Its draws
    for the [n]-th of them are a function [mk l n] on frames, which is arbitrary here.
    torch's generator determines them; steps and forward use it in another order, so
    that the same seed does not give the same draws. *)
From Coq Require Import List ZArith Bool Arith.
From Verif Require Import Base Frames CoMod Leaf Rnn Net Spec NetSpec NetDef Calls.
Import ListNotations.

Section DropNet.
Context {F : Type} {FA : Frames F}.
Variable mk : nat -> nat -> F -> F.

(** [Drop l n]: dropout module [l], which has treated [n] frames. *)
Inductive stage := Plain (m : md F) | Drop (l n : nat).

(** forward_step of a stage; nn.Dropout gets a clip of one frame (convert.py:61-66). *)
Definition stage_step (s : stage) (x : F) : res (option F * stage) :=
  match s with
  | Plain m => '(y, m) <- nstep true m x ;; Ok (y, Plain m)
  | Drop l n => Ok (Some (mk l n x), Drop l (S n))
  end.

(** Sequential.forward_step, container.py:639-648: it stops at the first None. *)
Fixpoint chain_step (ss : list stage) (x : F) : res (option F * list stage) :=
  match ss with
  | [] => Ok (Some x, [])
  | s :: ss =>
      '(y, s) <- stage_step s x ;;
      match y with
      | None => Ok (None, s :: ss)
      | Some y => '(z, ss) <- chain_step ss y ;; Ok (z, s :: ss)
      end
  end.

(** nn.Dropout on a clip: each frame has its own draws. *)
Fixpoint dropped_from (l n : nat) (xs : list F) : list F :=
  match xs with [] => [] | x :: xs => mk l n x :: dropped_from l (S n) xs end.

(** Sequential.forward, container.py:633-637. *)
Definition stage_fwd (s : stage) (xs : list F) : res (list F) :=
  match s with Plain m => nfwd m xs | Drop l n => Ok (dropped_from l n xs) end.
Fixpoint chain_fwd (ss : list stage) (xs : list F) : res (list F) :=
  match ss with [] => Ok xs | s :: ss => ys <- stage_fwd s xs ;; chain_fwd ss ys end.

(** forward_steps of a stage without end padding (convert.py:68-74 for nn.Dropout), and
    Sequential.forward_steps, container.py:668-677: it stops when there are no frames. *)
Definition stage_steps (s : stage) (xs : list F) : res (list F * stage) :=
  match s with
  | Plain m => '(ys, m) <- nsteps false true m xs ;; Ok (ys, Plain m)
  | Drop l n => Ok (dropped_from l n xs, Drop l (n + length xs))
  end.
Fixpoint chain_steps (ss : list stage) (xs : list F) : res (list F * list stage) :=
  match ss with
  | [] => Ok (xs, [])
  | s :: ss =>
      match xs with
      | [] => Ok ([], s :: ss)
      | _ => '(ys, s) <- stage_steps s xs ;; '(zs, ss) <- chain_steps ss ys ;; Ok (zs, s :: ss)
      end
  end.

(** A stream given piece by piece, as frames or as clips. *)
Definition chain_chunk (ss : list stage) (c : chunk F) : res (list F * list stage) :=
  match c with
  | Frame x => '(y, ss) <- chain_step ss x ;; Ok (match y with Some z => [z] | None => [] end, ss)
  | Clip xs => chain_steps ss xs
  end.
Fixpoint chain_chunks (ss : list stage) (cs : list (chunk F)) : res (list F * list stage) :=
  match cs with
  | [] => Ok ([], ss)
  | c :: cs => '(ys, ss) <- chain_chunk ss c ;; '(zs, ss) <- chain_chunks ss cs ;; Ok (ys ++ zs, ss)
  end.

(** Networks that are clean, and dropout modules that start counting. *)
Definition fresh_stage (sh : bool) (s : stage) : Prop := match s with Plain m => net sh m | Drop _ n => n = 0 end.

(** The networks alone; the dropout modules report delay 0, receptive field 1, stride 1
    and padding 0 (convert.py:88-91), which change none of the sums of the container. *)
Fixpoint nets (ss : list stage) : list (md F) :=
  match ss with [] => [] | Plain m :: ss => m :: nets ss | Drop _ _ :: ss => nets ss end.

(** How many frames reach each dropout module when the chain gets [n] frames. *)
Fixpoint reached (ss : list stage) (n : nat) : list nat :=
  match ss with
  | [] => []
  | Plain m :: ss => reached ss (length (filter (emits (Z.to_nat (del m)) (Z.to_nat (strd m))) (seq 0 n)))
  | Drop _ _ :: ss => n :: reached ss n
  end.
Fixpoint drop_counts (ss : list stage) : list nat :=
  match ss with [] => [] | Plain _ :: ss => drop_counts ss | Drop _ n :: ss => n :: drop_counts ss end.

(** forward of the modules that drop whole channels (nn.Dropout2d, nn.Dropout3d): one draw
    [f] for all frames of a clip. *)
Definition channel_fwd (f : F -> F) (xs : list F) : list F := map f xs.

End DropNet.
Arguments stage F : clear implicits.
