(** Specification vocabulary for networks of single-stream modules. *)
From Coq Require Import List ZArith Bool Arith.
From Verif Require Import Base Frames CoMod Leaf Rnn Net Spec LeafSpec.
Import ListNotations.

Section NetSpec.
Context {F : Type} {FA : Frames F}.

(** [forward_step] on a frame, for modules that return a frame or None. *)
Definition nstep (upd : bool) (m : md F) (x : F) : res (option F * md F) :=
  '(v, m') <- step m (VT x) upd ;;
  match v with
  | VT y => Ok (Some y, m')
  | VNone => Ok (None, m')
  | _ => Err TypeError
  end.

(** [forward_steps] on a clip; a None result is the empty list of outputs. *)
Definition nsteps (pe upd : bool) (m : md F) (xs : list F) : res (list F * md F) :=
  '(v, m') <- steps m (VS xs) pe upd ;;
  match v with
  | VS ys => Ok (ys, m')
  | VNone => Ok ([], m')
  | _ => Err TypeError
  end.

(** [forward] on a clip. *)
Definition nfwd (m : md F) (xs : list F) : res (list F) :=
  v <- fwd m (VS xs) ;;
  match v with VS ys => Ok ys | _ => Err TypeError end.

(** A predicate holds for all modules of a list. *)
Definition allP (P : md F -> Prop) (ms : list (md F)) : Prop :=
  fold_right (fun m Q => P m /\ Q) True ms.

(** Period of the emissions. *)
Fixpoint per (m : md F) : nat :=
  match m with
  | MConv c _ => cs c
  | MPool c _ => ps c
  | MSeq ms => fold_right (fun m a => per m * a) 1 ms
  | MBR (m :: _) _ => per m
  | _ => 1
  end.

Definition nonempty_list {A} (l : list A) : bool := match l with [] => false | _ => true end.

(** Number of frames that must still be fed before the next emission. *)
Fixpoint ph (m : md F) : nat :=
  match m with
  | MDelay d f sh o =>
      if Nat.eqb d 0 then 0
      else if nonempty_list (o_buf o) then Z.to_nat (- o_idx o)
      else match sh with ShTrue => 2 * d | _ => d end
  | MSkip n o => Z.to_nat (- o)
  | MConv c o =>
      if nonempty_list (o_buf o) then Z.to_nat (Z.of_nat (cs c) - 1 - o_str o)
      else ck c - 1 - cp c
  | MPool c o =>
      if nonempty_list (o_buf o) then Z.to_nat (Z.of_nat (ps c) - 1 - o_str o)
      else pd c * (pk c - 1) - pp c
  | MSeq ms => fold_right (fun m a => ph m + per m * a) 0 ms
  | MBR (m :: _) _ => ph m
  | _ => 0
  end.

(** Temporal configuration of a convolution for which the call protocol is
    regular: kernel size at least 2, or kernel size 1 with stride 1; padding less
    than the kernel size. *)
Record conv_reg (c : conv_cfg F) : Prop := {
  cr_k : 1 <= ck c;
  cr_s : 1 <= cs c;
  cr_p : cp c <= ck c - 1;
  cr_1 : ck c = 1 -> cs c = 1
}.

(** The same for pooling: any dilation. *)
Record pool_reg (c : pool_cfg F) : Prop := {
  pr_k : 1 <= pk c;
  pr_s : 1 <= ps c;
  pr_d : 1 <= pd c;
  pr_p : pp c <= pd c * (pk c - 1)
}.

(** Buffers consistent with the configuration: what every sequence of calls on a
    newly built network maintains.  The branches of a BroadcastReduce must emit
    at the same steps. *)
Fixpoint ok (m : md F) : Prop :=
  match m with
  | MDelay d f sh o =>
      d = 0 \/ o_buf o = [] \/ (length (o_buf o) = d /\ (o_idx o < Z.of_nat d)%Z)
  | MSkip n o => (o <= 0)%Z
  | MConv c o =>
      conv_reg c /\
      (o_buf o = [] \/
       (2 <= ck c /\ length (o_buf o) = ck c - 1 /\
        Forall (fun row => length row = ck c - 1) (o_buf o) /\
        (0 <= o_idx o < Z.of_nat (ck c - 1))%Z /\ (o_str o < Z.of_nat (cs c))%Z))
  | MPool c o =>
      pool_reg c /\
      (o_buf o = [] \/
       (length (o_buf o) = pool_buflen c /\
        (0 <= o_idx o < Z.of_nat (pk c))%Z /\ (o_str o < Z.of_nat (ps c))%Z))
  | MMap g => True
  | MRnn c o => match o with Some h => length h = length (r_cells c) | None => True end
  | MSeq ms => allP ok ms
  | MBR ms r =>
      allP ok ms /\
      match ms with
      | [] => False
      | m :: t => allP (fun m' => ph m' = ph m /\ per m' = per m) t
      end /\
      (r_min2 r = true -> 2 <= length ms)
  | _ => False
  end.

End NetSpec.
