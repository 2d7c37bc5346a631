(** Leaf modules with temporal state: Delay, Skip, convolutions, pooling. *)
From Coq Require Import List ZArith Bool Arith Permutation.
From Verif Require Import Base Frames CoMod.
Import ListNotations.

Section Leaf.
Context {F : Type} {FA : Frames F}.

(* ------------------------------------------------------------------ *)
(** ** Delay (continual/delay.py) *)

(** delay.py:54: allowed values of [auto_shrink]. *)
Inductive shrink := ShNo | ShTrue | ShCentered | ShLagging.

(** delay.py:65-76 [Delay.init_state]. *)
Definition delay_init (d : nat) (m : fill) (sh : shrink) (x : F) : obj F :=
  Obj (repeat (make_padding m x) d)
      (match sh with ShTrue => (-2 * Z.of_nat d)%Z | _ => (- Z.of_nat d)%Z end) 0.

(** delay.py:90-111 [Delay._forward_step]. *)
Definition delay_fstep (d : nat) (m : fill) (sh : shrink)
    (x : F) (prev : option (obj F)) : res (option F * option (obj F)) :=
  if Nat.eqb d 0 then Ok (Some x, prev)
  else
    let st := match prev with None => delay_init d m sh x | Some s => s end in
    let buffer := o_buf st in
    let index := o_idx st in
    output <- (if Z.leb 0 index then (y <- getz buffer index ;; Ok (Some y))
               else Ok None) ;;
    buffer' <- setz buffer (index mod Z.of_nat d)%Z x ;;
    let ni := (index + 1)%Z in
    let ni := if Z.ltb 0 ni then (ni mod Z.of_nat d)%Z else ni in
    Ok (output, Some (Obj buffer' ni (o_str st))).

(** delay.py:113-117 [Delay.forward_step]. *)
Definition delay_forward_step d m sh (o : obj F) (x : F) (upd : bool)
  : res (option F * obj F) :=
  if Nat.eqb d 0 then Ok (Some x, o)
  else co_forward_step obj_get obj_set (delay_fstep d m sh) o x upd.

(** delay.py:119-126 [Delay.forward_steps]; [padding] is temporarily [(delay,)].
    The clip itself is returned for delay 0. *)
Definition delay_forward_steps d m sh (o : obj F) (xs : list F) (pe upd : bool)
  : res (option (list F) * obj F) :=
  if Nat.eqb d 0 then Ok (Some xs, o)
  else co_forward_steps obj_get obj_set (delay_fstep d m sh) (make_padding m)
         d o xs pe upd.

(** delay.py:128-134 [Delay.forward]. *)
Definition delay_forward (d : nat) (sh : shrink) (xs : list F) : list F :=
  match sh with
  | ShNo => xs
  | ShLagging => if Nat.eqb d 0 then xs else slice_ab 0 d xs
  | _ => if Nat.eqb d 0 then xs else slice_ab d d xs
  end.

(* ------------------------------------------------------------------ *)
(** ** Skip (continual/skip.py) *)

(** skip.py:44-57 [Skip._forward_step]. *)
Definition skip_fstep (n : nat) (x : F) (prev : option Z)
  : res (option F * option Z) :=
  let index := match prev with None => (- Z.of_nat n)%Z | Some i => i end in
  if Z.leb 0 index then Ok (Some x, Some index)
  else Ok (None, Some (index + 1)%Z).

(** skip.py:38-42 [get_state] / [set_state]. *)
Definition skip_get (i : Z) : option Z := Some i.
Definition skip_set (i s : Z) : Z := s.
(** skip.py:33 and 35-36: construction and [clean_state]. *)
Definition skip_init (n : nat) : Z := (- Z.of_nat n)%Z.

(** skip.py:59-60 [Skip.forward]. *)
Definition skip_forward (n : nat) (xs : list F) : list F := skipn n xs.

(** Skip inherits forward_step/forward_steps from CoModule
    (module.py:192-246) with padding (0,) (module.py:116). *)
Definition skip_forward_step n (o : Z) (x : F) (upd : bool) :=
  co_forward_step skip_get skip_set (skip_fstep n) o x upd.
Definition skip_forward_steps n (o : Z) (xs : list F) (pe upd : bool) :=
  co_forward_steps skip_get skip_set (skip_fstep n) (fun _ : F => f0) 0 o xs pe upd.

(* ------------------------------------------------------------------ *)
(** ** Convolutions (continual/conv.py, [_ConvCoNd]) *)

(** Temporal configuration: kernel_size[0], stride[0], padding[0], the taps, the
    bias, [padding_mode] (used by [forward]) and [t_padding_mode] (used when
    stepping), conv.py:68-107.  dilation[0] = 1 is asserted at conv.py:83. *)
Record conv_cfg := {
  ck : nat; cs : nat; cp : nat;
  cW : nat -> F -> F;
  cb : option F;
  cmode : fill;
  cfill : fill
}.

(** conv.py:125-127 [_stateless]. *)
Definition conv_stateless (c : conv_cfg) : bool :=
  Nat.eqb (ck c) 1 && Nat.eqb (cp c) 0 && Nat.eqb (cs c) 1.

(** conv.py:288-325 [_ConvCoNd.forward].  torch refuses a clip without frames. *)
Definition conv_forward (c : conv_cfg) (xs : list F) : res (list F) :=
  match xs with
  | [] => Err RuntimeError
  | _ =>
    xs' <- pad_time (cmode c) (cp c) xs ;;
    xcorr (cW c) (cb c) (ck c) (cs c) xs'
  end.

(** conv.py:143-155 [init_state]; the buffer has k-1 rows, each a (possibly
    zeroed) copy of [x_rest]. *)
Definition conv_init (c : conv_cfg) (x_rest : list F) : obj (list F) :=
  let buf := repeat (map (make_padding (cfill c)) x_rest) (ck c - 1) in
  Obj buf 0 (Z.of_nat (cs c) - Z.of_nat (length buf) - 1 + Z.of_nat (cp c)).

(** conv.py:245-255: gather [buffer[(m+index) % tot][..., tot-1-m]], m < tot. *)
Definition conv_gather (buffer : list (list F)) (index : Z) (tot : nat)
  : res (list F) :=
  mapM (fun m =>
          row <- getz buffer ((Z.of_nat m + index) mod Z.of_nat tot)%Z ;;
          getz row (Z.of_nat (tot - 1 - m)))
       (seq 0 tot).

(** conv.py:200-278 [_forward_step_py] (called by [_forward_step], line 198).
    The temporal part of the convolution of a single frame is computed with
    padding k-1 and stride 1 (conv.py:113-119, 209-228): spatial padding belongs
    to the taps. *)
Definition conv_fstep (c : conv_cfg) (x : F) (prev : option (obj (list F)))
  : res (option F * option (obj (list F))) :=
  if conv_stateless c then
    ys <- conv_forward c [x] ;;
    y <- getz ys 0 ;;
    Ok (Some y, prev)
  else
    xp <- pad_time Zeros (ck c - 1) [x] ;;
    xs <- xcorr (cW c) None (ck c) 1 xp ;;
    x_out <- getz xs 0 ;;
    let x_rest := skipn 1 xs in
    let st := match prev with None => conv_init c x_rest | Some s => s end in
    let buffer := o_buf st in
    let index := o_idx st in
    let stride_index := o_str st in
    let tot := (ck c - 1)%nat in
    let valid := Z.eqb stride_index (Z.of_nat (cs c) - 1) in
    out <- (if valid then
              (g <- conv_gather buffer index tot ;;
               Ok (add_bias (cb c) (fadd x_out (fsum g))))
            else Ok x_out) ;;
    '(nb, nidx) <- (if Nat.ltb 1 (ck c) then
              (b' <- setz buffer index x_rest ;;
               Ok (b', ((index + 1) mod Z.of_nat tot)%Z))
            else Ok (buffer, index)) ;;
    let ns := (stride_index + 1)%Z in
    let ns := if Z.ltb 0 ns then (ns mod Z.of_nat (cs c))%Z else ns in
    Ok (if valid then Some out else None, Some (Obj nb nidx ns)).

(** module.py:192-219 and conv.py:280-286. *)
Definition conv_forward_step c (o : obj (list F)) (x : F) (upd : bool) :=
  co_forward_step obj_get obj_set (conv_fstep c) o x upd.
Definition conv_forward_steps c (o : obj (list F)) (xs : list F) (pe upd : bool) :=
  co_forward_steps obj_get obj_set (conv_fstep c) (make_padding (cfill c))
    (cp c) o xs pe upd.

(** conv.py:327-329 [receptive_field] with dilation 1. *)
Definition conv_rf (c : conv_cfg) : nat := ck c + (ck c - 1) * (1 - 1).

(** Reported delay of a convolution, module.py:188-190 with conv.py:327-329. *)
Definition conv_delay (c : conv_cfg) : nat := conv_rf c - 1 - cp c.

(* ------------------------------------------------------------------ *)
(** ** Pooling (continual/pooling.py, [_PoolNd]) *)

(** kernel_size[0], stride[0], padding[0], dilation[0], spatial pooling,
    temporal aggregation ([AdaptiveAvgPool1d(1)] or [AdaptiveMaxPool1d(1)]),
    stepping fill, and the padding value of the regular torch pooling (zeros for
    AvgPool, -inf for MaxPool). *)
Record pool_cfg := {
  pk : nat; ps : nat; pp : nat; pd : nat;
  psp : F -> F;
  pagg : list F -> F;
  pfill : fill;
  pmode : fill;
  pfdil : nat   (* dilation used by torch's forward: [pd] for MaxPool, 1 for AvgPool *)
}.

(** Regular [nn.AvgPoolNd.forward] / [nn.MaxPoolNd.forward] along time.  torch
    refuses padding larger than half of the (effective) kernel, and a clip
    without frames. *)
Definition pool_forward (c : pool_cfg) (xs : list F) : res (list F) :=
  if Nat.ltb (pfdil c * (pk c - 1) + 1) (2 * pp c) then Err RuntimeError
  else match xs with
  | [] => Err RuntimeError
  | _ =>
    xs' <- pad_time (pmode c) (pp c) xs ;;
    xpool (pagg c) (pk c) (ps c) (pfdil c) (map (psp c) xs')
  end.

(** pooling.py:158: [buf_len]. *)
Definition pool_buflen (c : pool_cfg) : nat := pd c * (pk c - 1) + 1.

(** pooling.py:152-166 [init_state]. *)
Definition pool_init (c : pool_cfg) (x : F) : obj F :=
  Obj (repeat (make_padding (pfill c) x) (pool_buflen c)) 0
      (Z.of_nat (ps c) - Z.of_nat (pool_buflen c) + Z.of_nat (pp c)).

(** pooling.py:180-212 [_forward_step]; [range(0, k*d, d)] has k entries
    (pooling.py:139-146). *)
Definition pool_fstep (c : pool_cfg) (x : F) (prev : option (obj F))
  : res (option F * option (obj F)) :=
  let pooled := psp c x in
  let st := match prev with Some s => s | None => pool_init c pooled end in
  let index := o_idx st in
  let stride_index := o_str st in
  buffer <- setz (o_buf st) index pooled ;;
  let next_index := ((index + 1) mod Z.of_nat (pk c))%Z in
  let ns := (stride_index + 1)%Z in
  let ns := if Z.ltb 0 ns then (ns mod Z.of_nat (ps c))%Z else ns in
  out <- (if Z.eqb stride_index (Z.of_nat (ps c) - 1) then
            sel <- (if Nat.eqb (pd c) 1 then Ok buffer
                    else mapM (fun i =>
                           getz buffer ((Z.of_nat (i * pd c) + next_index)
                                        mod Z.of_nat (length buffer))%Z)
                         (seq 0 (pk c))) ;;
            Ok (Some (pagg c sel))
          else Ok None) ;;
  Ok (out, Some (Obj buffer next_index ns)).

(** module.py:192-219, pooling.py:214-219. *)
Definition pool_forward_step c (o : obj F) (x : F) (upd : bool) :=
  co_forward_step obj_get obj_set (pool_fstep c) o x upd.
Definition pool_forward_steps c (o : obj F) (xs : list F) (pe upd : bool) :=
  co_forward_steps obj_get obj_set (pool_fstep c) (make_padding (pfill c))
    (pp c) o xs pe upd.

(** pooling.py:221-223 [receptive_field]. *)
Definition pool_rf (c : pool_cfg) : nat := pd c * pk c.

(** Reported delay: module.py:188-190 with pooling.py:221-223. *)
Definition pool_delay (c : pool_cfg) : nat := pool_rf c - 1 - pp c.

End Leaf.
Arguments conv_cfg F : clear implicits.
Arguments pool_cfg F : clear implicits.
