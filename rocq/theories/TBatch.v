(** Convolution, pooling and Delay when the batch size changes in mid-stream: torch
    broadcasts when tensors are added and when a frame is written into the buffer.
    [TConv.v], [TPool.v] and [TNet.v] have the same step code for one batch size. *)
From Coq Require Import List ZArith Bool Arith.
From Verif Require Import Base Frames CoMod Leaf Tensor TConv TPool TNet.
Import ListNotations.

(** A tensor with its batch size; the other dimensions are those of the stream. *)
Definition bat (K : Type) : Type := (nat * list K)%type.

Section TBatch.
Context {K : Type}.

(** [x.expand(n, ...)] of a tensor with batch size 1: the data repeated. *)
Definition tile (n : nat) (x : list K) : list K := concat (repeat x n).

(** Writing a tensor of batch size [b] to a place of batch size [n] ([buffer[i] = x]). *)
Definition put (n : nat) (x : bat K) : res (list K) :=
  if Nat.eqb (fst x) n then Ok (snd x)
  else if Nat.eqb (fst x) 1 then Ok (tile n (snd x))
  else Err RuntimeError.

(** [x + y]: either operand is expanded. *)
Definition plus {SC : Scal K} (x y : bat K) : res (bat K) :=
  if Nat.eqb (fst x) (fst y) then Ok (fst x, zadd (snd x) (snd y))
  else if Nat.eqb (fst x) 1 then Ok (fst y, zadd (tile (fst y) (snd x)) (snd y))
  else if Nat.eqb (fst y) 1 then Ok (fst x, zadd (snd x) (tile (fst x) (snd y)))
  else Err RuntimeError.

(** Batch size of a buffer: it is one tensor, all its entries have the same. *)
Definition batch_of {A} (l : list (nat * A)) : nat := match l with [] => 0 | p :: _ => fst p end.

(** ** Convolution *)
Section Conv.
Context {SC : Scal K}.
Variables (sp : list nat) (c : tconv K).

(** conv.py:143-155 and 200-278.  A row of the buffer is a tensor of shape
    (B, cout, k-1, *osp): its batch size and its k-1 frames.  Simplification: the
    kernel size is larger than one. *)
Definition tb_fstep (x : bat K) (prev : option (obj (nat * list (list K))))
  : res (option (bat K) * option (obj (nat * list (list K)))) :=
  let b := fst x in
  y <- t_one b sp c (snd x) ;;
  let x_out := slice2 b (t_cout c) (t_k c) (t_osp sp c) y 0 in
  let x_rest := map (slice2 b (t_cout c) (t_k c) (t_osp sp c) y) (seq 1 (t_k c - 1)) in
  let st := match prev with
            | None => let o := t_init c x_rest in Obj (map (fun r => (b, r)) (o_buf o)) (o_idx o) (o_str o)
            | Some s => s
            end in
  let buffer := o_buf st in
  let index := o_idx st in
  let stride_index := o_str st in
  let tot := t_k c - 1 in
  let n := batch_of buffer in
  let valid := Z.eqb stride_index (Z.of_nat (t_s c) - 1) in
  out <- (if valid then
            (g <- t_gather (map snd buffer) index tot ;;
             (* torch.sum over the first dimension: a tensor of the batch size of the buffer *)
             z <- plus (b, x_out) (n, fold_right zadd (tab (n :: t_cout c :: t_osp sp c) (fun _ => s0)) g) ;;
             Ok (match t_b c with Some v => (fst z, zadd (snd z) (t_bias (fst z) sp c v)) | None => z end))
          else Ok (b, x_out)) ;;
  row <- mapM (fun f => put n (b, f)) x_rest ;;
  nb <- setz buffer index (n, row) ;;
  let ns := (stride_index + 1)%Z in
  let ns := if Z.ltb 0 ns then (ns mod Z.of_nat (t_s c))%Z else ns in
  Ok (if valid then Some out else None, Some (Obj nb ((index + 1) mod Z.of_nat tot)%Z ns)).

Definition tb_forward_step (o : obj (nat * list (list K))) (x : bat K) (upd : bool) :=
  co_forward_step obj_get obj_set tb_fstep o x upd.
Definition tb_forward_steps (o : obj (nat * list (list K))) (xs : list (bat K)) (pe upd : bool) :=
  co_forward_steps obj_get obj_set tb_fstep (fun x => (fst x, t_pad c (snd x))) (t_p c) o xs pe upd.

End Conv.

(** ** Pooling (pooling.py:152-212) *)
Section Pool.
Context {P : Pool K}.
Variables (C : nat) (sp : list nat) (c : tpool).

Definition pb_fstep (x : bat K) (prev : option (obj (bat K))) : res (option (bat K) * option (obj (bat K))) :=
  let b := fst x in
  pooled <- p_space b C sp c (snd x) ;;
  let st := match prev with
            | Some s => s
            | None => let o := p_init c pooled in Obj (map (fun r => (b, r)) (o_buf o)) (o_idx o) (o_str o)
            end in
  let index := o_idx st in
  let stride_index := o_str st in
  let n := batch_of (o_buf st) in
  row <- put n (b, pooled) ;;
  buffer <- setz (o_buf st) index (n, row) ;;
  let ns := (stride_index + 1)%Z in
  let ns := if Z.ltb 0 ns then (ns mod Z.of_nat (p_s c))%Z else ns in
  let out := if Z.eqb stride_index (Z.of_nat (p_s c) - 1) then Some (n, p_time n C sp c (map snd buffer)) else None in
  Ok (out, Some (Obj buffer ((index + 1) mod Z.of_nat (p_k c))%Z ns)).

Definition pb_forward_step (o : obj (bat K)) (x : bat K) (upd : bool) :=
  co_forward_step obj_get obj_set pb_fstep o x upd.
Definition pb_forward_steps (o : obj (bat K)) (xs : list (bat K)) (pe upd : bool) :=
  co_forward_steps obj_get obj_set pb_fstep (fun x => (fst x, p_pad c (snd x))) (p_p c) o xs pe upd.

End Pool.

(** ** Delay (delay.py:65-126), at least one step *)
Section Delay.
Context {SC : Scal K}.
Variables (d : nat) (fl : fill).

Definition db_fstep (x : bat K) (prev : option (obj (bat K))) : res (option (bat K) * option (obj (bat K))) :=
  let st := match prev with
            | Some s => s
            | None => let o := kd_init d fl (snd x) in Obj (map (fun r => (fst x, r)) (o_buf o)) (o_idx o) (o_str o)
            end in
  let n := batch_of (o_buf st) in
  output <- (if Z.leb 0 (o_idx st) then (y <- getz (o_buf st) (o_idx st) ;; Ok (Some y)) else Ok None) ;;
  row <- put n x ;;
  buffer' <- setz (o_buf st) (o_idx st mod Z.of_nat d)%Z (n, row) ;;
  let ni := (o_idx st + 1)%Z in
  let ni := if Z.ltb 0 ni then (ni mod Z.of_nat d)%Z else ni in
  Ok (output, Some (Obj buffer' ni (o_str st))).

Definition db_forward_step (o : obj (bat K)) (x : bat K) (upd : bool) :=
  co_forward_step obj_get obj_set db_fstep o x upd.
Definition db_forward_steps (o : obj (bat K)) (xs : list (bat K)) (pe upd : bool) :=
  co_forward_steps obj_get obj_set db_fstep (fun x => (fst x, kfill fl (snd x))) d o xs pe upd.

End Delay.
End TBatch.
