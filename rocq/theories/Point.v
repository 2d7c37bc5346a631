(** Stateless modules (continual/closure.py, linear.py, shape.py, convert.py) and
    the recycling positional encoding (continual/positional_encoding.py). *)
From Coq Require Import List ZArith Bool Arith.
From Verif Require Import Base Frames Net.
Import ListNotations.

(* ------------------------------------------------------------------ *)
(** ** Lambda *)
Section Lambda.
Context {F : Type}.

(** closure.py:59-80 [Lambda.__init__] attributes.  Functions take and return
    tensors: a frame ([VT]) or a clip ([VS]). *)
Record lam := {
  l_fn : option (val F -> res (val F));
  l_fwd : option (val F -> res (val F));        (* forward_only_fn *)
  l_step : option (val F -> res (val F));       (* forward_step_only_fn *)
  l_steps : option (val F -> res (val F));      (* forward_steps_only_fn *)
  l_time : bool                                 (* takes_time *)
}.

(** closure.py:68-74: the assertion of the constructor. *)
Definition mk_lam (l : lam) : res lam :=
  match l_fn l, l_fwd l, l_step l, l_steps l with
  | Some _, _, _, _ => Ok l
  | None, Some _, Some _, Some _ => Ok l
  | _, _, _, _ => Err AssertionError
  end.

(** Calling [self.fn]; None is not callable. *)
Definition call_fn (f : option (val F -> res (val F))) (v : val F) : res (val F) :=
  match f with Some g => g v | None => Err TypeError end.

(** [x.unsqueeze(dim=2)] of a frame and [x.squeeze(dim=2)], which leaves tensors
    alone unless they have exactly one time step. *)
Definition unsqueeze (v : val F) : res (val F) :=
  match v with VT x => Ok (VS [x]) | _ => Err TypeError end.
Definition squeeze (v : val F) : val F :=
  match v with VS [x] => VT x | _ => v end.

(** [torch.stack(l, dim=2)] of frames; raises for an empty list.  Simplification:
    stacking clips (giving a tensor with one more dimension) is an error here. *)
Fixpoint all_frames (l : list (val F)) : res (list F) :=
  match l with
  | [] => Ok []
  | VT x :: t => xs <- all_frames t ;; Ok (x :: xs)
  | _ => Err TypeError
  end.
Definition stack (l : list (val F)) : res (val F) :=
  match l with [] => Err RuntimeError | _ => xs <- all_frames l ;; Ok (VS xs) end.

(** closure.py:111-120 and 122-131: [forward] and [forward_steps], given the
    function reserved for that mode. *)
Definition lam_clip (special : option (val F -> res (val F))) (l : lam) (v : val F) : res (val F) :=
  match special with
  | Some g => g v
  | None =>
      if l_time l then call_fn (l_fn l) v
      else match v with
           | VS xs => ys <- mapM (fun x => call_fn (l_fn l) (VT x)) xs ;; stack ys
           | _ => Err IndexError
           end
  end.
Definition lam_forward (l : lam) (v : val F) : res (val F) := lam_clip (l_fwd l) l v.
(** closure.py:122: the flags are not used. *)
Definition lam_forward_steps (l : lam) (v : val F) (pe upd : bool) : res (val F) := lam_clip (l_steps l) l v.

(** closure.py:136-146 [_forward_step] (the state is passed through). *)
Definition lam_fstep (l : lam) (v : val F) : res (val F) :=
  match l_step l with
  | Some g => g v
  | None =>
      if l_time l then u <- unsqueeze v ;; w <- call_fn (l_fn l) u ;; Ok (squeeze w)
      else call_fn (l_fn l) v
  end.
(** closure.py:133-134 [forward_step]. *)
Definition lam_forward_step (l : lam) (v : val F) (upd : bool) : res (val F) := lam_fstep l v.

(** An elementwise torch function. *)
Definition elementwise (g : F -> F) (v : val F) : res (val F) :=
  match v with VT x => Ok (VT (g x)) | VS xs => Ok (VS (map g xs)) | _ => Err TypeError end.

(** closure.py:149-220: Multiply, Add, Identity, Constant, Zero and One are all
    [Lambda(fn, takes_time=True)] for an elementwise [fn]. *)
Definition lam_elementwise (g : F -> F) : lam :=
  {| l_fn := Some (elementwise g); l_fwd := None; l_step := None; l_steps := None; l_time := true |}.

(** convert.py:54-59, 61-66, 68-74: the methods added by [forward_stepping] to a
    module whose forward on clips is [func]. *)
Definition fs_forward_step (func : val F -> res (val F)) (v : val F) (upd : bool) : res (val F) :=
  u <- unsqueeze v ;; w <- func u ;; Ok (squeeze w).
Definition fs_forward_steps (func : val F -> res (val F)) (v : val F) (pe upd : bool) : res (val F) := func v.

End Lambda.
Arguments lam F : clear implicits.

(* ------------------------------------------------------------------ *)
(** ** Linear *)
Section Linear.
Context {R : Type}.
Variables (r0 : R) (radd rmul : R -> R -> R).

(** linear.py:64-74: weight (a row per output feature), bias, channel_dim.  The
    input has shape (B, C) or (B, C, T); one sample is modelled: a frame is its
    list of channels and a clip a list of [C] rows of length [T]. *)
Record linear_cfg := { lin_W : list (list R); lin_b : list R; lin_in : nat; lin_dim : Z }.

Definition dot (u v : list R) : R := fold_right radd r0 (map (fun p => rmul (fst p) (snd p)) (combine u v)).

(** torch [linear] on the last axis; raises if its size is not in_features. *)
Definition lin_vec (c : linear_cfg) (v : list R) : res (list R) :=
  if Nat.eqb (length v) (lin_in c)
  then Ok (map (fun p => radd (dot (fst p) v) (snd p)) (combine (lin_W c) (lin_b c)))
  else Err RuntimeError.

(** [swapaxes] of the two axes of a matrix with [n] columns. *)
Definition transpose (n : nat) (rows : list (list R)) : list (list R) :=
  map (fun i => map (fun r => nth i r r0) rows) (seq 0 n).

(** linear.py:79-88 [forward] on a tensor of shape (B, C): axes -1 and 1 coincide;
    axis 2 does not exist. *)
Definition lin_frame (c : linear_cfg) (x : list R) : res (list R) :=
  if Z.eqb (lin_dim c) (-1) || Z.eqb (lin_dim c) 1 then lin_vec c x else Err IndexError.

(** linear.py:79-88 [forward] on a tensor of shape (B, C, T), given as [C] rows of
    length [T]. *)
Definition lin_clip (c : linear_cfg) (T : nat) (x : list (list R)) : res (list (list R)) :=
  if Z.eqb (lin_dim c) (-1) || Z.eqb (lin_dim c) 1 || Z.eqb (lin_dim c) 2 then
    let swap := Z.eqb (lin_dim c) 1 in      (* swapping axis 2 with axis -1 does nothing *)
    let x1 := if swap then transpose T x else x in
    let size := if swap then length x else T in
    if Nat.eqb size (lin_in c) then
      y <- mapM (lin_vec c) x1 ;;
      Ok (if swap then transpose (length (combine (lin_W c) (lin_b c))) y else y)
    else Err RuntimeError
  else Err IndexError.

(** linear.py:90-91, 96-97: forward_step and forward_steps call forward. *)
Definition lin_forward_step (c : linear_cfg) (x : list R) (upd : bool) := lin_frame c x.
Definition lin_forward_steps (c : linear_cfg) (T : nat) (x : list (list R)) (pe upd : bool) := lin_clip c T x.

End Linear.
Arguments linear_cfg R : clear implicits.

(* ------------------------------------------------------------------ *)
(** ** Reshape *)
Section Reshape.
Context {R : Type}.

(** A tensor: its shape and its entries in row-major order. *)
Record tensor := { t_dims : list Z; t_data : list R }.

Definition zprod (l : list Z) : Z := fold_right Z.mul 1%Z l.

(** [x.reshape(shape)]: one entry may be -1 and is inferred. *)
Definition resolve (numel : Z) (shape : list Z) : res (list Z) :=
  let known := filter (fun d => negb (Z.eqb d (-1))) shape in
  let p := zprod known in
  if existsb (fun d => Z.ltb d (-1)) shape then Err RuntimeError
  else match length shape - length known with
       | 0 => if Z.eqb p numel then Ok shape else Err RuntimeError
       | 1 => if Z.eqb p 0 then Err RuntimeError
              else if Z.eqb (numel mod p) 0
                   then Ok (map (fun d => if Z.eqb d (-1) then numel / p else d)%Z shape)
                   else Err RuntimeError
       | _ => Err RuntimeError
       end.
Definition reshape (shape : list Z) (x : tensor) : res tensor :=
  d <- resolve (Z.of_nat (length (t_data x))) shape ;; Ok {| t_dims := d; t_data := t_data x |}.

(** shape.py:61-65 [_forward_step]; [contiguous] does not change values. *)
Definition rs_forward_step (shape : list Z) (x : tensor) (upd : bool) : res tensor := reshape shape x.

(** [moveaxis(0, 2)] after a reshape to (T, d1, d2, ...): frame [t] is the [t]-th
    block of [n] entries. *)
Fixpoint blocks (n T : nat) (l : list R) : list (list R) :=
  match T with O => [] | S T => firstn n l :: blocks n T (skipn n l) end.

(** shape.py:48-53 [forward]: the frames in time-major order are reshaped together
    with the time dimension first; [moveaxis(0, 2)] needs three dimensions. *)
Definition rs_forward (shape : list Z) (xs : list tensor) : res (list tensor) :=
  let T := length xs in
  big <- reshape (Z.of_nat T :: shape)
           {| t_dims := []; t_data := concat (map t_data xs) |} ;;
  match t_dims big with
  | [] | [_] | [_; _] => Err IndexError
  | _ :: d => Ok (map (fun b => {| t_dims := d; t_data := b |})
                      (blocks (Z.to_nat (zprod d)) T (t_data big)))
  end.
(** shape.py:55-56. *)
Definition rs_forward_steps (shape : list Z) (xs : list tensor) (pe upd : bool) := rs_forward shape xs.
End Reshape.
Arguments tensor R : clear implicits.

(* ------------------------------------------------------------------ *)
(** ** Recycling positional encoding *)
Section Rpe.
Context {F : Type} {FA : Frames F}.

(** positional_encoding.py:136-148: embeddings [E 0 ... E (N-1)], N =
    num_embeds, and forward_update_index_steps.  The object is [state_index]. *)
Record rpe := { p_N : nat; p_E : nat -> F; p_upd : Z }.

(** [self.pe(ids)]: nn.Embedding raises for indices out of range. *)
Definition embed (c : rpe) (i : Z) : res F :=
  if Z.leb 0 i && Z.ltb i (Z.of_nat (p_N c)) then Ok (p_E c (Z.to_nat i)) else Err IndexError.

(** Tensor remainder; the remainder by zero raises. *)
Definition tmod (a b : Z) : res Z := if Z.eqb b 0 then Err RuntimeError else Ok (a mod b)%Z.

(** positional_encoding.py:150-165 [forward]; [k] is update_index_steps. *)
Definition rpe_forward (c : rpe) (idx : Z) (xs : list F) (k : option Z) : res (list F * Z) :=
  let N := Z.of_nat (p_N c) in
  if Nat.leb (length xs) (p_N c) then
    ids <- mapM (fun t => tmod (Z.of_nat t + idx) N) (seq 0 (length xs)) ;;
    idx' <- tmod (idx + match k with None => p_upd c | Some k => k end) N ;;
    es <- mapM (embed c) ids ;;
    Ok (map (fun p => fadd (fst p) (snd p)) (combine xs es), idx')
  else Err AssertionError.

(** positional_encoding.py:167-170 [forward_steps]. *)
Definition rpe_forward_steps (c : rpe) (idx : Z) (xs : list F) (pe upd : bool) : res (list F * Z) :=
  rpe_forward c idx xs (Some (if upd then Z.of_nat (length xs) else 0%Z)).

(** positional_encoding.py:172-177 [forward_step]. *)
Definition rpe_forward_step (c : rpe) (idx : Z) (x : F) (upd : bool) : res (F * Z) :=
  e <- embed c idx ;;
  idx' <- (if upd then tmod (idx + 1) (Z.of_nat (p_N c)) else Ok idx) ;;
  Ok (fadd x e, idx').

(** positional_encoding.py:179-189 [_forward_step] and 191-193 [init_state], which
    also assigns the attribute: the result contains the new [state_index]. *)
Definition rpe_fstep (c : rpe) (idx : Z) (x : F) (prev : option Z) : res (F * Z * Z) :=
  let '(s, idx1) := match prev with None => (0%Z, 0%Z) | Some s => (s, idx) end in
  e <- embed c s ;;
  s' <- tmod (s + 1) (Z.of_nat (p_N c)) ;;
  Ok (fadd x e, s', idx1).

(** positional_encoding.py:195-196 [clean_state]. *)
Definition rpe_clean (idx : Z) : Z := 0%Z.
End Rpe.
Arguments rpe F : clear implicits.
