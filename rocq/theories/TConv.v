(** [_ConvCoNd] (continual/conv.py) on whole tensors: channels, groups, bias and
    any number of spatial dimensions.  [Leaf.v] models the same code with the
    taps as abstract maps between frames. *)
From Coq Require Import List ZArith Bool Arith.
From Verif Require Import Base Frames CoMod Tensor.
Import ListNotations.

Section TConv.
Context {K : Type} {SC : Scal K}.

(** Constructor arguments, conv.py:44-119.  Heads of [t_ks], [t_ss], [t_ps] are the
    temporal kernel size, stride and padding; dilation[0] = 1 is asserted at
    conv.py:83, the dilations of the other dimensions are [t_ds]. *)
Record tconv := {
  t_cin : nat; t_cout : nat; t_g : nat;
  t_k : nat; t_ks : list nat;
  t_s : nat; t_ss : list nat;
  t_p : nat; t_ps : list nat;
  t_ds : list nat;
  t_w : list K; t_b : option (list K);
  t_mode : fill;    (* padding_mode: Zeros or Replicate *)
  t_fill : fill     (* temporal_fill: Zeros or Replicate *)
}.

(** Batch size and spatial size of the frames of a stream. *)
Variables (B : nat) (sp : list nat).
Variable c : tconv.

(** Spatial size of the output frames. *)
Definition t_osp : list nat := out_dims sp (t_ks c) (t_ss c) (t_ps c) (t_ds c).

Definition zs (l : list nat) : list nat := map (fun _ => 0) l.

(** conv.py:125-127 [_stateless]. *)
Definition t_stateless : bool := Nat.eqb (t_k c) 1 && Nat.eqb (t_p c) 0 && Nat.eqb (t_s c) 1.

(** conv.py:288-325 [forward] on a clip of [T] frames, shape (B, cin, T, *sp). *)
Definition t_forward (T : nat) (x : list K) : res (list K) :=
  match t_mode c with
  | Zeros =>
      convnd B (t_cin c) (t_cout c) (t_g c) (T :: sp) (t_k c :: t_ks c) (t_s c :: t_ss c)
        (t_p c :: t_ps c) (1 :: t_ds c) (t_w c) (t_b c) x
  | _ =>
      if forallb (Nat.leb 1) (T :: sp) then
        convnd B (t_cin c) (t_cout c) (t_g c) (grow (T :: sp) (t_p c :: t_ps c)) (t_k c :: t_ks c)
          (t_s c :: t_ss c) (zs (t_p c :: t_ps c)) (1 :: t_ds c) (t_w c) (t_b c)
          (reppad B (t_cin c) (T :: sp) (t_p c :: t_ps c) x)
      else Err RuntimeError
  end.

(** conv.py:209-228: the convolution of one frame, seen as a clip of one frame
    ([unsqueeze(2)] does not change the data). *)
Definition t_one (x : list K) : res (list K) :=
  match t_mode c with
  | Zeros =>
      convnd B (t_cin c) (t_cout c) (t_g c) (1 :: sp) (t_k c :: t_ks c) (1 :: t_ss c)
        ((t_k c - 1) :: t_ps c) (1 :: t_ds c) (t_w c) None x
  | _ =>
      if forallb (Nat.leb 1) sp then
        convnd B (t_cin c) (t_cout c) (t_g c) (grow (1 :: sp) (0 :: t_ps c)) (t_k c :: t_ks c)
          (1 :: t_ss c) ((t_k c - 1) :: zs (t_ps c)) (1 :: t_ds c) (t_w c) None
          (reppad B (t_cin c) (1 :: sp) (0 :: t_ps c) x)
      else Err RuntimeError
  end.

(** conv.py:104-107 [_make_padding]. *)
Definition t_pad (x : list K) : list K := match t_fill c with Zeros => zlike x | _ => x end.

(** conv.py:143-155 [init_state].  The buffer of shape (k-1, B, cout, k-1, *osp) is
    kept as k-1 rows of k-1 frames. *)
Definition t_init (x_rest : list (list K)) : obj (list (list K)) :=
  let buf := repeat (map t_pad x_rest) (t_k c - 1) in
  Obj buf 0 (Z.of_nat (t_s c) - Z.of_nat (length buf) - 1 + Z.of_nat (t_p c)).

(** conv.py:245-255: [buffer[(m+index) % tot, :, :, tot-1-m]], m < tot. *)
Definition t_gather (buffer : list (list (list K))) (index : Z) (tot : nat) : res (list (list K)) :=
  mapM (fun m =>
          row <- getz buffer ((Z.of_nat m + index) mod Z.of_nat tot)%Z ;;
          getz row (Z.of_nat (tot - 1 - m)))
       (seq 0 tot).

(** conv.py:257-261: the bias of every channel, broadcast over batch and space. *)
Definition t_bias (v : list K) : list K :=
  tab (B :: t_cout c :: t_osp) (fun ix => match ix with _ :: o :: _ => nth o v s0 | _ => s0 end).

(** conv.py:200-278 [_forward_step_py]. *)
Definition t_fstep (x : list K) (prev : option (obj (list (list K))))
  : res (option (list K) * option (obj (list (list K)))) :=
  if t_stateless then
    y <- t_forward 1 x ;;
    Ok (Some (slice2 B (t_cout c) 1 t_osp y 0), prev)
  else
    y <- t_one x ;;
    let x_out := slice2 B (t_cout c) (t_k c) t_osp y 0 in
    let x_rest := map (slice2 B (t_cout c) (t_k c) t_osp y) (seq 1 (t_k c - 1)) in
    let st := match prev with None => t_init x_rest | Some s => s end in
    let buffer := o_buf st in
    let index := o_idx st in
    let stride_index := o_str st in
    let tot := t_k c - 1 in
    let valid := Z.eqb stride_index (Z.of_nat (t_s c) - 1) in
    out <- (if valid then
              (g <- t_gather buffer index tot ;;
               let y := zadd x_out (fold_right zadd (zlike x_out) g) in
               Ok (match t_b c with Some v => zadd y (t_bias v) | None => y end))
            else Ok x_out) ;;
    '(nb, nidx) <- (if Nat.ltb 1 (t_k c) then
              (b' <- setz buffer index x_rest ;;
               Ok (b', ((index + 1) mod Z.of_nat tot)%Z))
            else Ok (buffer, index)) ;;
    let ns := (stride_index + 1)%Z in
    let ns := if Z.ltb 0 ns then (ns mod Z.of_nat (t_s c))%Z else ns in
    Ok (if valid then Some out else None, Some (Obj nb nidx ns)).

(** module.py:192-219 and conv.py:280-286. *)
Definition t_forward_step (o : obj (list (list K))) (x : list K) (upd : bool) :=
  co_forward_step obj_get obj_set t_fstep o x upd.
Definition t_forward_steps (o : obj (list (list K))) (xs : list (list K)) (pe upd : bool) :=
  co_forward_steps obj_get obj_set t_fstep t_pad (t_p c) o xs pe upd.

(** conv.py:327-329 and module.py:188-190. *)
Definition t_delay : nat := t_k c + (t_k c - 1) * (1 - 1) - 1 - t_p c.

End TConv.
Arguments tconv K : clear implicits.
