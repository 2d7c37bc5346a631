(** Networks as the ONNX export sees them: the leaves of [Net.v] with their state
    tuples, [_state_shape] and [_dynamic_state_inds]. *)
From Coq Require Import List ZArith Bool Arith.
From Verif Require Import Base Frames CoMod Leaf Rnn Net.
From Verif Require Onnx.
Import Onnx (Leaf, OLeaf, OPure, OSeq, OPar, OBR, OCond, ONone, OX, OL).
Import ListNotations.

Section OnnxNet.
Context {F : Type} {FA : Frames F}.

(** State tensors: a buffer of frames, a buffer of rows of partial sums
    (conv.py:143-155), a counter, or one hidden tensor of a recurrent module with
    an entry for every layer (rnn.py:196-202, 670-678). *)
Inductive ten := TBuf (l : list F) | TRows (l : list (list F)) | TIdx (i : Z) | THid (l : list F).

(** Tensors passed between modules: frames or clips. *)
Inductive fr := FF (x : F) | FC (xs : list F).

Fixpoint to_o (v : val F) : Onnx.oval :=
  match v with
  | VNone => ONone
  | VT x => OX (FF x)
  | VS xs => OX (FC xs)
  | VL l => OL (map to_o l)
  end.
Fixpoint of_o (v : @Onnx.oval fr) : val F :=
  match v with
  | ONone => VNone
  | OX (FF x) => VT x
  | OX (FC xs) => VS xs
  | OL l => VL (map of_o l)
  end.

(** Stateless modules hand the state through. *)
Definition pure (f : val F -> res (val F)) : @Onnx.om fr ten :=
  OPure (fun v => w <- f (of_o v) ;; Ok (to_o w)).

(** [_forward_step] of a leaf on state tuples: [dec] takes the tuple apart
    ([buffer, index, stride_index = prev_state]; a wrong number of tensors raises),
    [enc] is the tuple returned. *)
Definition on_tuple {S} (dec : list ten -> res S) (enc : S -> list ten)
    (f : F -> option S -> res (option F * option S)) (x : fr) (p : option (list ten))
  : res (option fr * list ten) :=
  match x with
  | FC _ => Err TypeError
  | FF x =>
      s <- match p with None => Ok None | Some l => s <- dec l ;; Ok (Some s) end ;;
      '(y, s') <- f x s ;;
      match s' with Some s' => Ok (option_map FF y, enc s') | None => Err TypeError end
  end.

(** delay.py:82-88, 90-95, 111: (buffer, index). *)
Definition enc_delay (s : obj F) : list ten := [TBuf (o_buf s); TIdx (o_idx s)].
Definition dec_delay (l : list ten) : res (obj F) :=
  match l with [TBuf b; TIdx i] => Ok (Obj b i 0) | _ => Err ValueError end.
(** skip.py:38-42, 44-57. *)
Definition enc_skip (i : Z) : list ten := [TIdx i].
Definition dec_skip (l : list ten) : res Z :=
  match l with [TIdx i] => Ok i | _ => Err ValueError end.
(** conv.py:162-168, 230-236, 278. *)
Definition enc_conv (s : obj (list F)) : list ten := [TRows (o_buf s); TIdx (o_idx s); TIdx (o_str s)].
Definition dec_conv (l : list ten) : res (obj (list F)) :=
  match l with [TRows b; TIdx i; TIdx j] => Ok (Obj b i j) | _ => Err ValueError end.
(** pooling.py:173-178, 180-190, 212. *)
Definition enc_pool (s : obj F) : list ten := [TBuf (o_buf s); TIdx (o_idx s); TIdx (o_str s)].
Definition dec_pool (l : list ten) : res (obj F) :=
  match l with [TBuf b; TIdx i; TIdx j] => Ok (Obj b i j) | _ => Err ValueError end.
(** rnn.py:187-194, 210-217 (one tensor), 661-668, 686-692 (LSTM: two). [n] tensors,
    each with one entry per layer; [Rnn.v] keeps the [n] entries of a layer together. *)
Definition enc_rnn (n : nat) (hs : list (hid F)) : list ten :=
  map (fun j => THid (map (fun h => nth j h f0) hs)) (seq 0 n).
Fixpoint hids (l : list ten) : res (list (list F)) :=
  match l with
  | [] => Ok []
  | THid a :: l => r <- hids l ;; Ok (a :: r)
  | _ :: _ => Err ValueError
  end.
Definition dec_rnn (layers : nat) (l : list ten) : res (list (hid F)) :=
  ts <- hids l ;;
  Ok (map (fun i => map (fun a => nth i a f0) ts) (seq 0 layers)).

(** delay.py:38-44, skip.py:20-25, conv.py:129-141, pooling.py:59-60,
    rnn.py:116-117, 334-335, 588-589, and 0 for the stateless modules
    (container.py:179-180, 440-441, 524-525, linear.py:61-62, closure.py:56-57,
    shape.py:18-19, convert.py:96). The
    object's state is [None] while its buffer is empty. *)
Fixpoint emb (m : md F) : @Onnx.om fr ten :=
  match m with
  | MDelay d f sh o =>
      if Nat.eqb d 0
      then pure (fun v => match v with VT x => Ok (VT x) | _ => Err TypeError end)
      else OLeaf (Leaf [true; false] (on_tuple dec_delay enc_delay (delay_fstep d f sh)) true)
             (option_map enc_delay (obj_get o))
  | MSkip n i => OLeaf (Leaf [false] (on_tuple dec_skip enc_skip (skip_fstep n)) true) (Some (enc_skip i))
  | MConv c o =>
      if conv_stateless c
      then pure (fun v => match v with
                          | VT x => ys <- conv_forward c [x] ;; y <- getz ys 0 ;; Ok (VT y)
                          | _ => Err TypeError
                          end)
      else OLeaf (Leaf [true; false; false] (on_tuple dec_conv enc_conv (conv_fstep c)) true)
             (option_map enc_conv (obj_get o))
  | MPool c o =>
      OLeaf (Leaf [true; false; false] (on_tuple dec_pool enc_pool (pool_fstep c)) true)
        (option_map enc_pool (obj_get o))
  | MMap g => pure (fun v => match v with VT x => Ok (VT (g x)) | _ => Err TypeError end)
  | MRnn c o =>
      let n := length (r_h0 c) in
      OLeaf (Leaf (repeat true n)
               (on_tuple (dec_rnn (length (r_cells c))) (enc_rnn n) (rnn_fstep c)) true)
        (option_map (enc_rnn n) o)
  | MSeq ms => OSeq (map emb ms)
  | MBroadcast n => pure (broadcast_val n)
  | MPar ms => OPar (map emb ms)
  | MDispatch d => pure (dispatch_val d)
  | MReduce r => pure (reduce_step r)
  | MBR ms r => OBR (map emb ms) (fun l => w <- reduce_vals r (map of_o l) ;; Ok (to_o w))
  | MCond p _ _ a b => OCond (fun v => p (of_o v)) (emb a) (option_map emb b)
  end.

End OnnxNet.
Arguments ten F : clear implicits.
Arguments fr F : clear implicits.
