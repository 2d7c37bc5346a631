(** The transformer encoders (continual/transformer.py) on whole tensors: the tree of modules
    that the constructors build, and what each module does in each call mode.  [Trans.v]
    models the same layers token by token and always by method name.

    A module is called in one of two ways.  A container calls its children with the call
    mode it runs in.  A [Lambda] and the plain modules of torch.nn call [self.fn(x)]; if that
    is a continual module, module.py:347 decides: the mode of the surrounding
    [co.call_mode] context if there is one, else the mode stored in the module, which is
    "forward" ([Lambda] has no [__len__], so setting [call_mode] on a network does not reach
    it, module.py:333-339). *)
From Coq Require Import List ZArith Bool Arith.
From Verif Require Import Base Frames CoMod Leaf Attn Trans CallMode Tensor TAttn TPoint.
Import ListNotations.

(** Frames of the delays.  Simplification: padding and addition are not used on these
    frames; a padding frame is written as an empty tensor. *)
#[export] Instance tens_frames {K} : Frames (tens K) := {| f0 := T [] []; finf := T [] []; fadd x _ := x |}.

Section TEnc.
Context {K : Type} {NK : Num K}.

(** ** Operations on tensors *)

Definition same_shape (a b : list nat) : bool := if list_eq_dec Nat.eq_dec a b then true else false.

(** [x + y].  Simplification: operands of different shapes raise; torch broadcasts some. *)
Definition t_add (x y : tens K) : res (tens K) :=
  if same_shape (sh x) (sh y) then Ok (mk (sh x) (fun ix => kadd (get x ix) (get y ix)))
  else Err RuntimeError.
(** [f(x)] for a function that acts on every entry. *)
Definition t_map (f : K -> K) (x : tens K) : tens K := mk (sh x) (fun ix => f (get x ix)).
(** [nn.LayerNorm(n)], or any function of the rows of the last dimension. *)
Definition t_norm (n : nat) (f : list K -> list K) (x : tens K) : res (tens K) :=
  if negb (Nat.eqb (length (sh x)) 0) && Nat.eqb (last (sh x) 0) n then
    Ok (mk (sh x) (fun ix => nth (last ix 0) (f (map (fun e => get x (removelast ix ++ [e])) (seq 0 n))) k0))
  else Err RuntimeError.
(** [x[:, :, t]] for [t in range(x.shape[2])]. *)
Definition t_frames (x : tens K) : res (list (tens K)) :=
  match nth_error (sh x) 2 with
  | None => Err IndexError
  | Some t => Ok (map (fun i => select 2 i x) (seq 0 t))
  end.
(** [torch.stack(xs, dim=2)]. *)
Definition t_stack (xs : list (tens K)) : res (tens K) :=
  match xs with
  | [] => Err RuntimeError
  | x :: _ => if forallb (fun y => same_shape (sh x) (sh y)) xs && Nat.leb 2 (length (sh x)) then Ok (stack 2 xs)
              else Err RuntimeError
  end.
(** [x[:, :, -n:]] for n > 0. *)
Definition t_last (n : nat) (x : tens K) : tens K :=
  let t := nth 2 (sh x) 0 in
  mk (firstn 2 (sh x) ++ Nat.min n t :: skipn 3 (sh x))
     (fun ix => get x (firstn 2 ix ++ t - Nat.min n t + nth 2 ix 0 :: skipn 3 ix)).
(** [x.unsqueeze(2)]. *)
Definition t_unsqueeze (x : tens K) : res (tens K) :=
  if Nat.leb 2 (length (sh x)) then Ok (unsqueeze 2 x) else Err IndexError.

(** container.py:64-66 [reduce_sum] and transformer.py:147-151 [sum_last_pairs]; clips with
    no frames are not modelled (there [x[:, :, -0:]] is the whole clip). *)
Fixpoint t_sum (x : tens K) (l : list (tens K)) : res (tens K) :=
  match l with [] => Ok x | y :: l => z <- t_add x y ;; t_sum z l end.
Definition t_reduce_sum (xs : list (tens K)) : res (tens K) :=
  match xs with x :: y :: l => t_sum x (y :: l) | _ => Err AssertionError end.
Definition t_sum_last (xs : list (tens K)) : res (tens K) :=
  match xs with
  | x :: y :: l =>
      if same_shape (sh x) (sh y) then t_sum x (y :: l)
      else match mapM (fun z => match nth_error (sh z) 2 with Some t => Ok t | None => Err IndexError end) xs with
           | Err e => Err e
           | Ok ts => let n := fold_right Nat.min (hd 0 ts) ts in
                      t_sum (t_last n x) (map (t_last n) (y :: l))
           end
  | _ => Err IndexError
  end.
(** container.py:99-106 [nonempty]. *)
Fixpoint somes {A} (l : list (option A)) : option (list A) :=
  match l with
  | [] => Some []
  | Some a :: t => option_map (cons a) (somes t)
  | None :: _ => None
  end.
Definition empty_batch (x : tens K) : bool := Nat.eqb (hd 0 (sh x)) 0.
Definition t_reduce (last_pairs : bool) (outs : list (option (tens K))) : res (option (tens K)) :=
  match somes outs with
  | None => Ok None
  | Some xs => if existsb empty_batch xs then Ok None
               else y <- (if last_pairs then t_sum_last xs else t_reduce_sum xs) ;; Ok (Some y)
  end.

(** ** Modules *)

Inductive tmod :=
| MSeq (l : list tmod)                       (* co.Sequential *)
| MBR (last_pairs : bool) (l : list tmod)    (* co.BroadcastReduce, reduce = sum_last_pairs or "sum" *)
| MNN (l : list tmod)                        (* nn.Sequential *)
| MNaive (m : tmod)                          (* NaiveResidual, transformer.py:138-144 *)
| MLam (retro takes_time : bool) (fn : tmod) (* co.Lambda, RetroactiveLambda *)
| MOut                                       (* Lambda(unity, None, squeeze_last, squeeze_last, takes_time=True), transformer.py:563-572 *)
| MLin (channel_dim : Z) (cin cout : nat) (w : list K) (b : option (list K))
| MNorm (n : nat) (f : list K -> list K)     (* nn.LayerNorm *)
| MFun (f : K -> K)                          (* a function of entries *)
| MDrop                                      (* nn.Dropout in evaluation mode, converted by forward_stepping *)
| MPos (P n : nat) (emb : nat -> list K) (steps : nat) (* RecyclingPositionalEncoding *)
| MDel (select : bool) (d : nat)             (* co.Delay(d) without auto_shrink, SelectOrDelay(d) *)
| MUni (d : nat)                             (* RetroactiveUnity(d) *)
| MSO (a : tattn K) (query_index : Z) (single_output_forward : bool)
| MRE (a : tattn K).

(** States: of the children, of a delay, of an attention module.  [SNone] is the state after
    construction. *)
Inductive tstate :=
| SNone
| SList (l : list tstate)
| SPos (i : nat)
| SObj (o : obj (tens K))
| SSo (o : option (list (so_state (K := K)) * nat)) (h : cells)
| SRe (o : option (list (re_state (K := K)) * nat)) (h : cells).
Definition kids (s : tstate) : list tstate := match s with SList l => l | _ => [] end.
Definition pos_of (s : tstate) : nat := match s with SPos i => i | _ => 0 end.
Definition obj_of (s : tstate) : obj (tens K) := match s with SObj o => o | _ => obj_init end.
Definition so_of (s : tstate) := match s with SSo o h => (o, h) | _ => (None, []) end.
Definition re_of (s : tstate) := match s with SRe o h => (o, h) | _ => (None, []) end.

(** Modules whose [__call__] follows the call mode; the others are plain. *)
Definition is_co (m : tmod) : bool :=
  match m with MNN _ | MNaive _ | MNorm _ _ | MFun _ => false | _ => true end.
(** The mode in which [m(x)] runs when it is called outside of a container (module.py:347). *)
Definition mode_of (ctx : option meth) (m : tmod) : meth :=
  match ctx with Some c => if is_co m then c else Forward | None => Forward end.

Notation out := (res (option (tens K) * tstate)).

(** container.py:633-648, 668-677 [Sequential.forward], [forward_step], [forward_steps]. *)
Definition chain (me : meth) (ex : tmod -> tstate -> tens K -> out) :=
  fix go (l : list tmod) (ss : list tstate) (x : tens K) : res (option (tens K) * list tstate) :=
    match l with
    | [] => Ok (Some x, [])
    | m :: l =>
        if match me with Steps => empty_batch x | _ => false end then Ok (None, ss)
        else '(y, s) <- ex m (hd SNone ss) x ;;
             match y with
             | Some y => '(z, ss') <- go l (tl ss) y ;; Ok (z, s :: ss')
             | None => match l, me with
                       | _ :: _, Forward => Err TypeError
                       | _, _ => Ok (None, s :: tl ss)
                       end
             end
    end.
(** container.py:871-897: all children get the same input. *)
Definition fan (ex : tmod -> tstate -> tens K -> out) :=
  fix go (l : list tmod) (ss : list tstate) (x : tens K) : res (list (option (tens K)) * list tstate) :=
    match l with
    | [] => Ok ([], [])
    | m :: l => '(y, s) <- ex m (hd SNone ss) x ;; '(ys, ss') <- go l (tl ss) x ;; Ok (y :: ys, s :: ss')
    end.
(** A call that must return a tensor. *)
Definition must (f : tstate -> tens K -> out) (s : tstate) (x : tens K) : res (tens K * tstate) :=
  '(y, s) <- f s x ;; match y with Some y => Ok (y, s) | None => Err TypeError end.
(** [[f(x) for x in xs]]. *)
Fixpoint each (f : tstate -> tens K -> res (tens K * tstate)) (s : tstate) (xs : list (tens K)) : res (list (tens K) * tstate) :=
  match xs with
  | [] => Ok ([], s)
  | x :: xs => '(y, s) <- f s x ;; '(ys, s) <- each f s xs ;; Ok (y :: ys, s)
  end.
Definition over_time (f : tstate -> tens K -> res (tens K * tstate)) (s : tstate) (x : tens K) : res (tens K * tstate) :=
  fs <- t_frames x ;; '(ys, s) <- each f s fs ;; y <- t_stack ys ;; Ok (y, s).
(** closure.py:111-120 [Lambda.forward]; 122-131 [forward_steps] is the same. *)
Definition lam_forward (time : bool) (f : tstate -> tens K -> res (tens K * tstate)) (s : tstate) (x : tens K) : res (tens K * tstate) :=
  if time then f s x else over_time f s x.

(** transformer.py:82-109: the frames of the window are stacked along the last dimension. *)
Definition window_tens (fs : list (tens K)) : tens K := stack (length (sh (hd (T [] []) fs))) fs.
Definition tu_fstep (d : nat) (x : tens K) (prev : option (obj (tens K))) :=
  '(fs, s) <- unity_fstep d Zeros x prev ;; Ok (option_map window_tens fs, s).
(** delay.py:113-126, inherited. *)
Definition tu_forward_step (d : nat) (o : obj (tens K)) (x : tens K) (upd : bool) : res (option (tens K) * obj (tens K)) :=
  if Nat.eqb d 0 then Ok (Some x, o) else co_forward_step obj_get obj_set (tu_fstep d) o x upd.
(** positional_encoding.py:150-170 [forward], [forward_steps] and 172-177
    [forward_step]: row [j] of the embedding is [emb j], of length [n], and there are [P] rows.
    Simplification: inputs of other shapes than (B, n, T) and (B, n) raise; torch broadcasts some. *)
Definition pos_forward (P n : nat) (emb : nat -> list K) (steps i : nat) (x : tens K) : out :=
  match sh x with
  | [_; c; t] =>
      if Nat.leb t P then
        if Nat.eqb c n then
          Ok (Some (mk (sh x) (fun ix => kadd (get x ix) (nth (nth 1 ix 0) (emb ((nth 2 ix 0 + i) mod P)) k0))), SPos ((i + steps) mod P))
        else Err RuntimeError
      else Err AssertionError
  | _ :: _ :: _ :: _ => Err RuntimeError
  | _ => Err IndexError
  end.
Definition pos_step (P n : nat) (emb : nat -> list K) (i : nat) (x : tens K) (upd : bool) : out :=
  match sh x with
  | [_; c] =>
      if Nat.eqb c n then
        Ok (Some (mk (sh x) (fun ix => kadd (get x ix) (nth (nth 1 ix 0) (emb i) k0))), SPos (if upd then (i + 1) mod P else i))
      else Err RuntimeError
  | _ => Err RuntimeError
  end.
Definition stacked (r : option (list (tens K)) * obj (tens K)) : out :=
  match fst r with
  | None => Ok (None, SObj (snd r))
  | Some l => y <- t_stack l ;; Ok (Some y, SObj (snd r))
  end.

(** [exec ctx me m s x pad_end update_state]: the method [me] of [m] in state [s].  A state is
    returned only if nothing raises. *)
Fixpoint exec (ctx : option meth) (me : meth) (m : tmod) (s : tstate) (x : tens K) (pe upd : bool) {struct m} : out :=
  match m with
  | MSeq l => '(y, ss) <- chain me (fun m s x => exec ctx me m s x pe upd) l (kids s) x ;; Ok (y, SList ss)
  | MBR last_pairs l =>
      '(ys, ss) <- fan (fun m s x => exec ctx me m s x pe upd) l (kids s) x ;;
      y <- t_reduce last_pairs ys ;; Ok (y, SList ss)
  | MNN l => '(y, ss) <- chain Forward (fun m s x => exec ctx (mode_of ctx m) m s x false true) l (kids s) x ;; Ok (y, SList ss)
  | MNaive m =>
      '(y, s) <- must (fun s x => exec ctx (mode_of ctx m) m s x false true) s x ;;
      z <- t_add y x ;; Ok (Some z, s)
  | MLam retro time fn =>
      let f := must (fun s x => exec ctx (mode_of ctx fn) fn s x false true) in
      '(y, s) <- (match me, retro with
        | Forward, _ | Steps, false | Step, true => lam_forward time f s x
        | Steps, true => over_time (lam_forward time f) s x
        | Step, false =>
            if time then u <- t_unsqueeze x ;; '(y, s) <- f s u ;; Ok (squeeze 2 y, s)
            else f s x
        end) ;; Ok (Some y, s)
  | MOut =>
      match me with
      | Forward => Ok (Some x, s)
      | _ => Ok (Some (squeeze (length (sh x) - 1) x), s)
      end
  | MLin d cin cout w b => y <- tl_forward d cin cout w b x ;; Ok (Some y, s)
  | MNorm n f => y <- t_norm n f x ;; Ok (Some y, s)
  | MFun f => Ok (Some (t_map f x), s)
  | MDrop =>
      match me with
      | Step => u <- t_unsqueeze x ;; Ok (Some (squeeze 2 u), s)
      | _ => Ok (Some x, s)
      end
  | MPos P n emb steps =>
      match me with
      | Forward => pos_forward P n emb steps (pos_of s) x
      | Step => pos_step P n emb (pos_of s) x upd
      | Steps => pos_forward P n emb (if upd then nth 2 (sh x) 0 else 0) (pos_of s) x
      end
  | MDel sel d =>
      match me with
      | Forward => if sel then
                     if Nat.leb 3 (length (sh x)) then y <- py_select 2 (-1 - Z.of_nat d) x ;; Ok (Some (unsqueeze 2 y), s)
                     else Err AssertionError
                   else Ok (Some x, s)
      | Step => '(y, o) <- delay_forward_step d Zeros ShNo (obj_of s) x upd ;; Ok (y, SObj o)
      | Steps => if Nat.eqb d 0 then Ok (Some x, s)
                 else fs <- t_frames x ;;
                      r <- delay_forward_steps d Zeros ShNo (obj_of s) fs pe upd ;; stacked r
      end
  | MUni d =>
      match me with
      | Forward => Ok (Some x, s)
      | Step => '(y, o) <- tu_forward_step d (obj_of s) x upd ;; Ok (y, SObj o)
      | Steps => if Nat.eqb d 0 then Ok (Some x, s)
                 else fs <- t_frames x ;;
                      r <- co_forward_steps obj_get obj_set (tu_fstep d) (make_padding Zeros) d (obj_of s) fs pe upd ;;
                      stacked r
      end
  | MSO a qi sof =>
      match me with
      | Forward => y <- s_forward a sof qi x x x ;; Ok (Some y, s)
      | Step => '(y, o, h) <- s_forward_step a (ts_sdpa a qi) (fst (so_of s)) x x x upd (snd (so_of s)) ;; Ok (y, SSo o h)
      | Steps => '(y, o, h) <- s_forward_steps a (ts_sdpa a qi) (fst (so_of s)) x x x upd (snd (so_of s)) ;; Ok (y, SSo o h)
      end
  | MRE a =>
      match me with
      | Forward => y <- b_forward a x x x ;; Ok (Some y, s)
      | Step => '(y, o, h) <- r_forward_step a (tr_sdpa a) (fst (re_of s)) x x x upd (snd (re_of s)) ;; Ok (y, SRe o h)
      | Steps => '(y, o, h) <- r_forward_steps a (tr_sdpa a) (fst (re_of s)) x x x upd (snd (re_of s)) ;; Ok (y, SRe o h)
      end
  end.

(** ** Ways to run a network *)

(** [net.forward(x)], [net.forward_step(x)], [net.forward_steps(x)] outside of a context, and
    [net(x)] after [net.call_mode = me]. *)
Definition by_name (me : meth) (m : tmod) (s : tstate) (x : tens K) : out := exec None me m s x false true.
(** [with co.call_mode(me): net(x)]. *)
Definition in_context (me : meth) (m : tmod) (s : tstate) (x : tens K) : out := exec (Some me) me m s x false true.

(** A sequence of calls, each made by name inside of a context or outside of one. *)
Inductive tcall :=
| CFrame (ctx : option meth) (x : tens K)      (* net.forward_step(x) *)
| CClip (ctx : option meth) (x : tens K)       (* net.forward_steps(x) *)
| CForward (ctx : option meth) (x : tens K).   (* net.forward(x) *)
Definition call (m : tmod) (s : tstate) (c : tcall) : out :=
  match c with
  | CFrame ctx x => exec ctx Step m s x false true
  | CClip ctx x => exec ctx Steps m s x false true
  | CForward ctx x => exec ctx Forward m s x false true
  end.
Definition ctx_of (c : tcall) : option meth := match c with CFrame ctx _ | CClip ctx _ | CForward ctx _ => ctx end.
Fixpoint calls (m : tmod) (s : tstate) (l : list tcall) : res (list (option (tens K)) * tstate) :=
  match l with
  | [] => Ok ([], s)
  | c :: l => '(y, s) <- call m s c ;; '(ys, s) <- calls m s l ;; Ok (y :: ys, s)
  end.

(** ** The constructors of transformer.py *)

(** Parameters of a layer: the attention (its batch_first and embed_dim_second are True,
    transformer.py:223-236 and 359-370), dim_feedforward, the two norms, the activation and
    the two linear layers.  Simplification: the norms are any functions of a token, the
    activation any function of an entry. *)
Record layer := {
  l_a : tattn K; l_ff : nat;
  l_norm1 : list K -> list K; l_norm2 : list K -> list K; l_act : K -> K;
  l_w1 : list K; l_b1 : option (list K); l_w2 : list K; l_b2 : option (list K)
}.
Variable p : layer.
Notation E := (t_E (l_a p)).

(** transformer.py:154-293 [SingleOutputTransformerEncoderLayer].  The activation is a plain
    function, which [add_module] wraps in [Lambda(fn, takes_time=False)] (container.py:135-142,
    convert.py:275, closure.py:82-92).  [Residual(ff)] is
    [BroadcastReduce(Delay(0), ff, reduce="sum")] (container.py:953-979). *)
Definition so_ff : tmod :=
  MSeq [MLin 1 E (l_ff p) (l_w1 p) (l_b1 p); MLam false false (MFun (l_act p)); MDrop;
        MLin 1 (l_ff p) E (l_w2 p) (l_b2 p); MDrop].
Definition so_layer (query_index : Z) (sof : bool) : tmod :=
  MSeq [MBR true [if sof then MDel true (so_delay (t_N (l_a p)) query_index) else MLam false true (MFun (fun v => v));
                  MSO (l_a p) query_index sof];
        MSeq [MLam false false (MNorm E (l_norm1 p)); MBR false [MDel false 0; so_ff]; MLam false false (MNorm E (l_norm2 p))]].

(** transformer.py:296-406 [RetroactiveTransformerEncoderLayer]. *)
Definition re_ff : tmod :=
  MSeq [MLin (-1) E (l_ff p) (l_w1 p) (l_b1 p); MLam false true (MFun (l_act p)); MDrop;
        MLin (-1) (l_ff p) E (l_w2 p) (l_b2 p); MDrop].
Definition re_layer : tmod :=
  MSeq [MBR false [MUni (t_N (l_a p) - 1); MRE (l_a p)];
        MLam true false (MNN [MNorm E (l_norm1 p); MNaive re_ff; MNorm E (l_norm2 p)])].
End TEnc.
Arguments tmod K : clear implicits.
Arguments tstate K : clear implicits.
Arguments tcall K : clear implicits.
Arguments layer K : clear implicits.

Section Encoder.
Context {K : Type} {NK : Num K}.
(** transformer.py:542-575 [TransformerEncoder.__init__] with one and with two layers, and an
    optional norm.  More layers need the layer type "regular", which is not implemented
    (transformer.py:409-423 returns None). *)
Definition with_norm (n : nat) (norm : option (list K -> list K)) (m : tmod K) : tmod K :=
  MSeq (m :: match norm with Some f => [MLam false false (MNorm n f)] | None => [] end).
Definition encoder1 (p : layer K) (norm : option (list K -> list K)) : tmod K :=
  with_norm (t_E (l_a p)) norm (MSeq [so_layer p (-1) false]).
Definition encoder2 (p1 p2 : layer K) (norm : option (list K -> list K)) : tmod K :=
  with_norm (t_E (l_a p1)) norm (MSeq [re_layer p1; MLam true true (so_layer p2 (-1) true); MOut]).
End Encoder.
