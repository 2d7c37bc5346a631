(** [_PoolNd] (continual/pooling.py) on whole tensors: average and max pooling in
    time and any number of spatial dimensions.  [Leaf.v] models the same code with
    spatial pooling and aggregation as abstract maps. *)
From Coq Require Import List ZArith Bool Arith.
From Verif Require Import Base Frames CoMod Tensor.
Import ListNotations.

(** What distinguishes average from max pooling.  [pop] with neutral element [pe]
    joins the entries of a window; [pscale n] divides by [n] (average) or does
    nothing (max).  [pz] and [pninf] are 0 and -inf; [pe] is the first for the
    average and the second for the maximum. *)
Class Pool (K : Type) := {
  pe : K;
  pop : K -> K -> K;
  pscale : nat -> K -> K;
  pz : K;
  pninf : K;
  pmode_ : fill
}.

(** The laws of exact arithmetic that some theorems use. *)
Class PoolLaws (K : Type) {P : Pool K} : Prop := {
  pop_comm : forall a b : K, pop a b = pop b a;
  pop_assoc : forall a b c : K, pop a (pop b c) = pop (pop a b) c;
  pop_e : forall a : K, pop pe a = a;
  pscale_op : forall n (a b : K), pscale n (pop a b) = pop (pscale n a) (pscale n b);
  pscale_e : forall n, pscale n pe = pe :> K;
  pscale_mul : forall m n (a : K), pscale m (pscale n a) = pscale (m * n) a;
  pscale_1 : forall a : K, pscale 1 a = a;
  pmode_e : match pmode_ with Zeros => pz = pe :> K | NegInf => pninf = pe :> K | Replicate => False end
}.

(** Sums and accesses outside a tensor are those of the pooling operation. *)
#[export] Instance pool_scal {K} (P : Pool K) : Scal K := {|
  s0 := pe; sadd := pop; smul := fun _ x => x
|}.
#[export] Instance pool_scal_laws {K} (P : Pool K) (PL : PoolLaws K) : ScalLaws K := {|
  sadd_comm := pop_comm; sadd_assoc := pop_assoc; sadd_0_l := pop_e; smul_0_r := fun _ => eq_refl
|}.

Section TPool.
Context {K : Type} {P : Pool K}.

(** ** torch's pooling of any number of dimensions *)

(** [pooling_output_shape]: with ceil_mode the last window may leave the input, but
    must not start in the right padding. *)
Definition pool_out_dim (ceil : bool) (d k s p dl : nat) : nat :=
  if ceil then
    let o := (d + 2 * p - (dl * (k - 1) + 1) + s - 1) / s + 1 in
    if Nat.leb (d + p) ((o - 1) * s) then o - 1 else o
  else out_dim d k s p dl.
Fixpoint pool_out_dims (ceil : bool) (dims ks ss ps ds : list nat) : list nat :=
  match dims, ks, ss, ps, ds with
  | d :: dims', k :: ks', s :: ss', p :: ps', dl :: ds' =>
      pool_out_dim ceil d k s p dl :: pool_out_dims ceil dims' ks' ss' ps' ds'
  | _, _, _, _, _ => []
  end.

(** "pad should be at most half of kernel size". *)
Fixpoint halves (ks ps : list nat) : bool :=
  match ks, ps with
  | k :: ks', p :: ps' => Nat.leb (2 * p) k && halves ks' ps'
  | _, _ => true
  end.

(** Number of entries by which an average is divided, per dimension: the window cut
    to the padded input, or to the input if count_include_pad is False. *)
Definition win_len (cip : bool) (d k s p i : nat) : nat :=
  let start := (Z.of_nat (i * s) - Z.of_nat p)%Z in
  let stop := (Z.min (start + Z.of_nat k) (Z.of_nat (d + p)))%Z in
  Z.to_nat (if cip then stop - start
            else Z.min stop (Z.of_nat d) - Z.max start 0)%Z.
Fixpoint win_size (cip : bool) (dims ks ss ps q : list nat) : nat :=
  match dims, ks, ss, ps, q with
  | d :: dims', k :: ks', s :: ss', p :: ps', i :: q' => win_len cip d k s p i * win_size cip dims' ks' ss' ps' q'
  | _, _, _, _, _ => 1
  end.

(** The entries of a window, joined; the padding is neutral. *)
Definition pool_elem (B C : nat) (dims ks ss ps ds : list nat) (x : list K) (b c : nat) (q : list nat) : K :=
  ksum (tab ks (fun kp => at_ (B :: C :: dims) x (Z.of_nat b :: Z.of_nat c :: wpos q ss ps kp ds))).

(** [F.avg_pool1d/2d/3d] and [F.max_pool1d/2d/3d] on an input of shape (B, C, *dims). *)
Definition poolnd (B C : nat) (dims ks ss ps ds : list nat) (ceil cip : bool) (div : option nat) (x : list K)
  : res (list K) :=
  if fits dims ks ps ds && halves ks ps && forallb (Nat.leb 1) dims
  then Ok (tab (B :: C :: pool_out_dims ceil dims ks ss ps ds)
             (fun ix => match ix with
                        | b :: c :: q =>
                            pscale (match div with Some n => n | None => win_size cip dims ks ss ps q end)
                                   (pool_elem B C dims ks ss ps ds x b c q)
                        | _ => pe
                        end))
  else Err RuntimeError.

(** ** The step code of [_PoolNd], for any spatial pooling *)

Section StepCode.
(** Batch size, channels and spatial shape after pooling of a frame, [_spatial_pool_fn],
    kernel_size[0], stride[0], padding[0], temporal_fill.  Simplification: temporal
    dilation 1 (C38 has the other case). *)
Variables (B C : nat) (osp : list nat) (space : list K -> res (list K)) (k s p : nat) (fl : fill).

(** pooling.py:101-137 [_reshaped_temporal_pool_fn]: AdaptiveAvgPool1d(1) or
    AdaptiveMaxPool1d(1) over the buffer, entry by entry. *)
Definition nd_time (l : list (list K)) : list K :=
  tab (B :: C :: osp)
      (fun ix => pscale (length l) (ksum (map (fun f => at_ (B :: C :: osp) f (map Z.of_nat ix)) l))).

(** pooling.py:94-99 [_make_padding]. *)
Definition nd_pad (x : list K) : list K :=
  match fl with
  | Zeros => map (fun _ => pz) x
  | Replicate => x
  | NegInf => map (fun _ => pninf) x
  end.

(** pooling.py:152-166 [init_state]. *)
Definition nd_init (x : list K) : obj (list K) :=
  Obj (repeat (nd_pad x) (1 * (k - 1) + 1)) 0
      (Z.of_nat s - Z.of_nat (1 * (k - 1) + 1) + Z.of_nat p).

(** pooling.py:180-212 [_forward_step]. *)
Definition nd_fstep (x : list K) (prev : option (obj (list K))) : res (option (list K) * option (obj (list K))) :=
  pooled <- space x ;;
  let st := match prev with Some s => s | None => nd_init pooled end in
  let index := o_idx st in
  let stride_index := o_str st in
  buffer <- setz (o_buf st) index pooled ;;
  let next_index := ((index + 1) mod Z.of_nat k)%Z in
  let ns := (stride_index + 1)%Z in
  let ns := if Z.ltb 0 ns then (ns mod Z.of_nat s)%Z else ns in
  let out := if Z.eqb stride_index (Z.of_nat s - 1) then Some (nd_time buffer) else None in
  Ok (out, Some (Obj buffer next_index ns)).

End StepCode.

(** ** The modules *)

(** Constructor arguments: heads of the tuples belong to time.  [p_sdiv] is the
    divisor_override that reaches the spatial pooling: it is passed on by AvgPool3d
    (pooling.py, spatial_pool_fn of AvgPool3d), but not by AvgPool2d. *)
Record tpool := {
  p_k : nat; p_ks : list nat;
  p_s : nat; p_ss : list nat;
  p_p : nat; p_ps : list nat;
  p_ds : list nat;
  p_ceil : bool; p_cip : bool; p_div : option nat; p_sdiv : option nat;
  p_fill : fill
}.

Variables (B C : nat) (sp : list nat).
Variable c : tpool.

Definition p_osp : list nat := pool_out_dims (p_ceil c) sp (p_ks c) (p_ss c) (p_ps c) (p_ds c).

(** [nn.AvgPoolNd.forward], [nn.MaxPoolNd.forward] on a clip of shape (B, C, T, *sp). *)
Definition p_forward (T : nat) (x : list K) : res (list K) :=
  poolnd B C (T :: sp) (p_k c :: p_ks c) (p_s c :: p_ss c) (p_p c :: p_ps c) (1 :: p_ds c)
    (p_ceil c) (p_cip c) (p_div c) x.

(** [spatial_pool_fn]: [unity] for the 1d modules, else the spatial pooling. *)
Definition p_space (x : list K) : res (list K) :=
  match p_ks c with
  | [] => Ok x
  | _ => poolnd B C sp (p_ks c) (p_ss c) (p_ps c) (p_ds c) (p_ceil c) (p_cip c) (p_sdiv c) x
  end.

(** The step code with this spatial pooling. *)
Definition p_time : list (list K) -> list K := nd_time B C p_osp.
Definition p_pad : list K -> list K := nd_pad (p_fill c).
Definition p_init : list K -> obj (list K) := nd_init (p_k c) (p_s c) (p_p c) (p_fill c).
Definition p_fstep : list K -> option (obj (list K)) -> res (option (list K) * option (obj (list K))) :=
  nd_fstep B C p_osp p_space (p_k c) (p_s c) (p_p c) (p_fill c).

(** module.py:192-219, pooling.py:214-219. *)
Definition p_forward_step (o : obj (list K)) (x : list K) (upd : bool) :=
  co_forward_step obj_get obj_set p_fstep o x upd.
Definition p_forward_steps (o : obj (list K)) (xs : list (list K)) (pe upd : bool) :=
  co_forward_steps obj_get obj_set p_fstep p_pad (p_p c) o xs pe upd.

(** module.py:188-190 with pooling.py:221-223. *)
Definition p_delay : nat := 1 * p_k c - 1 - p_p c.

End TPool.
