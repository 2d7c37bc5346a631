(** Tensors of any rank as flat row-major data, and torch's convolution of any
    number of dimensions. *)
From Coq Require Import List ZArith Bool Arith.
From Verif Require Import Base Frames.
Import ListNotations.

(** Scalars with arbitrary operations, which may round. *)
Class Scal (K : Type) := {
  s0 : K;
  sadd : K -> K -> K;
  smul : K -> K -> K
}.

(** The laws of exact arithmetic that some theorems use. *)
Class ScalLaws (K : Type) {SC : Scal K} : Prop := {
  sadd_comm : forall a b : K, sadd a b = sadd b a;
  sadd_assoc : forall a b c : K, sadd a (sadd b c) = sadd (sadd a b) c;
  sadd_0_l : forall a : K, sadd s0 a = a;
  smul_0_r : forall a : K, smul a s0 = s0
}.

Section Tensor.
Context {K : Type}.

(** Number of elements of a tensor of shape [sh]. *)
Definition size (sh : list nat) : nat := fold_right Nat.mul 1 sh.

(** The data of the tensor whose element at index [ix] is [f ix], row-major. *)
Fixpoint tab (sh : list nat) (f : list nat -> K) : list K :=
  match sh with
  | [] => [f []]
  | n :: r => flat_map (fun i => tab r (fun ix => f (i :: ix))) (seq 0 n)
  end.

(** Position in the data of the element at an index, None outside the tensor. *)
Fixpoint offset (sh : list nat) (ix : list Z) : option nat :=
  match sh, ix with
  | [], [] => Some 0
  | n :: r, i :: ix' =>
      if Z.leb 0 i && Z.ltb i (Z.of_nat n)
      then option_map (fun o => Z.to_nat i * size r + o) (offset r ix')
      else None
  | _, _ => None
  end.

Context {SC : Scal K}.

(** Element at an index, zero outside the tensor. *)
Definition at_ (sh : list nat) (x : list K) (ix : list Z) : K :=
  match offset sh ix with Some o => nth o x s0 | None => s0 end.

Definition ksum (l : list K) : K := fold_right sadd s0 l.

(** Elementwise addition of two tensors of equal shape.  (For lists of unequal
    length the rest of the longer one is kept; this never happens to tensors.) *)
Fixpoint zadd (a b : list K) : list K :=
  match a, b with
  | [], _ => b
  | _, [] => a
  | x :: a', y :: b' => sadd x y :: zadd a' b'
  end.

(** [torch.zeros_like]. *)
Definition zlike (x : list K) : list K := map (fun _ => s0) x.

(** [x[:, :, t]] of a tensor of shape (B, C, T, *dims). *)
Definition slice2 (B C T : nat) (dims : list nat) (x : list K) (t : nat) : list K :=
  tab (B :: C :: dims)
      (fun ix => match ix with
                 | b :: c :: r => at_ (B :: C :: T :: dims) x (map Z.of_nat (b :: c :: t :: r))
                 | _ => s0
                 end).

(** [torch.stack(frames, dim=2)] of frames of shape (B, C, *dims). *)
Definition stack2 (B C : nat) (dims : list nat) (l : list (list K)) : list K :=
  tab (B :: C :: length l :: dims)
      (fun ix => match ix with
                 | b :: c :: t :: r => at_ (B :: C :: dims) (nth t l []) (map Z.of_nat (b :: c :: r))
                 | _ => s0
                 end).

(* ------------------------------------------------------------------ *)
(** ** Convolution *)

(** Size of an output dimension (torch documentation of nn.Conv1d/2d/3d). *)
Definition out_dim (d k s p dl : nat) : nat := (d + 2 * p - (dl * (k - 1) + 1)) / s + 1.
Fixpoint out_dims (dims ks ss ps ds : list nat) : list nat :=
  match dims, ks, ss, ps, ds with
  | d :: dims', k :: ks', s :: ss', p :: ps', dl :: ds' =>
      out_dim d k s p dl :: out_dims dims' ks' ss' ps' ds'
  | _, _, _, _, _ => []
  end.

(** "Kernel size can't be greater than actual input size". *)
Fixpoint fits (dims ks ps ds : list nat) : bool :=
  match dims, ks, ps, ds with
  | d :: dims', k :: ks', p :: ps', dl :: ds' =>
      Nat.leb (dl * (k - 1) + 1) (d + 2 * p) && fits dims' ks' ps' ds'
  | _, _, _, _ => true
  end.

(** Input position that output position [q] and kernel position [kp] meet. *)
Fixpoint wpos (q ss ps kp ds : list nat) : list Z :=
  match q, ss, ps, kp, ds with
  | i :: q', s :: ss', p :: ps', k :: kp', dl :: ds' =>
      (Z.of_nat (i * s) - Z.of_nat p + Z.of_nat (k * dl))%Z :: wpos q' ss' ps' kp' ds'
  | _, _, _, _, _ => []
  end.

(** One output element: the sum over the input channels of the group and the
    kernel positions. *)
Definition conv_elem (B cin cout g : nat) (dims ks ss ps ds : list nat) (w x : list K)
    (b o : nat) (q : list nat) : K :=
  ksum (tab (cin / g :: ks)
     (fun ik => match ik with
                | c :: kp =>
                    smul (at_ (cout :: cin / g :: ks) w (map Z.of_nat (o :: c :: kp)))
                         (at_ (B :: cin :: dims) x
                            (Z.of_nat b :: Z.of_nat (o / (cout / g) * (cin / g) + c) :: wpos q ss ps kp ds))
                | _ => s0
                end)).

(** Bias of one output channel. *)
Definition bias_at (b : option (list K)) (o : nat) : K :=
  match b with Some v => nth o v s0 | None => s0 end.

(** torch [F.conv1d], [F.conv2d], [F.conv3d] on an input of shape (B, cin, *dims)
    and a weight of shape (cout, cin/g, *ks): cross-correlation with stride,
    zero padding, dilation and groups.  An empty dimension is refused. *)
Definition convnd (B cin cout g : nat) (dims ks ss ps ds : list nat)
    (w : list K) (b : option (list K)) (x : list K) : res (list K) :=
  if fits dims ks ps ds && forallb (Nat.leb 1) dims
  then Ok (tab (B :: cout :: out_dims dims ks ss ps ds)
             (fun ix => match ix with
                        | n :: o :: q => sadd (bias_at b o) (conv_elem B cin cout g dims ks ss ps ds w x n o q)
                        | _ => s0
                        end))
  else Err RuntimeError.

(** [F.pad(x, mode="replicate")] by [ps] on both sides of every dimension. *)
Definition clamp (d : nat) (i : Z) : Z := Z.max 0 (Z.min i (Z.of_nat d - 1)).
Fixpoint clamps (dims : list nat) (ix : list Z) : list Z :=
  match dims, ix with
  | d :: dims', i :: ix' => clamp d i :: clamps dims' ix'
  | _, _ => []
  end.
Fixpoint grow (dims ps : list nat) : list nat :=
  match dims, ps with d :: dims', p :: ps' => d + 2 * p :: grow dims' ps' | _, _ => [] end.
Fixpoint subs (ix ps : list nat) : list Z :=
  match ix, ps with i :: ix', p :: ps' => (Z.of_nat i - Z.of_nat p)%Z :: subs ix' ps' | _, _ => [] end.
Definition reppad (B C : nat) (dims ps : list nat) (x : list K) : list K :=
  tab (B :: C :: grow dims ps)
      (fun ix => match ix with
                 | b :: c :: r => at_ (B :: C :: dims) x (Z.of_nat b :: Z.of_nat c :: clamps dims (subs r ps))
                 | _ => s0
                 end).

End Tensor.
