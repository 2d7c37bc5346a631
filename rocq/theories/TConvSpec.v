(** What C55 asks of the arguments of a convolution and of the input. *)
From Coq Require Import List ZArith Bool Arith.
From Verif Require Import Base Frames Leaf Tensor TConv.
Import ListNotations.

(** ** What a convolution reads, stated without positions outside the input *)

(** Kernel position [j] of output position [i] meets input position [t] of a dimension
    of size [d].  With padding_mode="replicate" positions beyond the ends read the ends. *)
Definition meet (rep : bool) (d k s p dl i : nat) : list (nat * nat) :=
  filter (fun jt => if rep then Nat.eqb (snd jt) (Nat.min (d - 1) (i * s + fst jt * dl - p))
                    else Nat.eqb (snd jt + p) (i * s + fst jt * dl))
    (list_prod (seq 0 k) (seq 0 d)).
(** Kernel indices and the input indices that they meet. *)
Fixpoint meets (rep : bool) (dims ks ss ps ds q : list nat) : list (list nat * list nat) :=
  match dims, ks, ss, ps, ds, q with
  | d :: dims', k :: ks', s :: ss', p :: ps', dl :: ds', i :: q' =>
      flat_map (fun jt => map (fun r => (fst jt :: fst r, snd jt :: snd r)) (meets rep dims' ks' ss' ps' ds' q'))
        (meet rep d k s p dl i)
  | _, _, _, _, _, _ => [([], [])]
  end.
(** The kernel at output index [q] lies in the padded input. *)
Fixpoint covered (dims ks ss ps ds q : list nat) : Prop :=
  match dims, ks, ss, ps, ds, q with
  | d :: dims', k :: ks', s :: ss', p :: ps', dl :: ds', i :: q' =>
      i * s + dl * (k - 1) + 1 <= d + 2 * p /\ covered dims' ks' ss' ps' ds' q'
  | [], [], [], [], [], [] => True
  | _, _, _, _, _, _ => False
  end.
(** The input channels of the group of output channel [o]. *)
Definition group_of (cin cout g o : nat) : list nat :=
  filter (fun ci => Nat.eqb (ci / (cin / g)) (o / (cout / g))) (seq 0 cin).

Section TConvSpec.
Context {K : Type} {SC : Scal K}.
Variables (B : nat) (sp : list nat) (c : tconv K).

(** The padding is below the kernel size, the fill value of the temporal padding
    agrees with padding_mode, the frames are not empty and not smaller than the
    spatial kernel, and the spatial arguments have one entry per dimension. *)
Record tconv_ok : Prop := {
  tk_k : 1 <= t_k c; tk_s : 1 <= t_s c; tk_p : t_p c <= t_k c - 1; tk_1 : t_k c = 1 -> t_s c = 1;
  tk_mode : t_mode c <> NegInf; tk_fill : t_fill c <> NegInf; tk_same : t_p c = 0 \/ t_mode c = t_fill c;
  tk_B : 1 <= B; tk_cin : 1 <= t_cin c; tk_sp : forallb (Nat.leb 1) sp = true;
  tk_fits : fits sp (t_ks c) (t_ps c) (t_ds c) = true;
  tk_lks : length (t_ks c) = length sp; tk_lss : length (t_ss c) = length sp;
  tk_lps : length (t_ps c) = length sp; tk_lds : length (t_ds c) = length sp
}.

(** Number of output frames of a clip of [T] frames. *)
Definition t_olen (T : nat) : nat := out_dim T (t_k c) (t_s c) (t_p c) 1.
(** The frames of a clip and of its result. *)
Definition in_frames (T : nat) (X : list K) (ts : list nat) : list (list K) := map (slice2 B (t_cin c) T sp X) ts.
Definition out_frames (T : nat) (Y : list K) : list (list K) :=
  map (slice2 B (t_cout c) (t_olen T) (t_osp sp c) Y) (seq 0 (t_olen T)).

(** The convolution in terms of Leaf.v: one map between frames per tap. *)
Notation cin := (t_cin c). Notation cout := (t_cout c). Notation g := (t_g c).
Notation k := (t_k c). Notation ks := (t_ks c). Notation s := (t_s c). Notation ss := (t_ss c).
Notation p := (t_p c). Notation ps := (t_ps c). Notation ds := (t_ds c). Notation w := (t_w c).
Notation osp := (t_osp sp c).
Notation ish := (B :: cin :: sp). Notation osh := (B :: cout :: osp).

(** Where a tap looks in a frame. *)
Definition look (pos : list Z) : list Z := match t_mode c with Zeros => pos | _ => clamps sp pos end.
Definition tap_elem (i : nat) (x : list K) (b o : nat) (q : list nat) : K :=
  ksum (tab (cin / g :: ks)
     (fun ik => match ik with
                | ch :: kp =>
                    smul (at_ (cout :: cin / g :: k :: ks) w (map Z.of_nat (o :: ch :: i :: kp)))
                         (at_ ish x (Z.of_nat b :: Z.of_nat (o / (cout / g) * (cin / g) + ch) :: look (wpos q ss ps kp ds)))
                | _ => s0
                end)).
Definition tap_real (i : nat) (x : list K) : list K :=
  tab osh (fun ix => match ix with b :: o :: q => tap_elem i x b o q | _ => s0 end).
Definition tap (i : nat) (x : list K) : list K := match x with [] => [] | _ => tap_real i x end.

Definition t_cfg : conv_cfg (list K) :=
  {| ck := k; cs := s; cp := p; cW := tap; cb := option_map (t_bias B sp c) (t_b c); cmode := t_mode c; cfill := t_fill c |}.

End TConvSpec.
