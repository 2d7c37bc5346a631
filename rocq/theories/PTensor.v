(** Property C55: convolutions on whole tensors, with channels, groups, bias and
    any number of spatial dimensions. *)
From Coq Require Import List ZArith Bool Arith Lia.
From Verif Require Import Base Frames CoMod Leaf Spec LeafSpec Tensor TConv TConvSpec TensorProof TConvProof TConvEntry.
Import ListNotations.

#[global] Instance ZScal : Scal Z := {
  s0 := 0%Z; sadd := Z.add; smul := Z.mul
}.
#[global] Instance ZScalLaws : ScalLaws Z := {
  sadd_comm := Z.add_comm; sadd_assoc := Z.add_assoc; sadd_0_l := Z.add_0_l; smul_0_r := Z.mul_0_r
}.

(** C55.  Stepping the first [n] frames of a clip gives the frames of the tensor
    that [forward] returns for the clip, on the schedule of C01. *)
Theorem C55_step :
  forall (K : Type) (SC : Scal K) (SL : ScalLaws K) (B : nat) (sp : list nat) (c : tconv K), tconv_ok B sp c ->
  forall T X Y n, t_forward B sp c T X = Ok Y -> n <= T ->
  exists o,
    feed (fun o x => t_forward_step B sp c o x true) obj_init (in_frames B sp c T X (seq 0 n))
    = Ok (map (scheduled (t_delay c) (t_s c) (out_frames B sp c T Y)) (seq 0 n), o).
Proof. exact @tensor_step_thm. Qed.
Print Assumptions C55_step.

(** Any number of single steps, then [forward_steps(pad_end=True)] on the rest:
    stacking what was returned gives the result of [forward]. *)
Theorem C55_pad_end :
  forall (K : Type) (SC : Scal K) (SL : ScalLaws K) (B : nat) (sp : list nat) (c : tconv K), tconv_ok B sp c ->
  forall T X Y n, t_forward B sp c T X = Ok Y -> n < T ->
  exists os o1 o2 rest,
    feed (fun o x => t_forward_step B sp c o x true) obj_init (in_frames B sp c T X (seq 0 n)) = Ok (os, o1) /\
    t_forward_steps B sp c o1 (in_frames B sp c T X (seq n (T - n))) true true = Ok (stack_outs rest, o2) /\
    stack2 B (t_cout c) (t_osp sp c) (somes os ++ rest) = Y.
Proof. exact @tensor_pad_end_thm. Qed.
Print Assumptions C55_pad_end.

(** [forward] accepts every clip that is long enough for the kernel, and the
    result has the shape that torch documents. *)
Theorem C55_forward_shape :
  forall (K : Type) (SC : Scal K) (SL : ScalLaws K) (B : nat) (sp : list nat) (c : tconv K), tconv_ok B sp c ->
  forall T X, 1 <= T -> t_k c <= T + 2 * t_p c ->
  exists Y, t_forward B sp c T X = Ok Y /\
    length Y = size (B :: t_cout c :: out_dims (T :: sp) (t_k c :: t_ks c) (t_s c :: t_ss c) (t_p c :: t_ps c) (1 :: t_ds c)).
Proof. exact @forward_shape. Qed.
Print Assumptions C55_forward_shape.

(** Every entry that [forward] returns is the bias plus the sum, over the input channels
    of the group and the kernel positions that meet an input position, of weight times
    input.  There is an entry for each position of the kernel in the padded clip. *)
Theorem C55_forward_entry :
  forall (K : Type) (SC : Scal K) (SL : ScalLaws K) (B : nat) (sp : list nat) (c : tconv K) T X Y,
  length (t_ks c) = length sp -> length (t_ss c) = length sp -> length (t_ps c) = length sp -> length (t_ds c) = length sp ->
  Forall (fun s => 1 <= s) (t_s c :: t_ss c) ->
  1 <= t_g c -> t_cin c = t_g c * (t_cin c / t_g c) -> t_cout c = t_g c * (t_cout c / t_g c) ->
  t_forward B sp c T X = Ok Y ->
  forall b o q, b < B -> o < t_cout c ->
  let od := out_dims (T :: sp) (t_k c :: t_ks c) (t_s c :: t_ss c) (t_p c :: t_ps c) (1 :: t_ds c) in
  covered (T :: sp) (t_k c :: t_ks c) (t_s c :: t_ss c) (t_p c :: t_ps c) (1 :: t_ds c) q ->
  offset (B :: t_cout c :: od) (map Z.of_nat (b :: o :: q)) <> None /\
  at_ (B :: t_cout c :: od) Y (map Z.of_nat (b :: o :: q)) =
  sadd (match t_b c with Some v => nth o v s0 | None => s0 end)
    (ksum (flat_map (fun ci =>
        map (fun m => smul (at_ (t_cout c :: t_cin c / t_g c :: t_k c :: t_ks c) (t_w c)
                              (map Z.of_nat (o :: ci mod (t_cin c / t_g c) :: fst m)))
                           (at_ (B :: t_cin c :: T :: sp) X (map Z.of_nat (b :: ci :: snd m))))
          (meets (match t_mode c with Zeros => false | _ => true end)
             (T :: sp) (t_k c :: t_ks c) (t_s c :: t_ss c) (t_p c :: t_ps c) (1 :: t_ds c) q))
      (group_of (t_cin c) (t_cout c) (t_g c) o))).
Proof. exact @forward_entry. Qed.
Print Assumptions C55_forward_entry.

(** The frames of the result are those of the convolution of Leaf.v: what is
    proved there about networks holds for networks of tensor convolutions. *)
Theorem C55_is_leaf :
  forall (K : Type) (SC : Scal K) (SL : ScalLaws K) (B : nat) (sp : list nat) (c : tconv K), tconv_ok B sp c ->
  conv_ok (t_cfg B sp c) /\
  forall T X Y, t_forward B sp c T X = Ok Y ->
    conv_forward (t_cfg B sp c) (in_frames B sp c T X (seq 0 T)) = Ok (out_frames B sp c T Y).
Proof. exact @is_leaf. Qed.
Print Assumptions C55_is_leaf.

(** Two groups, 2 input channels, 4 output channels, kernel (3, 2), stride (2, 1),
    padding (1, 1), dilation (1, 2), bias; batch of 2, 3 positions, 5 frames. *)
Definition ex_tconv (m f : fill) : tconv Z :=
  {| t_cin := 2; t_cout := 4; t_g := 2; t_k := 3; t_ks := [2]; t_s := 2; t_ss := [1]; t_p := 1; t_ps := [1]; t_ds := [2];
     t_w := map Z.of_nat (seq 1 24); t_b := Some [1000; 2000; 3000; 4000]%Z; t_mode := m; t_fill := f |}.
Definition ex_clip : list Z := map (fun i => Z.of_nat (i * i mod 17)) (seq 0 60).

Lemma ex_tconv_ok m : m <> NegInf -> tconv_ok 2 [3] (ex_tconv m m).
Proof. intros H. constructor; cbn; auto with arith; try discriminate. Qed.

Example C55_step_ex : forall m, m <> NegInf ->
  tconv_ok 2 [3] (ex_tconv m m) /\
  exists Y, t_forward 2 [3] (ex_tconv m m) 5 ex_clip = Ok Y /\ length Y = 72 /\
    t_olen (ex_tconv m m) 5 = 3 /\ t_delay (ex_tconv m m) = 1 /\
    length (nodup Z.eq_dec Y) > 40 /\
    exists o, feed (fun o x => t_forward_step 2 [3] (ex_tconv m m) o x true) obj_init
                (in_frames 2 [3] (ex_tconv m m) 5 ex_clip (seq 0 5))
      = Ok ([None; Some (slice2 2 4 3 [3] Y 0); None; Some (slice2 2 4 3 [3] Y 1); None], o).
Proof.
  intros m Hm. split; [now apply ex_tconv_ok|].
  destruct m; [| |congruence]; (eexists; split; [vm_compute; reflexivity|]);
    (repeat split; try (vm_compute; reflexivity); try (vm_compute; lia)); eexists; vm_compute; reflexivity.
Qed.

Example C55_pad_end_ex :
  exists Y, t_forward 2 [3] (ex_tconv Replicate Replicate) 5 ex_clip = Ok Y /\
  exists o rest, t_forward_steps 2 [3] (ex_tconv Replicate Replicate) obj_init
      (in_frames 2 [3] (ex_tconv Replicate Replicate) 5 ex_clip (seq 0 5)) true true = Ok (Some rest, o) /\
    stack2 2 4 [3] rest = Y.
Proof.
  eexists. split; [vm_compute; reflexivity|]. do 2 eexists. split; vm_compute; reflexivity.
Qed.

Example C55_forward_shape_ex :
  out_dims [5; 3] [3; 2] [2; 1] [1; 1] [1; 2] = [3; 3] /\
  exists Y, t_forward 2 [3] (ex_tconv Zeros Zeros) 5 ex_clip = Ok Y /\ length Y = 2 * 4 * 3 * 3.
Proof. split; [reflexivity|]. eexists. split; vm_compute; reflexivity. Qed.

(** The last position of channel 3: its group reads channel 1; dilation 2 and padding 1
    leave one position of the spatial kernel inside. *)
Example C55_forward_entry_ex :
  covered [5; 3] [3; 2] [2; 1] [1; 1] [1; 2] [2; 2] /\ group_of 2 4 2 3 = [1] /\
  meets false [5; 3] [3; 2] [2; 1] [1; 1] [1; 2] [2; 2] = [([0; 0], [3; 1]); ([1; 0], [4; 1])] /\
  meets true [5; 3] [3; 2] [2; 1] [1; 1] [1; 2] [2; 2] =
    [([0; 0], [3; 1]); ([0; 1], [3; 2]); ([1; 0], [4; 1]); ([1; 1], [4; 2]); ([2; 0], [4; 1]); ([2; 1], [4; 2])] /\
  exists Y, t_forward 2 [3] (ex_tconv Zeros Zeros) 5 ex_clip = Ok Y /\
    at_ [2; 4; 3; 3] Y [1; 3; 2; 2]%Z = (4000 + (19 * (55 * 55 mod 17) + 21 * (58 * 58 mod 17)))%Z.
Proof.
  split; [cbn; lia|]. split; [reflexivity|]. split; [reflexivity|]. split; [reflexivity|].
  eexists. split; vm_compute; reflexivity.
Qed.

Example C55_is_leaf_ex :
  exists Y, t_forward 2 [3] (ex_tconv Zeros Zeros) 5 ex_clip = Ok Y /\
  exists y0 y1 y2, conv_forward (t_cfg 2 [3] (ex_tconv Zeros Zeros)) (in_frames 2 [3] (ex_tconv Zeros Zeros) 5 ex_clip (seq 0 5)) = Ok [y0; y1; y2] /\
    stack2 2 4 [3] [y0; y1; y2] = Y.
Proof. eexists. split; [vm_compute; reflexivity|]. do 3 eexists. split; vm_compute; reflexivity. Qed.

(** With padding_mode="replicate" and the default temporal_fill="zeros" (conv.py:62,
    the documentation at conv.py:351 names 'replicate' as the default) stepping
    with end padding does not give the result of [forward]. *)
Theorem C55_default_fill_refuted :
  exists (c : tconv Z) (B : nat) (sp : list nat) T X Y Y' o,
    t_mode c = Replicate /\ t_fill c = Zeros /\ tconv_ok B sp {| t_cin := t_cin c; t_cout := t_cout c; t_g := t_g c;
        t_k := t_k c; t_ks := t_ks c; t_s := t_s c; t_ss := t_ss c; t_p := t_p c; t_ps := t_ps c; t_ds := t_ds c;
        t_w := t_w c; t_b := t_b c; t_mode := t_mode c; t_fill := t_mode c |} /\
    t_forward B sp c T X = Ok Y /\
    t_forward_steps B sp c obj_init (in_frames B sp c T X (seq 0 T)) true true = Ok (Some Y', o) /\
    length Y' = t_olen c T /\ stack2 B (t_cout c) (t_osp sp c) Y' <> Y.
Proof.
  exists (ex_tconv Replicate Zeros), 2, [3], 5, ex_clip. do 3 eexists.
  split; [reflexivity|]. split; [reflexivity|]. split; [apply ex_tconv_ok; discriminate|].
  split; [vm_compute; reflexivity|]. split; [vm_compute; reflexivity|]. split; [reflexivity|]. vm_compute. discriminate.
Qed.
Print Assumptions C55_default_fill_refuted.
