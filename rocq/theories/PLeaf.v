(** Properties C01-C07 and C36-C38: leaf modules. *)
From Coq Require Import List ZArith Bool Arith Permutation Lia.
From Verif Require Import Base Frames CoMod Leaf Spec LeafSpec LeafProof LeafMore LeafBig ZFrames.
Import ListNotations.

(** C01.  Stepping a clean convolution over [xs] returns, at step n, None unless
    n = delay + j*stride, and then output j of [forward] on any accepted clip
    that starts with [xs]. *)
Theorem C01_conv_step_is_forward :
  forall (F : Type) (FA : Frames F) (FL : FrameLaws F) (c : conv_cfg F) (xs ws ys : list F),
    conv_ok c ->
    conv_forward c (xs ++ ws) = Ok ys ->
    exists o,
      feed (fun o x => conv_forward_step c o x true) obj_init xs
      = Ok (map (scheduled (conv_delay c) (cs c) ys) (seq 0 (length xs)), o).
Proof. exact @conv_step_thm. Qed.
Print Assumptions C01_conv_step_is_forward.

(** C01, the forward hypothesis is satisfied by every long enough clip. *)
Theorem C01_conv_forward_accepts :
  forall (F : Type) (FA : Frames F) (c : conv_cfg F) (xs : list F),
    xs <> [] -> ck c <= length xs + 2 * cp c ->
    exists ys, conv_forward c xs = Ok ys.
Proof. exact @conv_forward_total. Qed.
Print Assumptions C01_conv_forward_accepts.

(** k = 3, stride 2, padding 1, bias 7, replicate padding. *)
Definition ex_conv := zconv [1; 10; 100]%Z 2 1 (Some 7%Z) Replicate Replicate.
Example ex_conv_ok : conv_ok ex_conv.
Proof.
  constructor; simpl; try lia; try discriminate; auto.
Qed.
Example C01_example :
  conv_forward ex_conv [1; 2; 3; 4; 5]%Z = Ok [218; 439; 561]%Z /\
  exists o, feed (fun o x => conv_forward_step ex_conv o x true) obj_init [1; 2; 3; 4; 5]%Z
  = Ok ([None; Some 218; None; Some 439; None]%Z, o).
Proof. split; [|eexists]; vm_compute; reflexivity. Qed.

(** C02.  After any number of single steps, a final chunk with pad_end=True
    completes exactly the output of [forward] on the whole clip (with no single
    steps: forward_steps(x, pad_end=True) = forward(x)). *)
Theorem C02_conv_pad_end_is_forward :
  forall (F : Type) (FA : Frames F) (FL : FrameLaws F) (c : conv_cfg F) (xs1 xs2 ys : list F),
    conv_ok c -> xs2 <> [] ->
    conv_forward c (xs1 ++ xs2) = Ok ys ->
    exists os o1 o2 rest,
      feed (fun o x => conv_forward_step c o x true) obj_init xs1 = Ok (os, o1) /\
      conv_forward_steps c o1 xs2 true true = Ok (stack_outs rest, o2) /\
      somes os ++ rest = ys.
Proof. exact @conv_pad_end_thm. Qed.
Print Assumptions C02_conv_pad_end_is_forward.

Example C02_example :
  exists o, conv_forward_steps ex_conv obj_init [1; 2; 3; 4; 5]%Z true true
  = Ok (Some [218; 439; 561]%Z, o).
Proof. eexists; vm_compute; reflexivity. Qed.

(** C03.  The same for pooling with temporal dilation 1. *)
Theorem C03_pool_step_is_forward :
  forall (F : Type) (FA : Frames F) (c : pool_cfg F) (xs ws ys : list F),
    pool_ok c ->
    pool_forward c (xs ++ ws) = Ok ys ->
    exists o,
      feed (fun o x => pool_forward_step c o x true) obj_init xs
      = Ok (map (scheduled (pool_delay c) (ps c) ys) (seq 0 (length xs)), o).
Proof. exact @pool_step_thm. Qed.
Print Assumptions C03_pool_step_is_forward.

(** C04. *)
Theorem C04_pool_pad_end_is_forward :
  forall (F : Type) (FA : Frames F) (c : pool_cfg F) (xs1 xs2 ys : list F),
    pool_ok c -> xs2 <> [] ->
    pool_forward c (xs1 ++ xs2) = Ok ys ->
    exists os o1 o2 rest,
      feed (fun o x => pool_forward_step c o x true) obj_init xs1 = Ok (os, o1) /\
      pool_forward_steps c o1 xs2 true true = Ok (stack_outs rest, o2) /\
      somes os ++ rest = ys.
Proof. exact @pool_pad_end_thm. Qed.
Print Assumptions C04_pool_pad_end_is_forward.

Lemma fold_perm_max l l' : Permutation l l' ->
  fold_right Z.max (-1000000)%Z l = fold_right Z.max (-1000000)%Z l'.
Proof. induction 1; simpl; lia. Qed.

Definition ex_max := zmax 3 1 1 1 NegInf.
Example ex_max_ok : pool_ok ex_max.
Proof. constructor; simpl; try lia; auto using fold_perm_max. Qed.
Example C03_C04_example :
  pool_forward ex_max [-3; -5; -2; -7]%Z = Ok [-3; -2; -2; -2]%Z /\
  (exists o, feed (fun o x => pool_forward_step ex_max o x true) obj_init [-3; -5; -2; -7]%Z
     = Ok ([None; Some (-3); Some (-2); Some (-2)]%Z, o)) /\
  (exists o, pool_forward_steps ex_max obj_init [-3; -5; -2; -7]%Z true true
     = Ok (Some [-3; -2; -2; -2]%Z, o)).
Proof. repeat split; try eexists; vm_compute; reflexivity. Qed.

(** C04, negative part: max pooling with zero fill (the default of MaxPool2d,
    MaxPool3d and of every converted max pooling) is not [forward]. *)
Theorem C04_max_zero_fill_refuted :
  exists (c : pool_cfg Z) (xs ys : list Z),
    pfill c = Zeros /\ pmode c = NegInf /\ pd c = 1 /\ pp c < pk c /\
    pool_forward c xs = Ok ys /\
    exists o zs, pool_forward_steps c obj_init xs true true = Ok (Some zs, o) /\ zs <> ys.
Proof.
  exists (zmax 3 1 1 1 Zeros), [-3; -5; -2]%Z, [-3; -2; -2]%Z.
  repeat split; try (simpl; lia).
  do 2 eexists. split; [vm_compute; reflexivity|]. discriminate.
Qed.
Print Assumptions C04_max_zero_fill_refuted.

(** C05.  A Delay without shrinking is an exact FIFO. *)
Theorem C05_delay_fifo :
  forall (F : Type) (FA : Frames F) (d : nat) (m : fill) (sh : shrink) (xs : list F),
    sh <> ShTrue ->
    exists o,
      feed (fun o x => delay_forward_step d m sh o x true) obj_init xs
      = Ok (map (fun n => if Nat.ltb n d then None else nth_error xs (n - d))
                (seq 0 (length xs)), o).
Proof. exact @delay_fifo_thm. Qed.
Print Assumptions C05_delay_fifo.

Example C05_example :
  exists o, feed (fun o x => delay_forward_step 2 Replicate ShNo o x true) obj_init [4; 5; 6; 7; 8]%Z
  = Ok ([None; None; Some 4; Some 5; Some 6]%Z, o).
Proof. eexists; vm_compute; reflexivity. Qed.

(** C06.  forward_steps of a clean Delay. *)
Theorem C06_delay_pad_end :
  forall (F : Type) (FA : Frames F) (d : nat) (m : fill) (sh : shrink) (xs : list F),
    sh <> ShTrue -> xs <> [] ->
    exists o, delay_forward_steps d m sh obj_init xs true true = Ok (Some xs, o).
Proof. exact @delay_pad_end_thm. Qed.
Print Assumptions C06_delay_pad_end.

Theorem C06_delay_no_pad :
  forall (F : Type) (FA : Frames F) (d : nat) (m : fill) (xs : list F),
    xs <> [] ->
    exists o, delay_forward_steps d m ShNo obj_init xs false true
              = Ok (stack_outs (firstn (length xs - d) xs), o).
Proof. exact @delay_steps_noshrink_thm. Qed.
Print Assumptions C06_delay_no_pad.

Example C06_example :
  (exists o, delay_forward_steps 2 Zeros ShNo obj_init [4; 5; 6]%Z true true = Ok (Some [4; 5; 6]%Z, o)) /\
  (exists o, delay_forward_steps 2 Zeros ShNo obj_init [4; 5; 6]%Z false true = Ok (Some [4]%Z, o)) /\
  (exists o, delay_forward_steps 2 Zeros ShNo obj_init [4; 5]%Z false true = Ok (None, o)).
Proof. repeat split; eexists; vm_compute; reflexivity. Qed.

(** C07.  The shrinking delays and Skip. *)
Theorem C07_delay_shrink :
  forall (F : Type) (FA : Frames F) (d : nat) (m : fill) (sh : shrink) (xs : list F),
    sh = ShTrue \/ sh = ShLagging -> xs <> [] ->
    exists o, delay_forward_steps d m sh obj_init xs false true
              = Ok (stack_outs (delay_forward d sh xs), o).
Proof. exact @delay_shrink_thm. Qed.
Print Assumptions C07_delay_shrink.

Theorem C07_skip_step :
  forall (F : Type) (FA : Frames F) (n : nat) (xs : list F),
    exists o,
      feed (fun o x => skip_forward_step n o x true) (skip_init n) xs
      = Ok (map (fun i => if Nat.ltb i n then None else nth_error xs i)
                (seq 0 (length xs)), o).
Proof. exact @skip_feed. Qed.
Print Assumptions C07_skip_step.

Theorem C07_skip_steps :
  forall (F : Type) (FA : Frames F) (n : nat) (xs : list F) (pe : bool),
    xs <> [] ->
    exists o, skip_forward_steps n (skip_init n) xs pe true
              = Ok (stack_outs (skipn n xs), o).
Proof. exact @skip_steps_thm. Qed.
Print Assumptions C07_skip_steps.

(** C07, negative part: the "centered" option, which [forward] treats like True,
    emits too many frames when stepping. *)
Theorem C07_centered_refuted :
  exists (d : nat) (xs : list Z) o zs,
    delay_forward_steps d Zeros ShCentered obj_init xs false true = Ok (Some zs, o) /\
    zs <> delay_forward d ShCentered xs.
Proof.
  exists 1, [1; 2; 3; 4]%Z. do 2 eexists. split; [vm_compute; reflexivity|]. discriminate.
Qed.
Print Assumptions C07_centered_refuted.

Example C07_example :
  (exists o, delay_forward_steps 1 Replicate ShTrue obj_init [1; 2; 3; 4]%Z false true = Ok (Some [2; 3]%Z, o)) /\
  (exists o, delay_forward_steps 1 Replicate ShLagging obj_init [1; 2; 3; 4]%Z false true = Ok (Some [1; 2; 3]%Z, o)) /\
  (exists o, skip_forward_steps 2 (skip_init 2) [1; 2; 3; 4]%Z false true = Ok (Some [3; 4]%Z, o)).
Proof. repeat split; eexists; vm_compute; reflexivity. Qed.

(** C36.  A convolution with temporal kernel 1 and stride > 1 returns a tensor
    at every single step. *)
Theorem C36_conv_k1_emits_always :
  forall (F : Type) (FA : Frames F) (FL : FrameLaws F) (c : conv_cfg F) (xs : list F),
    ck c = 1 -> cp c = 0 -> 2 <= cs c ->
    forall o, o_buf o = [] ->
    exists o', feed (fun o x => conv_forward_step c o x true) o xs
               = Ok (map (fun x => Some (add_bias (cb c) (fadd (cW c 0 x) f0))) xs, o').
Proof. exact @conv_k1_feed. Qed.
Print Assumptions C36_conv_k1_emits_always.

Theorem C36_conv_k1_refuted :
  exists (c : conv_cfg Z) (xs ys : list Z) os o,
    ck c = 1 /\ cs c = 2 /\ cp c = 0 /\
    conv_forward c xs = Ok ys /\
    feed (fun o x => conv_forward_step c o x true) obj_init xs = Ok (os, o) /\
    somes os <> ys /\
    os <> map (scheduled (conv_delay c) (cs c) ys) (seq 0 (length xs)).
Proof.
  exists (zconv [3]%Z 2 0 None Zeros Zeros), [1; 2; 3]%Z, [3; 9]%Z. do 2 eexists.
  repeat split; try (vm_compute; reflexivity); vm_compute; discriminate.
Qed.
Print Assumptions C36_conv_k1_refuted.

(** ... and chunking matters: a single call of forward_steps does stride. *)
Theorem C36_conv_k1_chunking_refuted :
  exists (c : conv_cfg Z) (a b : list Z) o1 o2 o3 ya yb yab,
    ck c = 1 /\ cs c = 2 /\
    conv_forward_steps c obj_init a false true = Ok (Some ya, o1) /\
    conv_forward_steps c o1 b false true = Ok (Some yb, o2) /\
    conv_forward_steps c obj_init (a ++ b) false true = Ok (Some yab, o3) /\
    yab <> ya ++ yb.
Proof.
  exists (zconv [3]%Z 2 0 None Zeros Zeros), [1]%Z, [2; 3]%Z. do 6 eexists.
  repeat split; try (vm_compute; reflexivity); vm_compute; discriminate.
Qed.
Print Assumptions C36_conv_k1_chunking_refuted.

(** C37.  Padding p of at least the kernel size k, with e = p-(k-1): step n
    returns output (n+e)/s of [forward] if n > 0 and s divides n+e, else None.
    In particular the first step returns None and the first e/s+1 outputs are
    never returned. *)
Theorem C37_conv_large_padding_steps :
  forall (F : Type) (FA : Frames F) (FL : FrameLaws F) (c : conv_cfg F) (xs ws ys : list F),
    conv_overpadded c ->
    conv_forward c (xs ++ ws) = Ok ys ->
    exists o,
      feed (fun o x => conv_forward_step c o x true) obj_init xs
      = Ok (map (fun n => if Nat.leb 1 n && Nat.eqb ((n + (cp c - (ck c - 1))) mod cs c) 0
                          then nth_error ys ((n + (cp c - (ck c - 1))) / cs c) else None)
                (seq 0 (length xs)), o).
Proof. exact @big_step_thm. Qed.
Print Assumptions C37_conv_large_padding_steps.

(** C37.  Ending the stream with pad_end=True leaves exactly the first e/s+1
    (at least one) outputs of [forward] missing. *)
Theorem C37_conv_large_padding_loses :
  forall (F : Type) (FA : Frames F) (FL : FrameLaws F) (c : conv_cfg F) (xs1 xs2 ys : list F),
    conv_overpadded c -> xs2 <> [] ->
    conv_forward c (xs1 ++ xs2) = Ok ys ->
    (cp c - (ck c - 1)) / cs c + 1 <= length ys /\
    exists os o1 o2 rest,
      feed (fun o x => conv_forward_step c o x true) obj_init xs1 = Ok (os, o1) /\
      conv_forward_steps c o1 xs2 true true = Ok (stack_outs rest, o2) /\
      somes os ++ rest = skipn ((cp c - (ck c - 1)) / cs c + 1) ys.
Proof. exact @big_pad_end_thm. Qed.
Print Assumptions C37_conv_large_padding_loses.

(** C37.  A pooling layer with such a padding cannot run [forward] at all. *)
Theorem C37_pool_large_padding_raises :
  forall (F : Type) (FA : Frames F) (c : pool_cfg F) (xs : list F),
    pfdil c = 1 -> 2 <= pk c -> pk c <= pp c ->
    pool_forward c xs = Err RuntimeError.
Proof. exact @pool_overpadded. Qed.
Print Assumptions C37_pool_large_padding_raises.

(** k = 2, stride 2, padding 4 (e = 3): the first two of six outputs are lost. *)
Definition ex_big := zconv [1; 10]%Z 2 4 (Some 5%Z) Replicate Replicate.
Example ex_big_ok : conv_overpadded ex_big.
Proof. constructor; simpl; try lia; try discriminate; auto. Qed.
Example C37_example :
  conv_forward ex_big [1; 2; 3; 4; 5]%Z = Ok [16; 16; 26; 48; 60; 60]%Z /\
  (exists o, feed (fun o x => conv_forward_step ex_big o x true) obj_init [1; 2; 3; 4; 5]%Z
   = Ok ([None; Some 26; None; Some 48; None]%Z, o)) /\
  exists o, conv_forward_steps ex_big obj_init [1; 2; 3; 4; 5]%Z true true
   = Ok (Some [26; 48; 60; 60]%Z, o).
Proof. repeat split; try eexists; vm_compute; reflexivity. Qed.

Theorem C37_conv_large_padding_refuted :
  exists (c : conv_cfg Z) (xs ys zs : list Z) o,
    cp c = ck c /\ 2 <= ck c /\ cs c = 1 /\ cmode c = cfill c /\
    conv_forward c xs = Ok ys /\
    conv_forward_steps c obj_init xs true true = Ok (Some zs, o) /\
    length zs <> length ys.
Proof.
  exists (zconv [1; 10]%Z 1 2 None Zeros Zeros), [1; 2; 3]%Z.
  do 3 eexists. repeat split; try (vm_compute; reflexivity); vm_compute; auto; discriminate.
Qed.
Print Assumptions C37_conv_large_padding_refuted.

(** C38.  Pooling with temporal dilation: outputs appear at steps
    d*(k-1)-p + j*s for all k, d, s, p. *)
Theorem C38_dilated_pool_schedule :
  forall (F : Type) (FA : Frames F) (c : pool_cfg F) (xs : list F),
    1 <= pk c -> 1 <= ps c -> 1 <= pd c -> pp c <= pd c * (pk c - 1) ->
    exists os o,
      feed (fun o x => pool_forward_step c o x true) obj_init xs = Ok (os, o) /\
      map (fun o => match o with Some _ => true | None => false end) os
      = map (emits (pd c * (pk c - 1) - pp c) (ps c)) (seq 0 (length xs)).
Proof. exact @pool_dil_feed. Qed.
Print Assumptions C38_dilated_pool_schedule.

(** The reported delay is larger than the first output step, by d-1. *)
Theorem C38_dilated_pool_delay_refuted :
  forall (F : Type) (FA : Frames F) (c : pool_cfg F),
    1 <= pk c -> 2 <= pd c -> pp c <= pd c * (pk c - 1) ->
    pool_delay c = (pd c * (pk c - 1) - pp c) + (pd c - 1).
Proof. intros. unfold pool_delay, pool_rf. nia. Qed.
Print Assumptions C38_dilated_pool_delay_refuted.

(** Wrong values: stepping does not return the outputs of [forward]. *)
Theorem C38_dilated_pool_values_refuted :
  exists (c : pool_cfg Z) (xs ys zs : list Z) o,
    pd c = 2 /\ pfdil c = 2 /\ pp c = 0 /\ ps c = 1 /\
    pool_forward c xs = Ok ys /\
    pool_forward_steps c obj_init xs true true = Ok (Some zs, o) /\
    length zs = length ys /\ zs <> ys.
Proof.
  exists (zmax 2 1 0 2 NegInf), [9; 1; 2; 3; 4]%Z.
  do 3 eexists. repeat split; try (vm_compute; reflexivity). discriminate.
Qed.
Print Assumptions C38_dilated_pool_values_refuted.
