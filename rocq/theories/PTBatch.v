(** Property C66: streams whose batch size changes. *)
From Coq Require Import List ZArith Bool Arith Lia.
From Verif Require Import Base Frames CoMod Leaf Spec Tensor TConv TConvSpec TPool TPoolSpec TNet TBatch TBatchSpec TBatchProof PTensor PTPool.
Import ListNotations.

(** C66.  A convolution whose stream began with a frame of batch size [n] accepts frames of
    batch size 1, and returns what [forward] returns for the clip in which each of these is
    repeated for every sample. *)
Theorem C66_conv_frames :
  forall (K : Type) (SC : Scal K) (SL : ScalLaws K) (n : nat) (sp : list nat) (c : tconv K), tconv_ok n sp c -> 2 <= t_k c ->
  forall T X Y m xs, t_forward n sp c T X = Ok Y -> m <= T ->
  Forall (frame_ok n (t_cin c :: sp)) xs -> match xs with x0 :: _ => fst x0 = n | [] => True end ->
  map (in_batch n) xs = in_frames n sp c T X (seq 0 m) ->
  exists o, feed (fun o x => tb_forward_step sp c o x true) obj_init xs =
    Ok (map (fun i => option_map (pair n) (scheduled (t_delay c) (t_s c) (out_frames n sp c T Y) i)) (seq 0 m), o).
Proof. exact @conv_stream. Qed.
Print Assumptions C66_conv_frames.

(** The same for any calls of forward_step and forward_steps after the first frame, with any
    flags: the results are those of the calls with the repeated frames. *)
Theorem C66_conv_calls :
  forall (K : Type) (SC : Scal K) (n : nat) (sp : list nat) (c : tconv K), tconv_ok n sp c -> 2 <= t_k c ->
  forall x0 l, fst x0 = n ->
  Forall (fun a => Forall (frame_ok n (t_cin c :: sp)) (bframes a)) (BStep x0 true :: l) ->
  same_run n (brun (tb_forward_step sp c) (tb_forward_steps sp c) obj_init (BStep x0 true :: l))
             (brun (t_forward_step n sp c) (t_forward_steps n sp c) obj_init (map (bmap (in_batch n)) (BStep x0 true :: l))).
Proof.
  intros K SC n sp c OK K2 x0 l H0 Hl. rewrite (conv_run n sp c OK K2 x0 l H0 Hl).
  destruct (brun (t_forward_step n sp c) _ _ _) as [[ys o]|e]; reflexivity.
Qed.
Print Assumptions C66_conv_calls.

(** After any such calls every other batch size raises, also a larger one than 1 in a stream
    that began with batch size 1. *)
Theorem C66_conv_raises :
  forall (K : Type) (SC : Scal K) (n : nat) (sp : list nat) (c : tconv K), tconv_ok n sp c -> 2 <= t_k c ->
  forall x0 l ys o x xs pe upd, fst x0 = n ->
  Forall (fun a => Forall (frame_ok n (t_cin c :: sp)) (bframes a)) (BStep x0 true :: l) ->
  brun (tb_forward_step sp c) (tb_forward_steps sp c) obj_init (BStep x0 true :: l) = Ok (ys, o) ->
  fst x <> n -> fst x <> 1 ->
  tb_forward_step sp c o x upd = Err RuntimeError /\ tb_forward_steps sp c o (x :: xs) pe upd = Err RuntimeError.
Proof. intros K SC n sp c OK K2 x0 l ys o x xs pe upd. exact (conv_raises n sp c OK K2 x0 l ys o x xs pe upd). Qed.
Print Assumptions C66_conv_raises.

(** Pooling. *)
Theorem C66_pool_frames :
  forall (K : Type) (P : Pool K) (PL : PoolLaws K) (n C : nat) (sp : list nat) (c : tpool), tpool_ok sp c ->
  forall T X Y m xs, p_forward n C sp c T X = Ok Y -> m <= T ->
  Forall (frame_ok n (C :: sp)) xs -> match xs with x0 :: _ => fst x0 = n | [] => True end ->
  map (in_batch n) xs = pin_frames n C sp T X (seq 0 m) ->
  exists o, feed (fun o x => pb_forward_step C sp c o x true) obj_init xs =
    Ok (map (fun i => option_map (pair n) (scheduled (p_delay c) (p_s c) (pout_frames n C sp c T Y) i)) (seq 0 m), o).
Proof. exact @pool_stream. Qed.
Print Assumptions C66_pool_frames.

Theorem C66_pool_calls :
  forall (K : Type) (P : Pool K) (n C : nat) (sp : list nat) (c : tpool) x0 l, fst x0 = n ->
  Forall (fun a => Forall (frame_ok n (C :: sp)) (bframes a)) (BStep x0 true :: l) ->
  same_run n (brun (pb_forward_step C sp c) (pb_forward_steps C sp c) obj_init (BStep x0 true :: l))
             (brun (p_forward_step n C sp c) (p_forward_steps n C sp c) obj_init (map (bmap (in_batch n)) (BStep x0 true :: l))).
Proof.
  intros K P n C sp c x0 l H0 Hl. rewrite (pool_run n C sp c x0 l H0 Hl).
  destruct (brun (p_forward_step n C sp c) _ _ _) as [[ys o]|e]; reflexivity.
Qed.
Print Assumptions C66_pool_calls.

Theorem C66_pool_raises :
  forall (K : Type) (P : Pool K) (n C : nat) (sp : list nat) (c : tpool) x0 l ys o x xs pe upd, fst x0 = n ->
  Forall (fun a => Forall (frame_ok n (C :: sp)) (bframes a)) (BStep x0 true :: l) ->
  brun (pb_forward_step C sp c) (pb_forward_steps C sp c) obj_init (BStep x0 true :: l) = Ok (ys, o) ->
  fst x <> n -> fst x <> 1 ->
  pb_forward_step C sp c o x upd = Err RuntimeError /\ pb_forward_steps C sp c o (x :: xs) pe upd = Err RuntimeError.
Proof. intros K P n C sp c x0 l ys o x xs pe upd. exact (pool_raises n C sp c x0 l ys o x xs pe upd). Qed.
Print Assumptions C66_pool_raises.

(** Delay: a frame of batch size 1 comes out repeated for every sample. *)
Theorem C66_delay_frames :
  forall (K : Type) (SC : Scal K) (n d : nat) (fl : fill) (s : list nat), 1 <= d ->
  forall xs : list (bat K), Forall (frame_ok n s) xs -> match xs with x0 :: _ => fst x0 = n | [] => True end ->
  exists o, feed (fun o x => db_forward_step d fl o x true) obj_init xs =
    Ok (map (fun i => if Nat.ltb i d then None else option_map (fun x => (n, in_batch n x)) (nth_error xs (i - d))) (seq 0 (length xs)), o).
Proof. exact @delay_stream. Qed.
Print Assumptions C66_delay_frames.

Theorem C66_delay_calls :
  forall (K : Type) (SC : Scal K) (n d : nat) (fl : fill) (s : list nat), 1 <= d ->
  forall x0 l, fst x0 = n -> Forall (fun a => Forall (frame_ok n s) (bframes a)) (BStep x0 true :: l) ->
  same_run n (brun (db_forward_step d fl) (db_forward_steps d fl) obj_init (BStep x0 true :: l))
             (brun (kd_forward_step (K := K) d fl) (kd_forward_steps d fl) obj_init (map (bmap (in_batch n)) (BStep x0 true :: l))).
Proof.
  intros K SC n d fl s D1 x0 l H0 Hl. rewrite (delay_run n d fl s D1 x0 l H0 Hl).
  destruct (brun (kd_forward_step d fl) _ _ _) as [[ys o]|e]; reflexivity.
Qed.
Print Assumptions C66_delay_calls.

Theorem C66_delay_raises :
  forall (K : Type) (SC : Scal K) (n d : nat) (fl : fill) (s : list nat), 1 <= d ->
  forall x0 l ys o (x : bat K) xs pe upd, fst x0 = n ->
  Forall (fun a => Forall (frame_ok n s) (bframes a)) (BStep x0 true :: l) ->
  brun (db_forward_step d fl) (db_forward_steps d fl) obj_init (BStep x0 true :: l) = Ok (ys, o) ->
  fst x <> n -> fst x <> 1 ->
  db_forward_step d fl o x upd = Err RuntimeError /\ db_forward_steps d fl o (x :: xs) pe upd = Err RuntimeError.
Proof. intros K SC n d fl s D1 x0 l ys o x xs pe upd. exact (delay_raises n d fl s D1 x0 l ys o x xs pe upd). Qed.
Print Assumptions C66_delay_raises.

(* ------------------------------------------------------------------ *)
(** ** Examples *)

(** The convolution of C55 in a stream of batch size 2: the second frame has batch size 1. *)
Definition ex_f (b s : nat) : bat Z := (b, map (fun i => Z.of_nat ((i + s) * (i + s) mod 17)) (seq 0 (b * 6))).
Definition ex_bs : list (bat Z) := [ex_f 2 1; ex_f 1 2; ex_f 2 3; ex_f 1 4; ex_f 2 5].
Definition ex_bclip : list Z := stack2 2 2 [3] (map (in_batch 2) ex_bs).

Lemma ex_bs_ok : Forall (frame_ok 2 [2; 3]) ex_bs.
Proof. repeat (constructor; [split; [cbn; auto|reflexivity]|]). constructor. Qed.

Example C66_conv_frames_ex :
  tconv_ok 2 [3] (ex_tconv Zeros Zeros) /\ Forall (frame_ok 2 [2; 3]) ex_bs /\
  map (in_batch 2) ex_bs = in_frames 2 [3] (ex_tconv Zeros Zeros) 5 ex_bclip (seq 0 5) /\
  in_batch 2 (ex_f 1 2) = snd (ex_f 1 2) ++ snd (ex_f 1 2) /\
  exists Y, t_forward 2 [3] (ex_tconv Zeros Zeros) 5 ex_bclip = Ok Y /\
    exists o, feed (fun o x => tb_forward_step [3] (ex_tconv Zeros Zeros) o x true) obj_init ex_bs =
      Ok ([None; Some (2, slice2 2 4 3 [3] Y 0); None; Some (2, slice2 2 4 3 [3] Y 1); None], o).
Proof.
  split; [apply ex_tconv_ok; discriminate|]. split; [apply ex_bs_ok|]. split; [vm_compute; reflexivity|]. split; [vm_compute; reflexivity|].
  eexists. split; [vm_compute; reflexivity|]. eexists. vm_compute. reflexivity.
Qed.

(** A clip of frames of batch sizes 1 and 2 stands for calls with different clips; batch
    size 3 raises, and so does batch size 2 in a stream that began with 1. *)
Example C66_conv_calls_ex :
  (exists ys o, brun (tb_forward_step [3] (ex_tconv Replicate Replicate)) (tb_forward_steps [3] (ex_tconv Replicate Replicate)) obj_init
     [BStep (ex_f 2 1) true; BSteps [ex_f 1 2; ex_f 1 3] true false; BStep (ex_f 1 4) true; BSteps [ex_f 1 2; ex_f 1 3] true true] = Ok (ys, o) /\
     map (option_map (@length _)) ys = [None; Some 2; Some 1; Some 1] /\
     Forall (fun y => match y with Some l => map fst l = repeat 2 (length l) | None => True end) ys /\
     tb_forward_step [3] (ex_tconv Replicate Replicate) o (ex_f 3 1) true = Err RuntimeError) /\
  exists ys o, brun (tb_forward_step [3] (ex_tconv Zeros Zeros)) (tb_forward_steps [3] (ex_tconv Zeros Zeros)) obj_init [BStep (ex_f 1 1) true] = Ok (ys, o) /\
     tb_forward_step [3] (ex_tconv Zeros Zeros) o (ex_f 2 1) true = Err RuntimeError.
Proof.
  split; do 2 eexists; (split; [vm_compute; reflexivity|]); [|vm_compute; reflexivity].
  split; [vm_compute; reflexivity|]. split; [repeat constructor|vm_compute; reflexivity].
Qed.

Definition ex_z (b s : nat) : bat (option Z) := (b, map (fun i => Some (Z.of_nat ((i + s) * (i + s) mod 17) - 20)%Z) (seq 0 (b * 8))).
Example C66_pool_ex :
  let c := ex_pool true NegInf false true None None in
  let xs := [ex_z 3 1; ex_z 1 2; ex_z 3 3; ex_z 1 4; ex_z 1 5] in
  tpool_ok (P := ZMax) [4] c /\ Forall (frame_ok 3 [2; 4]) xs /\
  (exists Y o, p_forward (P := ZMax) 3 2 [4] c 5 (stack2 (SC := pool_scal ZMax) 3 2 [4] (map (in_batch 3) xs)) = Ok Y /\
    feed (fun o x => pb_forward_step (P := ZMax) 2 [4] c o x true) obj_init xs =
      Ok (map (option_map (pair 3)) [None; Some (slice2 (SC := pool_scal ZMax) 3 2 3 [3] Y 0); None; Some (slice2 (SC := pool_scal ZMax) 3 2 3 [3] Y 1); None], o) /\
    pb_forward_step (P := ZMax) 2 [4] c o (ex_z 2 1) false = Err RuntimeError).
Proof.
  cbv zeta. split; [apply (ex_max_ok true)|]. split; [repeat (constructor; [split; [cbn; auto|reflexivity]|]); constructor|].
  do 2 eexists. split; [vm_compute; reflexivity|]. split; vm_compute; reflexivity.
Qed.

Example C66_delay_ex :
  exists o, feed (fun o x => db_forward_step 2 Zeros o x true) obj_init
      [(2, [1; 2; 3; 4]%Z); (1, [5; 6]%Z); (2, [7; 8; 9; 10]%Z); (1, [11; 12]%Z)] =
    Ok ([None; None; Some (2, [1; 2; 3; 4]%Z); Some (2, [5; 6; 5; 6]%Z)], o) /\
    db_forward_step 2 Zeros o (3, [1; 2; 3; 4; 5; 6]%Z) true = Err RuntimeError.
Proof. eexists. split; vm_compute; reflexivity. Qed.
