(** Property C68: what holds for floating-point numbers, bit for bit, and what
    does not.  No theorem here asks for a law of arithmetic. *)
From Coq Require Import List ZArith Bool Arith Lia Permutation.
From Coq Require Import Floats.SpecFloat.
From Verif Require Import Base Frames CoMod Leaf Rnn Net Spec LeafSpec NetSpec NetDef Calls Batch NetRel.
From Verif Require Import Attn AttnSpec FloatSpec FloatProof FloatLeaf FloatAttn FloatExact Float32.
From Verif Require Import NetThm.
Import ListNotations.

(** *** Networks in binary32, for the examples *)

Definition red32 : red f32 := {| r_op := add32; r_bcast := true; r_min2 := true |}.
Definition get32 (r : res (md f32)) : md f32 := match r with Ok m => m | Err _ => MSeq [] end.
(** Residual(conv k=3 p=1) with a bias. *)
Definition res32 : md f32 := get32 (residual (MConv (conv32 [b32 1; b32 2; b32 3] 1 1 (Some (b32 7))) obj_init) Zeros red32 RNo).
(** Sequential(conv k=3 p=1, Residual, average pooling k=2). *)
Definition net32 : md f32 := mk_seq [MConv (conv32 [b32 1; b32 1; b32 1] 1 1 None) obj_init; res32; MPool (avg32 2) obj_init].

Lemma conv32_shape w s p b : 1 <= length w -> 1 <= s -> p <= length w - 1 -> (length w = 1 -> s = 1) -> conv_shape (conv32 w s p b).
Proof. intros. constructor; cbn; auto; discriminate. Qed.
Lemma avg32_shape k : 1 <= k -> pool_shape (avg32 k).
Proof. intros. constructor; cbn; auto; lia. Qed.
Lemma res32_shaped sh : shaped sh res32.
Proof.
  eapply shaped_res with (m0 := MConv (conv32 [b32 1; b32 2; b32 3] 1 1 (Some (b32 7))) obj_init); [|left; reflexivity|reflexivity].
  constructor. apply conv32_shape; cbn; lia.
Qed.
Lemma net32_shaped sh : shaped sh net32.
Proof.
  apply (shaped_seq sh [MConv (conv32 [b32 1; b32 1; b32 1] 1 1 None) obj_init; res32; MPool (avg32 2) obj_init]).
  intros m [<-|[<-|[<-|[]]]].
  - constructor. apply conv32_shape; cbn; lia.
  - apply res32_shaped.
  - constructor. apply avg32_shape. lia.
Qed.
Lemma net32_built sh : built sh net32.
Proof. apply shaped_built, net32_shaped. Qed.
(** Half of a whole number, and the outputs of a run. *)
Definition half32 (z : Z) : f32 := div32 (b32 z) (b32 2).
Definition steps32 (m : md f32) (xs : list f32) : res (list (option f32)) := outs (feed (nstep true) m xs).

(** *** Schedule, receptive field, corrupted frames *)

(** Networks that meet the conditions read off the reported numbers, and the
    networks of the theorems on exact arithmetic, are among those considered. *)
Theorem C68_shaped_networks :
  forall (F : Type) (FA : Frames F) (sh : bool) (m : md F), shaped sh m -> built sh m.
Proof. exact @shaped_built. Qed.
Print Assumptions C68_shaped_networks.
Theorem C68_networks :
  forall (F : Type) (FA : Frames F) (sh : bool) (m : md F), cells_len m -> net sh m -> built sh m.
Proof. exact @net_built. Qed.
Print Assumptions C68_networks.

(** Which steps return an output does not depend on the numbers at all, and no
    step raises. *)
Theorem C68_schedule :
  forall (F : Type) (FA : Frames F) (sh : bool) (m : md F) (xs : list F),
    built sh m ->
    exists ys m', feed (nstep true) m xs = Ok (ys, m') /\
      map is_some ys = map (emits (Z.to_nat (del m)) (Z.to_nat (strd m))) (seq 0 (length xs)).
Proof. exact @built_pattern. Qed.
Print Assumptions C68_schedule.

(** The last output depends on the last [receptive_field] frames only, bit for bit. *)
Theorem C68_receptive_field :
  forall (F : Type) (FA : Frames F) (sh : bool) (m : md F) (a a' b : list F),
    built sh m -> rnn_free m -> length a = length a' ->
    (rfield m <= Z.of_nat (length b))%Z -> b <> [] ->
    exists ys ys' y m1 m1',
      feed (nstep true) m (a ++ b) = Ok (ys ++ [y], m1) /\
      feed (nstep true) m (a' ++ b) = Ok (ys' ++ [y], m1').
Proof. exact @built_memory. Qed.
Print Assumptions C68_receptive_field.

(** One corrupted frame (NaN, infinity, an outlier) changes no output before it
    and none that is [receptive_field] or more steps after it. *)
Theorem C68_corrupted_frame :
  forall (F : Type) (FA : Frames F) (sh : bool) (m : md F) (a : list F) (x x' : F) (b : list F),
    built sh m -> rnn_free m ->
    exists ys ys' m1 m1',
      feed (nstep true) m (a ++ x :: b) = Ok (ys, m1) /\
      feed (nstep true) m (a ++ x' :: b) = Ok (ys', m1') /\
      forall n, n < length a \/ (Z.of_nat (length a) + rfield m <= Z.of_nat n)%Z ->
        nth_error ys n = nth_error ys' n.
Proof. exact @built_corrupted'. Qed.
Print Assumptions C68_corrupted_frame.

(** The same for the results of forward. *)
Theorem C68_corrupted_clip :
  forall (F : Type) (FA : Frames F) (sh : bool) (m : md F) (a : list F) (x x' : F) (b ys : list F),
    built sh m -> rnn_free m -> nfwd m (a ++ x :: b) = Ok ys ->
    exists ys', nfwd m (a ++ x' :: b) = Ok ys' /\ length ys = length ys' /\
      forall j, let n := Z.to_nat (del m) + Z.to_nat (strd m) * j in
        n < length a \/ ((Z.of_nat (length a) + rfield m <= Z.of_nat n)%Z /\ n <= length a + length b) ->
        nth_error ys j = nth_error ys' j.
Proof. exact @built_forward_local. Qed.
Print Assumptions C68_corrupted_clip.

(** A NaN in the fourth frame: outputs 3 to 8 are NaN, the others are untouched. *)
Example C68_example_nan :
  built false net32 /\ rnn_free net32 /\ rfield net32 = 6%Z /\
  steps32 net32 ([b32 1; b32 2; b32 3] ++ nan32 :: [b32 5; b32 6; b32 7; b32 8; b32 9; b32 10; b32 11])
    = Ok [None; None; None; Some nan32; Some nan32; Some nan32; Some nan32; Some nan32; Some nan32;
          Some (half32 341); Some (half32 383)] /\
  steps32 net32 ([b32 1; b32 2; b32 3] ++ b32 4 :: [b32 5; b32 6; b32 7; b32 8; b32 9; b32 10; b32 11])
    = Ok [None; None; None; Some (half32 89); Some (half32 131); Some (half32 173); Some (half32 215);
          Some (half32 257); Some (half32 299); Some (half32 341); Some (half32 383)].
Proof. split; [apply net32_built|]. split; [cbn; tauto|]. split; [reflexivity|]. vm_compute. auto. Qed.

(** A recurrent module reports a receptive field of 1, but keeps a NaN forever. *)
Theorem C68_corrupted_rnn_refuted :
  exists (m : md f32), built true m /\ rfield m = 1%Z /\
    forall n, steps32 m (nan32 :: repeat (b32 1) n) = Ok (repeat (Some nan32) (S n)).
Proof.
  exists (MRnn rnn32 None). split; [constructor; repeat constructor|]. split; [reflexivity|].
  intros n. unfold steps32. cbn [feed].
  assert (E : nstep true (MRnn rnn32 None) nan32 = Ok (Some nan32, MRnn rnn32 (Some [[nan32]]))) by reflexivity.
  rewrite E. cbn [bind].
  assert (G : feed (nstep true) (MRnn rnn32 (Some [[nan32]])) (repeat (b32 1) n)
              = Ok (repeat (Some nan32) n, MRnn rnn32 (Some [[nan32]]))).
  { induction n as [|n IH]; [reflexivity|]. cbn [repeat feed].
    assert (E1 : nstep true (MRnn rnn32 (Some [[nan32]])) (b32 1) = Ok (Some nan32, MRnn rnn32 (Some [[nan32]]))) by reflexivity.
    rewrite E1. cbn [bind]. rewrite IH. reflexivity. }
  rewrite G. reflexivity.
Qed.
Print Assumptions C68_corrupted_rnn_refuted.

(** *** Which results can depend on which frames *)

(** Two histories of calls that differ only in marked frames give results that
    differ only where the run on the marks alone gives a mark. *)
Theorem C68_influence :
  forall (F : Type) (FA : Frames F) (m : md F) (cs : list (call (F * F))) (ts : list (call bool)),
    cond_free m -> cells_len m -> Forall2 (rel_call agree) cs ts ->
    exists ws,
      outs (run_calls m (map (call_map fst) cs)) = outs_map fst ws /\
      outs (run_calls m (map (call_map snd) cs)) = outs_map snd ws /\
      rel_res (Forall2 (rel_val agree)) ws (outs (run_calls (skeleton m) ts)).
Proof. exact @marks_calls. Qed.
Print Assumptions C68_influence.

(** A clip, of which the second frame is marked, then a frame. *)
Example C68_example_influence :
  let cs := [CSteps (VS [(b32 1, b32 1); (b32 2, nan32); (b32 3, b32 3); (b32 4, b32 4)]) false true;
             CStep (VT (b32 5, b32 5)) true] in
  let ts := [CSteps (VS [false; true; false; false]) false true; CStep (VT false) true] in
  let m := MConv (conv32 [b32 1; b32 1] 1 0 None) obj_init in
  cond_free m /\ cells_len m /\ Forall2 (rel_call (agree (F := f32))) cs ts /\
  outs (run_calls (skeleton m) ts) = Ok [VS [true; true; false]; VT false] /\
  outs (run_calls m (map (call_map fst) cs)) = Ok [VS [b32 3; b32 5; b32 7]; VT (b32 9)] /\
  outs (run_calls m (map (call_map snd) cs)) = Ok [VS [nan32; nan32; b32 7]; VT (b32 9)].
Proof.
  repeat split. repeat constructor; unfold agree; cbn; auto; discriminate.
Qed.

(** *** Convolution *)

(** What a step of a convolution computes, operation by operation. *)
Theorem C68_conv_step :
  forall (F : Type) (FA : Frames F) (c : conv_cfg F) (xs : list F),
    2 <= ck c -> 1 <= cs c -> cp c <= ck c - 1 ->
    exists o, feed (fun o x => conv_forward_step c o x true) obj_init xs
      = Ok (map (fun n => if emits (ck c - 1 - cp c) (cs c) n then Some (conv_value c xs n) else None)
                (seq 0 (length xs)), o).
Proof. exact @conv_feed_lawfree. Qed.
Print Assumptions C68_conv_step.

(** It depends on the last [ck c] frames only, and on nothing else: in
    particular not on the position in the stream. *)
Theorem C68_conv_window :
  forall (F : Type) (FA : Frames F) (c : conv_cfg F) (xs : list F) (n : nat),
    2 <= ck c -> ck c - 1 <= n -> conv_value c xs n = conv_window c (newest (ck c) n xs).
Proof. exact @conv_value_window. Qed.
Print Assumptions C68_conv_window.

Definition big32 : f32 := b32 (2 ^ 24).

(** A step of a convolution is not bit for bit the corresponding result of
    forward: it adds the products in another order. *)
Theorem C68_conv_exact_refuted :
  exists (c : conv_cfg f32) (xs : list f32) (y z : f32),
    conv_ok c /\ conv_forward c xs = Ok [y] /\
    steps32 (MConv c obj_init) xs = Ok [None; None; Some z] /\
    y = big32 /\ z = b32 (2 ^ 24 + 2).
Proof.
  exists (conv32 [b32 1; b32 1; b32 1] 1 0 None), [b32 1; b32 1; big32], big32, (b32 (2 ^ 24 + 2)).
  split; [|vm_compute; auto].
  constructor; cbn; auto; try discriminate; try lia. intros [|[|[|i]]]; [..|destruct i]; reflexivity.
Qed.
Print Assumptions C68_conv_exact_refuted.

(** With an infinite weight the step returns NaN where forward returns infinity:
    the step multiplies every weight with zeros. *)
Theorem C68_infinite_weight_refuted :
  exists (c : conv_cfg f32) (xs : list f32),
    conv_shape c /\ conv_forward c xs = Ok [inf32; inf32] /\
    steps32 (MConv c obj_init) xs = Ok [None; Some nan32; Some nan32].
Proof.
  exists (conv32 [inf32; b32 1] 1 0 None), [b32 1; b32 2; b32 3].
  split; [apply conv32_shape; cbn; lia|]. vm_compute. auto.
Qed.
Print Assumptions C68_infinite_weight_refuted.

(** *** Pooling *)

(** A step of a pooling aggregates its window in the order of the ring buffer,
    which rotates with the position in the stream. *)
Theorem C68_pool_order :
  forall (F : Type) (FA : Frames F) (c : pool_cfg F) (xs : list F),
    1 <= pk c -> 1 <= ps c -> pp c <= pk c - 1 -> pd c = 1 ->
    exists ys o, feed (fun o x => pool_forward_step c o x true) obj_init xs = Ok (ys, o) /\
      forall n, pk c - 1 <= n < length xs ->
        nth_error ys n
        = Some (if emits (pk c - 1 - pp c) (ps c) n
                then Some (pagg c (rotated (pk c) n (map (psp c) (newest (pk c) n xs)))) else None).
Proof. exact @pool_rotated. Qed.
Print Assumptions C68_pool_order.

(** So the same three frames give another average at another position, where
    forward gives the same. *)
Theorem C68_average_pool_refuted :
  exists (w : list f32) (ys : list (option f32)) (y z : f32),
    length w = 3 /\ steps32 (MPool (avg32 3) obj_init) (w ++ b32 5 :: w) = Ok ys /\
    nth_error ys 2 = Some (Some y) /\ nth_error ys 6 = Some (Some z) /\ y <> z /\
    pool_forward (avg32 3) w = Ok [y].
Proof.
  exists [big32; b32 1; b32 1]. do 3 eexists. split; [reflexivity|]. split; [vm_compute; reflexivity|].
  split; [reflexivity|]. split; [reflexivity|]. split; [discriminate|]. vm_compute. reflexivity.
Qed.
Print Assumptions C68_average_pool_refuted.

(** *** Networks without convolutions *)

(** Without convolutions, and if the poolings do not depend on the order of
    their window (as max pooling), the steps return the results of forward bit
    for bit. *)
Theorem C68_exact_schedule :
  forall (F : Type) (FA : Frames F) (sh : bool) (m : md F) (xs ws zs : list F),
    net sh m -> conv_free m -> nfwd m (xs ++ ws) = Ok zs ->
    exists m',
      feed (nstep true) m xs
      = Ok (map (scheduled (Z.to_nat (del m)) (Z.to_nat (strd m)) zs) (seq 0 (length xs)), m').
Proof. exact @exact_sched. Qed.
Print Assumptions C68_exact_schedule.

Theorem C68_exact_pad_end :
  forall (F : Type) (FA : Frames F) (m : md F) (xs zs : list F),
    net false m -> conv_free m -> xs <> [] -> nfwd m xs = Ok zs ->
    exists m', steps m (VS xs) true true = Ok (of_clip (stack_outs zs), m').
Proof. exact @exact_pad_end. Qed.
Print Assumptions C68_exact_pad_end.

(** Sequential(max pooling k=3 p=1, BroadcastReduce(x / 3, recurrent), max pooling
    k=2 s=2). *)
Definition br32 : md f32 := get32 (mk_br [MMap (fun x => div32 x (b32 3)); MRnn rnn32 None] red32 false).
Definition exact32 : md f32 := mk_seq [MPool (maxpool32 3 1 1) obj_init; br32; MPool (maxpool32 2 2 0) obj_init].

Lemma max32_perm l l' : Permutation l l' -> max32 l = max32 l'.
Proof.
  intros P. unfold max32. replace (existsb is_nan32 l') with (existsb is_nan32 l).
  - replace (fold_right Z.max (- 2 ^ 300)%Z (map ord32 l')) with (fold_right Z.max (- 2 ^ 300)%Z (map ord32 l)); [reflexivity|].
    generalize (- 2 ^ 300)%Z. intros z. induction P; cbn [map fold_right]; [reflexivity|congruence| |congruence].
    rewrite !Z.max_assoc. f_equal. apply Z.max_comm.
  - induction P; cbn [existsb]; [reflexivity|congruence| |congruence]. rewrite !orb_assoc. f_equal. apply orb_comm.
Qed.
Lemma maxpool32_ok k s p : 1 <= k -> 1 <= s -> p <= k - 1 -> pool_ok (maxpool32 k s p).
Proof. intros. constructor; cbn; auto. exact max32_perm. Qed.
Lemma exact32_net sh : net sh exact32.
Proof.
  apply regular_is_net. apply (regular_seq sh [MPool (maxpool32 3 1 1) obj_init; br32; MPool (maxpool32 2 2 0) obj_init]).
  intros m [<-|[<-|[<-|[]]]].
  - constructor; [apply maxpool32_ok; lia|cbn; lia].
  - eapply regular_br with (ms := [MMap (fun x => div32 x (b32 3)); MRnn rnn32 None]) (auto := false) (r := red32); [| | |reflexivity].
    + intros x [<-|[<-|[]]]; constructor.
    + left. intros a b [<-|[<-|[]]] [<-|[<-|[]]]; reflexivity.
    + intros a b [<-|[<-|[]]] [<-|[<-|[]]]; reflexivity.
  - constructor; [apply maxpool32_ok; lia|cbn; lia].
Qed.
Example C68_example_exact :
  net false exact32 /\ conv_free exact32 /\ del exact32 = 2%Z /\ strd exact32 = 2%Z /\
  exists a b c d,
    nfwd exact32 [b32 1; b32 7; b32 2; b32 (-3); b32 5; b32 1; big32; b32 4] = Ok [a; b; c; d] /\
    steps32 exact32 [b32 1; b32 7; b32 2; b32 (-3); b32 5; b32 1; big32; b32 4]
      = Ok [None; None; Some a; None; Some b; None; Some c; None] /\
    a <> b /\ b <> c.
Proof.
  split; [apply exact32_net|]. split; [cbn; tauto|]. split; [reflexivity|]. split; [reflexivity|].
  do 4 eexists. split; [vm_compute; reflexivity|]. split; [vm_compute; reflexivity|]. split; discriminate.
Qed.

(** *** Attention *)

(** The outputs of the retroactive attention depend on the last 2N - 1 tokens
    only, bit for bit (in exact arithmetic on the last N, see C30). *)
Theorem C68_retroactive_memory :
  forall (K : Type) (NK : Num K) (c : cfg K) (a a' b : list (tok K)) (h h' : cells),
    supported c -> 2 <= c_N c -> 2 * c_N c - 1 <= length b ->
    exists outs outs' y o o' h1 h1',
      m_run c (re_sdpa c) None (a ++ b) h = Ok (outs ++ [Some y], o, h1) /\
      m_run c (re_sdpa c) None (a' ++ b) h' = Ok (outs' ++ [Some y], o', h1').
Proof. exact @re_memory. Qed.
Print Assumptions C68_retroactive_memory.

(** A token with value [v]; with the module of [attn32] its key is zero. *)
Definition tok32 (v : f32) : tok f32 := ([b32 0], [b32 0], [v]).
Definition retro32 (e : f32 -> f32) (N : nat) (vs : list f32) : res (list (option (list (vec f32)))) :=
  '(ys, _, _) <- @m_run f32 (attn32 N) (@re_sdpa f32 (num32 e) (attn32 N)) None (map tok32 vs) [] ;; Ok ys.
Definition forward32 (e : f32 -> f32) (N : nat) (vs : list f32) : list (vec f32) :=
  @mha_forward f32 (num32 e) (attn32 N) (map (fun _ => [b32 0]) vs) (map (fun _ => [b32 0]) vs) (map (fun v => [v]) vs).

(** 2N - 1 is sharp: a NaN reaches the outputs of 2N - 1 steps, also those whose
    window of N tokens no longer holds it, where forward on the window gives
    numbers. *)
Theorem C68_retroactive_window_refuted :
  forall e : f32 -> f32,
    retro32 e 3 [nan32; b32 1; b32 2; b32 3; b32 4; b32 5]
      = Ok [None; None; Some [[nan32]; [nan32]; [nan32]]; Some [[nan32]; [nan32]; [b32 2]];
            Some [[nan32]; [b32 3]; [b32 3]]; Some [[b32 4]; [b32 4]; [b32 4]]] /\
    forward32 e 3 [b32 1; b32 2; b32 3] = [[b32 2]; [b32 2]; [b32 2]].
Proof. intros e. vm_compute. auto. Qed.
Print Assumptions C68_retroactive_window_refuted.

(** After a large value has left the window the outputs need not be close to
    forward's: here 1/2 instead of 1. *)
Theorem C68_retroactive_exact_refuted :
  forall e : f32 -> f32,
    retro32 e 2 [b32 (2 ^ 25); b32 1; b32 1]
      = Ok [None; Some [[big32]; [big32]]; Some [[half32 1]; [b32 1]]] /\
    forward32 e 2 [b32 1; b32 1] = [[b32 1]; [b32 1]].
Proof. intros e. vm_compute. auto. Qed.
Print Assumptions C68_retroactive_exact_refuted.

Example C68_example_retroactive :
  forall e : f32 -> f32,
    supported (attn32 3) /\ 2 * c_N (attn32 3) - 1 = length [b32 1; b32 2; b32 3; b32 4; b32 5] /\
    retro32 e 3 (nan32 :: [b32 1; b32 2; b32 3; b32 4; b32 5])
      = Ok [None; None; Some [[nan32]; [nan32]; [nan32]]; Some [[nan32]; [nan32]; [b32 2]];
            Some [[nan32]; [b32 3]; [b32 3]]; Some [[b32 4]; [b32 4]; [b32 4]]] /\
    retro32 e 3 [b32 1; b32 2; b32 3; b32 4; b32 5]
      = Ok [None; None; Some [[b32 2]; [b32 2]; [b32 2]]; Some [[b32 3]; [b32 3]; [b32 3]];
            Some [[b32 4]; [b32 4]; [b32 4]]].
Proof. intros e. split; [repeat split; cbn; auto|]. vm_compute. auto. Qed.
