(** Property C61: continual attention on whole tensors, in every layout. *)
From Coq Require Import List ZArith Bool Arith Lia QArith Qcanon.
From Verif Require Import Base Attn AttnSpec Tensor TAttn TAttnSpec TAttnProof ZAttn.
Import ListNotations.
Close Scope Q_scope.
Close Scope Qc_scope.
Open Scope nat_scope.

(** [forward] of the base class, which the retroactive module uses: entry (b, t, e) is
    multi-head attention of token t of batch element b over the keys and values of the
    same batch element. *)
Theorem C61_forward :
  forall (K : Type) (NK : Num K) (NL : NumLaws K) (m : tattn K) B L S q k v,
    0 < B -> 0 < t_H m ->
    clip_shape m B L q -> clip_shape m B S k -> clip_shape m B S v ->
    exists y, b_forward m q k v = Ok y /\ clip_shape m B L y
      /\ forall b t e, b < B -> t < L -> e < t_H m * t_D m ->
         get y (idx m b t e)
         = mha_entry m (token m q b t) (map (token m k b) (seq 0 S)) (map (token m v b) (seq 0 S)) e.
Proof. exact @b_forward_ok. Qed.
Print Assumptions C61_forward.

(** [forward] of the single-output module keeps the selected query only. *)
Theorem C61_single_forward :
  forall (K : Type) (NK : Num K) (NL : NumLaws K) (m : tattn K) B L S q k v query_index,
    0 < B -> 0 < t_H m ->
    clip_shape m B L q -> clip_shape m B S k -> clip_shape m B S v ->
    (- Z.of_nat L <= query_index < Z.of_nat L)%Z ->
    exists y, s_forward m true query_index q k v = Ok y /\ clip_shape m B 1 y
      /\ forall b e, b < B -> e < t_H m * t_D m ->
         get y (idx m b 0 e)
         = mha_entry m (token m q b (Z.to_nat (if Z.ltb query_index 0 then query_index + Z.of_nat L else query_index)))
             (map (token m k b) (seq 0 S)) (map (token m v b) (seq 0 S)) e.
Proof. exact @s_forward_single. Qed.
Print Assumptions C61_single_forward.

(** Steps of the single-output module: tensors of shape (B, E). *)
Theorem C61_single_steps :
  forall (K : Type) (NK : Num K) (NL : NumLaws K) (m : tattn K) B query_index ts h,
    0 < B -> 0 < t_H m -> 0 < t_N m ->
    (- Z.of_nat (t_N m) <= query_index < Z.of_nat (t_N m))%Z ->
    frames_ok m B ts ->
    exists outs o h', t_run (s_forward_step m (ts_sdpa m query_index)) None ts h = Ok (outs, o, h')
      /\ length outs = length ts
      /\ forall n d, n < length ts ->
         if n + 1 <? t_N m then nth n outs d = None
         else exists y, nth n outs d = Some y /\ frame_shape m B y /\
                forall b e, b < B -> e < t_H m * t_D m ->
                get y [b; e] = mha_entry m (q_at m ts b (qpos m query_index n))
                                 (map (k_at m ts b) (times m n)) (map (v_at m ts b) (times m n)) e.
Proof. exact @s_steps_ok. Qed.
Print Assumptions C61_single_steps.

(** Steps of the retroactive module: the outputs of the whole window in the layout of a
    clip. *)
Theorem C61_retro_steps :
  forall (K : Type) (NK : Num K) (NL : NumLaws K) (m : tattn K) B ts h,
    0 < B -> 0 < t_H m -> 2 <= t_N m -> frames_ok m B ts ->
    exists outs o h', t_run (r_forward_step m (tr_sdpa m)) None ts h = Ok (outs, o, h')
      /\ length outs = length ts
      /\ forall n d, n < length ts ->
         if n + 1 <? t_N m then nth n outs d = None
         else exists y, nth n outs d = Some y /\ clip_shape m B (t_N m) y /\
                forall b i e, b < B -> i < t_N m -> e < t_H m * t_D m ->
                get y (idx m b i e) = mha_entry m (q_at m ts b (n + 1 - t_N m + i))
                                        (map (k_at m ts b) (times m n)) (map (v_at m ts b) (times m n)) e.
Proof. exact @r_steps_ok. Qed.
Print Assumptions C61_retro_steps.

(** Every step equals [forward] on the clip that holds the window. *)
Theorem C61_single_step_equals_forward :
  forall (K : Type) (NK : Num K) (NL : NumLaws K) (m : tattn K) B query_index ts h n q k v,
    0 < B -> 0 < t_H m -> 0 < t_N m ->
    (- Z.of_nat (t_N m) <= query_index < Z.of_nat (t_N m))%Z ->
    frames_ok m B ts -> t_N m <= n + 1 -> n < length ts ->
    is_window m B n (q_at m ts) q -> is_window m B n (k_at m ts) k -> is_window m B n (v_at m ts) v ->
    exists outs o h' z y, t_run (s_forward_step m (ts_sdpa m query_index)) None ts h = Ok (outs, o, h')
      /\ nth n outs None = Some z /\ frame_shape m B z
      /\ s_forward m true query_index q k v = Ok y /\ clip_shape m B 1 y
      /\ forall b e, b < B -> e < t_H m * t_D m -> get z [b; e] = get y (idx m b 0 e).
Proof. exact @s_step_forward. Qed.
Print Assumptions C61_single_step_equals_forward.

Theorem C61_retro_step_equals_forward :
  forall (K : Type) (NK : Num K) (NL : NumLaws K) (m : tattn K) B ts h n q k v,
    0 < B -> 0 < t_H m -> 2 <= t_N m ->
    frames_ok m B ts -> t_N m <= n + 1 -> n < length ts ->
    is_window m B n (q_at m ts) q -> is_window m B n (k_at m ts) k -> is_window m B n (v_at m ts) v ->
    exists outs o h' z y, t_run (r_forward_step m (tr_sdpa m)) None ts h = Ok (outs, o, h')
      /\ nth n outs None = Some z /\ b_forward m q k v = Ok y
      /\ clip_shape m B (t_N m) z /\ clip_shape m B (t_N m) y
      /\ forall b i e, b < B -> i < t_N m -> e < t_H m * t_D m -> get z (idx m b i e) = get y (idx m b i e).
Proof. exact @r_step_forward. Qed.
Print Assumptions C61_retro_step_equals_forward.

(** A clip by forward_steps after any steps.  Single output: with batch_first, or with a
    batch of one, the outputs form a clip again. *)
Theorem C61_single_clip :
  forall (K : Type) (NK : Num K) (NL : NumLaws K) (m : tattn K) B query_index ts q k v L h,
    0 < B -> 0 < t_H m -> 0 < t_N m ->
    (- Z.of_nat (t_N m) <= query_index < Z.of_nat (t_N m))%Z -> frames_ok m B ts ->
    clip_shape m B L q -> clip_shape m B L k -> clip_shape m B L v -> 0 < L ->
    t_bf m = true \/ B = 1 ->
    exists outs o h1 y o2 h2,
      t_run (s_forward_step m (ts_sdpa m query_index)) None ts h = Ok (outs, o, h1)
      /\ s_forward_steps m (ts_sdpa m query_index) o q k v true h1 = Ok (y, o2, h2)
      /\ left_as_steps m (s_forward_step m (ts_sdpa m query_index)) B L q k v o h1 o2 h2
      /\ clip_result m (length ts) L y (fun c y => clip_shape m B c y
         /\ forall b j e, b < B -> j < c -> e < t_H m * t_D m ->
            let n := first_time m (length ts) + j in
            get y (idx m b j e)
            = mha_entry m (then_clip m (q_at m) ts q b (qpos m query_index n))
                (map (then_clip m (k_at m) ts k b) (times m n)) (map (then_clip m (v_at m) ts v b) (times m n)) e).
Proof. exact @s_clip. Qed.
Print Assumptions C61_single_clip.

(** Without batch_first and with more than one batch element they do not: the dimension
    of size one that should be removed stays.  The entries are right. *)
Theorem C61_single_clip_time_first_refuted :
  forall (K : Type) (NK : Num K) (NL : NumLaws K) (m : tattn K) B query_index ts q k v L h,
    0 < B -> 0 < t_H m -> 0 < t_N m ->
    (- Z.of_nat (t_N m) <= query_index < Z.of_nat (t_N m))%Z -> frames_ok m B ts ->
    clip_shape m B L q -> clip_shape m B L k -> clip_shape m B L v -> 0 < L ->
    t_bf m = false -> B <> 1 ->
    exists outs o h1 y o2 h2,
      t_run (s_forward_step m (ts_sdpa m query_index)) None ts h = Ok (outs, o, h1)
      /\ s_forward_steps m (ts_sdpa m query_index) o q k v true h1 = Ok (y, o2, h2)
      /\ left_as_steps m (s_forward_step m (ts_sdpa m query_index)) B L q k v o h1 o2 h2
      /\ clip_result m (length ts) L y (fun c y =>
         ~ clip_shape m B c y
         /\ sh y = (if t_eds m then [c; B; 1; t_H m * t_D m] else [c; 1; B; t_H m * t_D m])
         /\ forall b j e, b < B -> j < c -> e < t_H m * t_D m ->
            let n := first_time m (length ts) + j in
            get y (if t_eds m then [j; b; 0; e] else [j; 0; b; e])
            = mha_entry m (then_clip m (q_at m) ts q b (qpos m query_index n))
                (map (then_clip m (k_at m) ts k b) (times m n)) (map (then_clip m (v_at m) ts v b) (times m n)) e).
Proof. exact @s_clip_bad. Qed.
Print Assumptions C61_single_clip_time_first_refuted.

(** Retroactive: one clip of N outputs for every complete window. *)
Theorem C61_retro_clip :
  forall (K : Type) (NK : Num K) (NL : NumLaws K) (m : tattn K) B ts q k v L h,
    0 < B -> 0 < t_H m -> 2 <= t_N m -> frames_ok m B ts ->
    clip_shape m B L q -> clip_shape m B L k -> clip_shape m B L v -> 0 < L ->
    exists outs o h1 y o2 h2,
      t_run (r_forward_step m (tr_sdpa m)) None ts h = Ok (outs, o, h1)
      /\ r_forward_steps m (tr_sdpa m) o q k v true h1 = Ok (y, o2, h2)
      /\ left_as_steps m (r_forward_step m (tr_sdpa m)) B L q k v o h1 o2 h2
      /\ clip_result m (length ts) L y (fun c y =>
           sh y = ridx m B c (t_N m) (t_H m * t_D m)
           /\ forall b j i e, b < B -> j < c -> i < t_N m -> e < t_H m * t_D m ->
              let n := first_time m (length ts) + j in
              get y (ridx m b j i e)
              = mha_entry m (then_clip m (q_at m) ts q b (n + 1 - t_N m + i))
                  (map (then_clip m (k_at m) ts k b) (times m n)) (map (then_clip m (v_at m) ts v b) (times m n)) e).
Proof. exact @r_clip. Qed.
Print Assumptions C61_retro_clip.

(* ------------------------------------------------------------------ *)

(** Two heads of dimension two, windows of two tokens, batches of two. *)
Definition ex_num (a i : nat) : Qc := z (Z.of_nat ((i * a + a) mod 5) - 2)%Z.
Definition ex_ta (bf eds : bool) : tattn Qc := {|
  t_N := 2; t_H := 2; t_D := 2; t_scale := fun x => (x * Q2Qc (1 # 2))%Qc;
  t_win := map (ex_num 3) (seq 0 48); t_bin := Some (map (ex_num 2) (seq 0 12));
  t_wout := map (ex_num 4) (seq 0 16); t_bout := Some (map (ex_num 7) (seq 0 4));
  t_bf := bf; t_eds := eds |}.
Definition ex_frame (a : nat) : tens Qc := T [2; 4] (map (ex_num a) (seq 0 8)).
Definition ex_fr : list (step3 Qc) := [(ex_frame 3, ex_frame 2, ex_frame 1); (ex_frame 7, ex_frame 4, ex_frame 3); (ex_frame 1, ex_frame 8, ex_frame 2)].
Definition ex_clip (bf eds : bool) (a : nat) : tens Qc :=
  T (idx (ex_ta bf eds) 2 3 4) (map (ex_num a) (seq 0 24)).
Definition see (x : tens Qc) : list nat * list Q := (sh x, map this (dat x)).
Definition sees {S} (r : res (list (option (tens Qc)) * S * cells)) : res (list (option (list nat * list Q))) :=
  '(outs, _, _) <- r ;; Ok (map (option_map see) outs).

Lemma ex_fr_ok bf eds : frames_ok (ex_ta bf eds) 2 ex_fr.
Proof. repeat constructor. Qed.
Lemma ex_clip_ok bf eds a : clip_shape (ex_ta bf eds) 2 3 (ex_clip bf eds a).
Proof. reflexivity. Qed.

(** The last two of the three steps as a clip (B, E, L). *)
Definition ex_window (f : step3 Qc -> tens Qc) : tens Qc :=
  mk [2; 4; 2] (fun ix => match ix with [b; e; t] => get (f (nth (t + 1) ex_fr (ex_frame 0, ex_frame 0, ex_frame 0))) [b; e] | _ => k0 end).
Lemma ex_window_ok :
  is_window (ex_ta true true) 2 2 (q_at (ex_ta true true) ex_fr) (ex_window (fun t => fst (fst t)))
  /\ is_window (ex_ta true true) 2 2 (k_at (ex_ta true true) ex_fr) (ex_window (fun t => snd (fst t)))
  /\ is_window (ex_ta true true) 2 2 (v_at (ex_ta true true) ex_fr) (ex_window (fun t => snd t)).
Proof.
  assert (S : forall x, x < 2 -> x = 0 \/ x = 1) by (intros; lia).
  split; [|split]; (split; [reflexivity|]); intros b i Hb Hi;
    destruct (S b Hb) as [-> | ->], (S i Hi) as [-> | ->]; reflexivity.
Qed.

Example C61_steps_ex :
  frames_ok (ex_ta true true) 2 ex_fr
  /\ sees (t_run (s_forward_step (ex_ta true true) (ts_sdpa (ex_ta true true) (-1))) None ex_fr [])
     = Ok [None; Some ([2; 4], [(-39861 # 2929)%Q; (-28145 # 5858)%Q; 19%Q; (49287 # 2929)%Q; (-3530 # 201)%Q; (-1484 # 201)%Q; (11077 # 1206)%Q; (22714 # 603)%Q]);
           Some ([2; 4], [(49113 # 6118)%Q; (-290 # 133)%Q; (15977 # 6118)%Q; (-49031 # 6118)%Q;
                          (-10939 # 665)%Q; (149769 # 9310)%Q; (34537 # 4655)%Q; (53442 # 4655)%Q])]
  /\ (y <- s_forward (ex_ta true true) true (-1) (ex_window (fun t => fst (fst t))) (ex_window (fun t => snd (fst t))) (ex_window (fun t => snd t)) ;; Ok (see y))
     = Ok ([2; 4; 1], [(49113 # 6118)%Q; (-290 # 133)%Q; (15977 # 6118)%Q; (-49031 # 6118)%Q;
                       (-10939 # 665)%Q; (149769 # 9310)%Q; (34537 # 4655)%Q; (53442 # 4655)%Q]).
Proof. split; [apply ex_fr_ok|]. split; vm_compute; reflexivity. Qed.

(** Shapes of a clip of three tokens through forward_steps. *)
Definition shape_of {S} (r : res (option (tens Qc) * S * cells)) : res (option (list nat)) :=
  '(o, _, _) <- r ;; Ok (option_map sh o).
Definition s_shape bf eds := shape_of (s_forward_steps (ex_ta bf eds) (ts_sdpa (ex_ta bf eds) (-1)) None
  (ex_clip bf eds 3) (ex_clip bf eds 2) (ex_clip bf eds 1) true []).
Definition r_shape bf eds := shape_of (r_forward_steps (ex_ta bf eds) (tr_sdpa (ex_ta bf eds)) None
  (ex_clip bf eds 3) (ex_clip bf eds 2) (ex_clip bf eds 1) true []).
Example C61_clip_ex :
  s_shape true false = Ok (Some [2; 2; 4]) /\ s_shape true true = Ok (Some [2; 4; 2])
  /\ s_shape false false = Ok (Some [2; 1; 2; 4]) /\ s_shape false true = Ok (Some [2; 2; 1; 4])
  /\ r_shape true false = Ok (Some [2; 2; 2; 4]) /\ r_shape true true = Ok (Some [2; 4; 2; 2])
  /\ r_shape false false = Ok (Some [2; 2; 2; 4]) /\ r_shape false true = Ok (Some [2; 4; 2; 2]).
Proof. repeat split; vm_compute; reflexivity. Qed.

Example C61_retro_ex :
  sees (t_run (r_forward_step (ex_ta false false) (tr_sdpa (ex_ta false false))) None (firstn 2 ex_fr) [])
  = Ok [None; Some ([2; 2; 4],
    [(-12772 # 933)%Q; (-4520 # 933)%Q; 19%Q; (5308 # 311)%Q; (-251701 # 19578)%Q; (-84265 # 9789)%Q; (97871 # 19578)%Q; (358736 # 9789)%Q;
     (-39861 # 2929)%Q; (-28145 # 5858)%Q; 19%Q; (49287 # 2929)%Q; (-3530 # 201)%Q; (-1484 # 201)%Q; (11077 # 1206)%Q; (22714 # 603)%Q])].
Proof. vm_compute. reflexivity. Qed.
