(** Properties C71 and C72: transformer layers and encoders on whole tensors, over any
    sequence of calls, and inside of call-mode contexts. *)
From Coq Require Import List ZArith Bool Arith Lia QArith Qcanon.
From Verif Require Import Base Attn AttnSpec CallMode Tensor TAttn TAttnSpec TEnc TEncSpec TEncMix TEncCtx TAttnProof ZAttn.
Import ListNotations.
Close Scope Q_scope.
Close Scope Qc_scope.
Open Scope nat_scope.

(** C71.  The calls are forward_step on frames (B, E), forward_steps on clips (B, E, L) and
    forward on clips, in any order and each in any context or none.

    Single-output layer with query_index=-1 and single_output_forward=False, as the one-layer
    encoder uses it. *)
Theorem C71_single_layer :
  forall (K : Type) (NK : Num K) (NL : NumLaws K) (p : layer K) B l f,
    let N := t_N (l_a p) in let E := t_H (l_a p) * t_D (l_a p) in
    layer_ok p -> 0 < B -> 0 < N -> input_holds (fun _ => True) E B 0 l f ->
    exists outs s', calls (so_layer p (-1) false) SNone l = Ok (outs, s')
      /\ answers N
           (fun n y => frame_holds E B y (fun b => layer_token p (window_tokens N n f b) (N - 1)))
           (fun n c y => clip_holds E B c y (fun b j => layer_token p (window_tokens N (n + j) f b) (N - 1)))
           (fun x y => forall L k, clip_holds E B L x k -> clip_holds E B L y (fun b t => layer_token p (clip_tokens L k b) t))
           0 l outs.
Proof. intros K NK NL p B l f N E OK HB. exact (so_calls_all B HB p OK l f). Qed.
Print Assumptions C71_single_layer.

(** With single_output_forward=True and any query index: forward then gives one token.  With
    query_index >= 0 it selects the residual from the end of the clip, so the clip must have
    the length of the window. *)
Theorem C71_single_output_layer :
  forall (K : Type) (NK : Num K) (NL : NumLaws K) (p : layer K) B query_index l f,
    let N := t_N (l_a p) in let E := t_H (l_a p) * t_D (l_a p) in
    layer_ok p -> 0 < B -> 0 < N -> (- Z.of_nat N <= query_index < Z.of_nat N)%Z ->
    input_holds (fun L => (- Z.of_nat L <= query_index < Z.of_nat L)%Z /\ ((query_index < 0)%Z \/ L = N)) E B 0 l f ->
    exists outs s', calls (so_layer p query_index true) SNone l = Ok (outs, s')
      /\ answers N
           (fun n y => frame_holds E B y (fun b => layer_token p (window_tokens N n f b) (chosen query_index N)))
           (fun n c y => clip_holds E B c y (fun b j => layer_token p (window_tokens N (n + j) f b) (chosen query_index N)))
           (fun x y => forall L k, clip_holds E B L x k ->
              clip_holds E B 1 y (fun b _ => layer_token p (clip_tokens L k b) (chosen query_index L)))
           0 l outs.
Proof. intros K NK NL p B qi l f N E OK HB. exact (so_calls_one B HB p OK qi l f). Qed.
Print Assumptions C71_single_output_layer.

(** Retroactive layer: a step gives a clip of N tokens, a clip gives one such clip for every
    time. *)
Theorem C71_retro_layer :
  forall (K : Type) (NK : Num K) (NL : NumLaws K) (p : layer K) B l f,
    let N := t_N (l_a p) in let E := t_H (l_a p) * t_D (l_a p) in
    layer_ok p -> 0 < B -> 2 <= N -> input_holds (fun _ => True) E B 0 l f ->
    exists outs s', calls (re_layer p) SNone l = Ok (outs, s')
      /\ answers N
           (fun n y => clip_holds E B N y (fun b i =>
              post p (plus (f b (residual_time (N - 1) n i)) (attend p (window_tokens N n f b) i))))
           (fun n c y => windows_hold E B c N y (fun b j i =>
              post p (plus (f b (residual_time (N - 1) (n + j) i)) (attend p (window_tokens N (n + j) f b) i))))
           (fun x y => forall L k, clip_holds E B L x k -> clip_holds E B L y (fun b t => layer_token p (clip_tokens L k b) t))
           0 l outs.
Proof. intros K NK NL p B l f N E OK HB. exact (re_calls B HB p OK l f). Qed.
Print Assumptions C71_retro_layer.

(** TransformerEncoder with one layer. *)
Theorem C71_one_layer :
  forall (K : Type) (NK : Num K) (NL : NumLaws K) (p : layer K) norm B l f,
    let N := t_N (l_a p) in let E := t_H (l_a p) * t_D (l_a p) in
    layer_ok p -> 0 < B -> 0 < N -> norm_ok E norm -> input_holds (fun _ => True) E B 0 l f ->
    exists outs s', calls (encoder1 p norm) SNone l = Ok (outs, s')
      /\ answers N
           (fun n y => frame_holds E B y (fun b => normed norm (layer_token p (window_tokens N n f b) (N - 1))))
           (fun n c y => clip_holds E B c y (fun b j => normed norm (layer_token p (window_tokens N (n + j) f b) (N - 1))))
           (fun x y => forall L k, clip_holds E B L x k ->
              clip_holds E B L y (fun b t => normed norm (layer_token p (clip_tokens L k b) t)))
           0 l outs.
Proof. intros K NK NL p norm B l f N E OK HB. exact (enc1_calls B HB p OK norm l f). Qed.
Print Assumptions C71_one_layer.

(** TransformerEncoder with two layers, outside of contexts (or in "forward" ones). *)
Theorem C71_two_layers :
  forall (K : Type) (NK : Num K) (NL : NumLaws K) (p1 p2 : layer K) norm B l f,
    let N := t_N (l_a p1) in let E := t_H (l_a p1) * t_D (l_a p1) in
    layer_ok p1 -> layer_ok p2 -> t_H (l_a p2) * t_D (l_a p2) = E -> norm_ok E norm ->
    0 < B -> 2 <= N -> input_holds (fun _ => True) E B 0 l f ->
    Forall (fun c => ctx_of c = None \/ ctx_of c = Some Forward) l ->
    exists outs s', calls (encoder2 p1 p2 norm) SNone l = Ok (outs, s')
      /\ answers N
           (fun n y => frame_holds E B y (fun b => normed norm (layer_token p2 (first_tokens p1 n f b) (N - 1))))
           (fun n c y => clip_holds E B c y (fun b j => normed norm (layer_token p2 (first_tokens p1 (n + j) f b) (N - 1))))
           (fun x y => forall L k, clip_holds E B L x k ->
              clip_holds E B 1 y (fun b _ => normed norm (two_layers p1 p2 (clip_tokens L k b) (L - 1))))
           0 l outs.
Proof. intros K NK NL p1 p2 norm B l f N E OK1 OK2 EE NO HB. exact (enc2_calls B HB p1 p2 norm OK1 OK2 EE NO l f). Qed.
Print Assumptions C71_two_layers.

(** Before time 2 (N - 1) this is what forward gives for the window. *)
Theorem C71_two_layers_early :
  forall (K : Type) (NK : Num K) (p1 p2 : layer K) n f b,
    let N := t_N (l_a p1) in N - 1 <= n -> n < 2 * (N - 1) ->
    layer_token p2 (first_tokens p1 n f b) (N - 1) = two_layers p1 p2 (window_tokens N n f b) (N - 1).
Proof. intros K NK p1 p2 n f b N. exact (stale_early p1 p2 n f b). Qed.
Print Assumptions C71_two_layers_early.

(** C72.  The two-layer encoder inside of [with co.call_mode("forward_step")]: no output for
    N - 1 steps and an exception at the next. *)
Theorem C72_step_context_refuted :
  forall (K : Type) (NK : Num K) (NL : NumLaws K) (p1 p2 : layer K) norm B xs f,
    let N := t_N (l_a p1) in let E := t_H (l_a p1) * t_D (l_a p1) in
    layer_ok p1 -> 0 < B -> 2 <= N -> stream_holds E B xs f ->
    if length xs <? N
    then exists s', calls (encoder2 p1 p2 norm) SNone (map (CFrame (Some Step)) xs) = Ok (repeat None (length xs), s')
    else calls (encoder2 p1 p2 norm) SNone (map (CFrame (Some Step)) xs) = Err AssertionError.
Proof. intros K NK NL p1 p2 norm B xs f N E OK1 HB HN. exact (step_context B HB p1 p2 norm OK1 HN xs f). Qed.
Print Assumptions C72_step_context_refuted.

(** Inside of [with co.call_mode("forward_steps")]: a clip of one window is right, a longer
    one raises. *)
Theorem C72_steps_context :
  forall (K : Type) (NK : Num K) (NL : NumLaws K) (p1 p2 : layer K) norm B L x f,
    let N := t_N (l_a p1) in let E := t_H (l_a p1) * t_D (l_a p1) in
    layer_ok p1 -> layer_ok p2 -> t_H (l_a p2) * t_D (l_a p2) = E -> t_N (l_a p2) = N -> norm_ok E norm ->
    0 < B -> 2 <= N -> N <= L -> clip_holds E B L x f ->
    if L =? N
    then exists y s', in_context Steps (encoder2 p1 p2 norm) SNone x = Ok (Some y, s')
         /\ clip_holds E B 1 y (fun b _ => normed norm (two_layers p1 p2 (clip_tokens N f b) (N - 1)))
    else in_context Steps (encoder2 p1 p2 norm) SNone x = Err RuntimeError.
Proof.
  intros K NK NL p1 p2 norm B L x f N E OK1 OK2 EE H2 NO HB HN HL Hx. exact (clip_context B HB p1 p2 norm OK1 OK2 EE NO HN L x f HL Hx H2).
Qed.
Print Assumptions C72_steps_context.

(* ------------------------------------------------------------------ *)

(** Two heads of dimension one, windows of [N] tokens, batches of two, norms that swap the
    entries and add a constant, relu. *)
Definition relu (x : Qc) : Qc := if Qclt_le_dec x 0%Qc then 0%Qc else x.
Definition ex_norm (a : Z) (v : list Qc) : list Qc := map (fun x => (x + z a)%Qc) (rev v).
Definition ex_w (a n : nat) : list Qc := map (fun i => z (Z.of_nat ((i * a + a) mod 3) - 1)%Z) (seq 0 n).
Definition ex_layer (N a : nat) : layer Qc := {|
  l_a := {| t_N := N; t_H := 2; t_D := 1; t_scale := fun x => (x * Q2Qc (1 # 2))%Qc;
            t_win := ex_w (a + 1) 12; t_bin := Some (ex_w (a + 2) 6); t_wout := ex_w (a + 3) 4; t_bout := Some (ex_w a 2);
            t_bf := true; t_eds := true |};
  l_ff := 3; l_norm1 := ex_norm 1; l_norm2 := ex_norm 0; l_act := relu;
  l_w1 := ex_w (a + 2) 6; l_b1 := Some (ex_w a 3); l_w2 := ex_w (a + 1) 6; l_b2 := None |}.
Lemma ex_norm_len a v : length (ex_norm a v) = length v.
Proof. unfold ex_norm. rewrite map_length. apply rev_length. Qed.
Lemma ex_layer_ok N a : layer_ok (ex_layer N a).
Proof.
  split; [cbn; lia|]. split; [reflexivity|]. split; [reflexivity|].
  split; intros v Hv; cbn [l_norm1 l_norm2 ex_layer]; rewrite ex_norm_len; exact Hv.
Qed.
Definition ex_final : option (list Qc -> list Qc) := Some (ex_norm 2).
Lemma ex_final_ok : norm_ok 2 ex_final.
Proof. intros v Hv. rewrite ex_norm_len. exact Hv. Qed.

(** Token [t] of batch element [b], frames and clips of them. *)
Definition ex_token (b t : nat) : list Qc := map z [Z.of_nat ((3 * t + b) mod 4) - 1; Z.of_nat ((t * t + 2 * b) mod 5) - 2]%Z.
Definition ex_fr (t : nat) : tens Qc := mk [2; 2] (fun ix => match ix with [b; e] => nth e (ex_token b t) k0 | _ => k0 end).
Definition ex_cl (i L : nat) : tens Qc := mk [2; 2; L] (fun ix => match ix with [b; e; t] => nth e (ex_token b (i + t)) k0 | _ => k0 end).
Lemma ex_fr_holds t : frame_holds 2 2 (ex_fr t) (fun b => ex_token b t).
Proof.
  split; [reflexivity|]. intros b Hb. split; [reflexivity|]. intros e He.
  assert (b = 0 \/ b = 1) as [-> | ->] by lia; assert (e = 0 \/ e = 1) as [-> | ->] by lia; reflexivity.
Qed.
Lemma ex_cl_holds i L : clip_holds 2 2 L (ex_cl i L) (fun b t => ex_token b (i + t)).
Proof.
  split; [reflexivity|]. intros b t Hb Ht. split; [reflexivity|]. intros e He. unfold ex_cl. rewrite TAttnProof.get_mk; [reflexivity|].
  constructor; [exact Hb|constructor; [exact He|constructor; [exact Ht|constructor]]].
Qed.
Definition ex_calls (c : option meth) : list (tcall Qc) :=
  [CFrame c (ex_fr 0); CForward None (ex_cl 7 2); CClip c (ex_cl 1 2); CFrame None (ex_fr 3)].
Lemma ex_calls_hold c : input_holds (fun _ => True) 2 2 0 (ex_calls c) ex_token.
Proof.
  split; [apply ex_fr_holds|]. split; [exists 2, (fun b t => ex_token b (7 + t)); split; [lia|split; [exact I|apply ex_cl_holds]]|].
  exists 2. split; [lia|]. split; [apply (ex_cl_holds 1 2)|]. split; [apply ex_fr_holds|exact I].
Qed.
Definition see (x : tens Qc) : list nat * list Q := (sh x, map this (dat x)).
Definition sees (r : res (list (option (tens Qc)) * tstate Qc)) : res (list (option (list nat * list Q))) :=
  '(outs, _) <- r ;; Ok (map (option_map see) outs).
Definition sees1 (r : res (option (tens Qc) * tstate Qc)) : res (option (list nat * list Q)) := '(o, _) <- r ;; Ok (option_map see o).

Example C71_one_layer_ex :
  layer_ok (ex_layer 2 1) /\ norm_ok 2 ex_final /\ input_holds (fun _ => True) 2 2 0 (ex_calls (Some Steps)) ex_token
  /\ sees (calls (encoder1 (ex_layer 2 1) ex_final) SNone (ex_calls (Some Steps))) = Ok [None; Some ([2; 2; 2], [(9 # 2)%Q; 5%Q; 0%Q; (-1 # 2)%Q; (11 # 2)%Q; (11 # 2)%Q; 4%Q; 3%Q]); Some ([2; 2; 2], [(121 # 21)%Q; 8%Q; (83 # 14)%Q; (5 # 2)%Q; (14 # 3)%Q; (16 # 3)%Q; (5 # 9)%Q; (22 # 7)%Q]); Some ([2; 2], [(11 # 2)%Q; 0%Q; (13 # 2)%Q; 4%Q])].
Proof. split; [apply ex_layer_ok|]. split; [apply ex_final_ok|]. split; [apply ex_calls_hold|]. vm_compute. reflexivity. Qed.
Example C71_single_output_layer_ex :
  sees (calls (so_layer (ex_layer 2 1) 0 true) SNone (ex_calls (Some Forward)))
  = Ok [None; Some ([2; 2; 1], [(-2)%Q; (5 # 2)%Q; 2%Q; (7 # 2)%Q]); Some ([2; 2; 2], [(10 # 11)%Q; (3 # 2)%Q; (10 # 3)%Q; (45 # 13)%Q; (-20 # 33)%Q; (-8 # 17)%Q; (59 # 33)%Q; (17 # 6)%Q]); Some ([2; 2], [(-1)%Q; (7 # 2)%Q; 3%Q; (9 # 2)%Q])].
Proof. vm_compute. reflexivity. Qed.
Example C71_retro_layer_ex :
  sees (calls (re_layer (ex_layer 2 1)) SNone (ex_calls (Some Step))) = Ok [None; Some ([2; 2; 2], [(-2)%Q; (-5 # 2)%Q; (5 # 2)%Q; 3%Q; 2%Q; 1%Q; (7 # 2)%Q; (7 # 2)%Q]); Some ([2; 2; 2; 2], [(10 # 11)%Q; (55 # 14)%Q; (-3 # 2)%Q; (1 # 2)%Q; (10 # 3)%Q; (79 # 21)%Q; (32 # 13)%Q; 6%Q; (-20 # 33)%Q; (-13 # 9)%Q; (9 # 17)%Q; (8 # 7)%Q; (59 # 33)%Q; (8 # 3)%Q; (11 # 6)%Q; (10 # 3)%Q]); Some ([2; 2; 2], [(-2)%Q; (-2)%Q; (1 # 2)%Q; (7 # 2)%Q; 1%Q; 2%Q; (11 # 2)%Q; (9 # 2)%Q])].
Proof. vm_compute. reflexivity. Qed.
Example C71_two_layers_ex :
  sees (calls (encoder2 (ex_layer 2 1) (ex_layer 2 2) ex_final) SNone [CFrame None (ex_fr 0); CFrame None (ex_fr 1); CForward None (ex_cl 0 2)]) = Ok [None; Some ([2; 2], [2%Q; (-384669589532095751137850044 # 810957953570727245877397419)%Q; 2%Q; (175332898684 # 255381152631)%Q]); Some ([2; 2; 1], [2%Q; (-384669589532095751137850044 # 810957953570727245877397419)%Q; 2%Q; (175332898684 # 255381152631)%Q])].
Proof. vm_compute. reflexivity. Qed.
Example C72_steps_ex :
  sees (calls (encoder2 (ex_layer 2 1) (ex_layer 2 2) ex_final) SNone (map (CFrame (Some Step)) [ex_fr 0])) = Ok [None]
  /\ sees (calls (encoder2 (ex_layer 2 1) (ex_layer 2 2) ex_final) SNone (map (CFrame (Some Step)) [ex_fr 0; ex_fr 1])) = Err AssertionError
  /\ sees1 (in_context Steps (encoder2 (ex_layer 2 1) (ex_layer 2 2) ex_final) SNone (ex_cl 0 2))
     = Ok (Some ([2; 2; 1], [2%Q; (-384669589532095751137850044 # 810957953570727245877397419)%Q; 2%Q; (175332898684 # 255381152631)%Q]))
  /\ sees1 (in_context Steps (encoder2 (ex_layer 2 1) (ex_layer 2 2) ex_final) SNone (ex_cl 0 3)) = Err RuntimeError.
Proof. repeat split; vm_compute; reflexivity. Qed.

(** From time 2 (N - 1) on the encoder does not give what forward gives for the window. *)
Theorem C71_two_layers_late_refuted :
  exists (p1 p2 : layer Qc) norm B l f n outs s' y,
    let N := t_N (l_a p1) in let E := t_H (l_a p1) * t_D (l_a p1) in
    layer_ok p1 /\ layer_ok p2 /\ t_H (l_a p2) * t_D (l_a p2) = E /\ norm_ok E norm /\ 0 < B /\ 2 <= N
    /\ stream_holds E B l f
    /\ calls (encoder2 p1 p2 norm) SNone (map (CFrame None) l) = Ok (outs, s') /\ nth n outs None = Some y
    /\ N - 1 <= n /\ n < length l
    /\ ~ frame_holds E B y (fun b => normed norm (two_layers p1 p2 (window_tokens N n f b) (N - 1))).
Proof.
  assert (Hf : stream_holds 2 2 [ex_fr 0; ex_fr 1; ex_fr 2] ex_token).
  { intros t x Hx. destruct t as [|[|[|[]]]]; cbn in Hx; try discriminate; injection Hx as <-; apply ex_fr_holds. }
  assert (Hi : input_holds (fun _ => True) 2 2 0 (map (CFrame None) [ex_fr 0; ex_fr 1; ex_fr 2]) ex_token)
    by (split; [apply ex_fr_holds|split; [apply ex_fr_holds|split; [apply ex_fr_holds|exact I]]]).
  assert (Hc : Forall (fun c => ctx_of c = None \/ ctx_of c = Some Forward) (map (CFrame None) [ex_fr 0; ex_fr 1; ex_fr 2]))
    by (repeat constructor).
  destruct (C71_two_layers Qc NumQ NumQLaws (ex_layer 2 1) (ex_layer 2 2) ex_final 2 _ ex_token
    (ex_layer_ok 2 1) (ex_layer_ok 2 2) eq_refl ex_final_ok ltac:(lia) (Nat.le_refl 2) Hi Hc) as (outs & s' & Eo & Ao).
  destruct outs as [|o0 [|o1 [|o2 [|]]]]; cbn [map answers] in Ao; try tauto.
  destruct Ao as (_ & _ & A2 & _). cbn [Nat.add Nat.ltb Nat.leb t_N l_a ex_layer] in A2. destruct A2 as (y & -> & [_ Hy]).
  exists (ex_layer 2 1), (ex_layer 2 2), ex_final, 2, [ex_fr 0; ex_fr 1; ex_fr 2], ex_token, 2, [o0; o1; Some y], s', y.
  split; [apply ex_layer_ok|]. split; [apply ex_layer_ok|]. split; [reflexivity|]. split; [apply ex_final_ok|]. split; [lia|]. split; [apply Nat.le_refl|].
  split; [exact Hf|]. split; [exact Eo|]. split; [reflexivity|]. split; [cbn; lia|]. split; [cbn; lia|].
  intros [_ H2]. destruct (Hy 0 ltac:(lia)) as [_ V1]. destruct (H2 0 ltac:(lia)) as [_ V2].
  specialize (V1 0 ltac:(cbn; lia)). specialize (V2 0 ltac:(cbn; lia)). rewrite V1 in V2. apply (f_equal this) in V2. vm_compute in V2. discriminate.
Qed.
Print Assumptions C71_two_layers_late_refuted.
