(** Property C74: a transformer for streams, with positional encoding. *)
From Coq Require Import List ZArith Bool Arith Lia QArith Qcanon.
From Verif Require Import Base Attn AttnSpec CallMode Tensor TAttn TAttnSpec TEnc TEncSpec TPosSpec TPosProof TAttnProof ZAttn PTEnc.
Import ListNotations.
Close Scope Q_scope.
Close Scope Qc_scope.
Open Scope nat_scope.

(** C74.  The network is [co.Sequential(Linear, RecyclingPositionalEncoding, TransformerEncoder,
    Linear)], the calls are as in C71.  The encoder sees the embedded tokens with the encodings
    of the positions that they have in the stream, modulo the number of encodings; forward
    numbers the tokens of its clip from the position that the stream has reached, and moves it
    on by forward_update_index_steps. *)
Theorem C74_one_layer :
  forall (K : Type) (NK : Num K) (NL : NumLaws K) B C O P we be wh bh emb steps (p : layer K) norm i0 s l f,
    let N := t_N (l_a p) in let E := t_H (l_a p) * t_D (l_a p) in
    let g := encoded P emb (fun t => nth t (positions steps i0 l) 0) (fun b t => affine C E we be (f b t)) in
    0 < B -> 0 < P -> layer_ok p -> norm_ok E norm -> 0 < N -> (forall j, length (emb j) = E) -> i0 < P -> at_index i0 s ->
    input_holds (fun _ => True) C B 0 l f -> clips_fit P l ->
    exists outs s', calls (stream_net C E O P we be emb steps (encoder1 p norm) wh bh) s l = Ok (outs, s')
      /\ answers_at steps N
           (fun n y => frame_holds O B y (fun b => affine E O wh bh (normed norm (layer_token p (window_tokens N n g b) (N - 1)))))
           (fun n c y => clip_holds O B c y (fun b j => affine E O wh bh (normed norm (layer_token p (window_tokens N (n + j) g b) (N - 1)))))
           (fun k x y => forall L h, clip_holds C B L x h -> clip_holds O B L y (fun b t => affine E O wh bh (normed norm
              (layer_token p (clip_tokens L (encoded P emb (fun t => k + t) (fun b t => affine C E we be (h b t))) b) t))))
           i0 0 l outs.
Proof. intros K NK NL B C O P we be wh bh emb steps p norm i0 s l f N E g HB HP. exact (net_one B HB C O P we be wh bh emb steps HP p norm i0 s l f). Qed.
Print Assumptions C74_one_layer.

Theorem C74_two_layers :
  forall (K : Type) (NK : Num K) (NL : NumLaws K) B C O P we be wh bh emb steps (p1 p2 : layer K) norm i0 s l f,
    let N := t_N (l_a p1) in let E := t_H (l_a p1) * t_D (l_a p1) in
    let g := encoded P emb (fun t => nth t (positions steps i0 l) 0) (fun b t => affine C E we be (f b t)) in
    0 < B -> 0 < P -> layer_ok p1 -> layer_ok p2 -> t_H (l_a p2) * t_D (l_a p2) = E -> norm_ok E norm -> 2 <= N ->
    (forall j, length (emb j) = E) -> i0 < P -> at_index i0 s ->
    input_holds (fun _ => True) C B 0 l f -> clips_fit P l -> Forall (fun c => ctx_of c = None \/ ctx_of c = Some Forward) l ->
    exists outs s', calls (stream_net C E O P we be emb steps (encoder2 p1 p2 norm) wh bh) s l = Ok (outs, s')
      /\ answers_at steps N
           (fun n y => frame_holds O B y (fun b => affine E O wh bh (normed norm (layer_token p2 (first_tokens p1 n g b) (N - 1)))))
           (fun n c y => clip_holds O B c y (fun b j => affine E O wh bh (normed norm (layer_token p2 (first_tokens p1 (n + j) g b) (N - 1)))))
           (fun k x y => forall L h, clip_holds C B L x h -> clip_holds O B 1 y (fun b _ => affine E O wh bh (normed norm
              (two_layers p1 p2 (clip_tokens L (encoded P emb (fun t => k + t) (fun b t => affine C E we be (h b t))) b) (L - 1)))))
           i0 0 l outs.
Proof.
  intros K NK NL B C O P we be wh bh emb steps p1 p2 norm i0 s l f N E g HB HP. exact (net_two B HB C O P we be wh bh emb steps HP p1 p2 norm i0 s l f).
Qed.
Print Assumptions C74_two_layers.

(** The positions count up from the first if there is no forward among the calls, or
    forward_update_index_steps is 0. *)
Theorem C74_positions :
  forall (K : Type) steps (l : list (tcall K)) k, Forall (fun c => match c with CForward _ _ => steps = 0 | _ => True end) l ->
    positions steps k l = seq k (length (positions steps k l)).
Proof. intros K steps l k. exact (positions_no_forward 1 Nat.lt_0_1 1 (fun _ => []) steps Nat.lt_0_1 l k). Qed.
Print Assumptions C74_positions.

(** Stepping at time n gives the last token of forward on the last N tokens, by a network whose
    positional encoding stands at index (n + 1 - N) mod P: for every stream with one layer, in
    the first 2 (N - 1) steps with two. *)
Theorem C74_step_is_forward_one_layer :
  forall (K : Type) (NK : Num K) (NL : NumLaws K) B C O P we be wh bh emb steps (p : layer K) norm s s0 xs f x,
    let N := t_N (l_a p) in let E := t_H (l_a p) * t_D (l_a p) in let n := length xs - 1 in
    let net := stream_net C E O P we be emb steps (encoder1 p norm) wh bh in
    0 < B -> 0 < P -> layer_ok p -> norm_ok E norm -> 0 < N -> (forall j, length (emb j) = E) ->
    at_index 0 s0 -> at_index ((n + 1 - N) mod P) s ->
    stream_holds C B xs f -> N <= length xs -> N <= P -> clip_holds C B N x (fun b t => f b (n + 1 - N + t)) ->
    exists outs s1 y z s2, calls net s0 (map (CFrame None) xs) = Ok (outs, s1) /\ last outs None = Some y
      /\ by_name Forward net s x = Ok (Some z, s2) /\ forall b o, b < B -> o < O -> get y [b; o] = get z [b; o; N - 1].
Proof.
  intros K NK NL B C O P we be wh bh emb steps p norm s s0 xs f x N E n net HB HP. exact (step_forward_one B HB C O P we be wh bh emb steps HP p norm s s0 xs f x).
Qed.
Print Assumptions C74_step_is_forward_one_layer.

Theorem C74_step_is_forward_two_layers :
  forall (K : Type) (NK : Num K) (NL : NumLaws K) B C O P we be wh bh emb steps (p1 p2 : layer K) norm s s0 xs f x,
    let N := t_N (l_a p1) in let E := t_H (l_a p1) * t_D (l_a p1) in let n := length xs - 1 in
    let net := stream_net C E O P we be emb steps (encoder2 p1 p2 norm) wh bh in
    0 < B -> 0 < P -> layer_ok p1 -> layer_ok p2 -> t_H (l_a p2) * t_D (l_a p2) = E -> norm_ok E norm -> 2 <= N ->
    (forall j, length (emb j) = E) -> at_index 0 s0 -> at_index ((n + 1 - N) mod P) s ->
    stream_holds C B xs f -> N <= length xs -> length xs <= 2 * (N - 1) -> N <= P -> clip_holds C B N x (fun b t => f b (n + 1 - N + t)) ->
    exists outs s1 y z s2, calls net s0 (map (CFrame None) xs) = Ok (outs, s1) /\ last outs None = Some y
      /\ by_name Forward net s x = Ok (Some z, s2) /\ forall b o, b < B -> o < O -> get y [b; o] = get z [b; o; 0].
Proof.
  intros K NK NL B C O P we be wh bh emb steps p1 p2 norm s s0 xs f x N E n net HB HP.
  exact (step_forward_two B HB C O P we be wh bh emb steps HP p1 p2 norm s s0 xs f x).
Qed.
Print Assumptions C74_step_is_forward_two_layers.

(** A clip with more frames than there are encodings raises, also in forward_steps, although
    its frames could be given one by one. *)
Theorem C74_long_clip_raises :
  forall (K : Type) (NK : Num K) B C E O P we be wh bh emb steps (enc : tmod K) ctx me s x L h,
    0 < B -> me = Forward \/ me = Steps -> clip_holds C B L x h -> P < L ->
    exec ctx me (stream_net C E O P we be emb steps enc wh bh) s x false true = Err AssertionError.
Proof. intros K NK B C E O P we be wh bh emb steps enc ctx me s x L h HB. exact (long_clip B HB C O P we be wh bh emb steps E enc ctx me s x L h). Qed.
Print Assumptions C74_long_clip_raises.

(* ------------------------------------------------------------------ *)

(** Windows of two tokens, three encodings, a head with one output. *)
Definition ex_emb (j : nat) : list Qc := map z [Z.of_nat (j * j); 2 - Z.of_nat j]%Z.
Definition ex_net (steps : nat) : tmod Qc :=
  stream_net 2 2 1 3 (ex_w 2 4) (Some (ex_w 1 2)) ex_emb steps (encoder1 (ex_layer 2 1) ex_final) (ex_w 1 2) None.
Example C74_one_layer_ex :
  layer_ok (ex_layer 2 1) /\ norm_ok 2 ex_final /\ (forall j, length (ex_emb j) = 2)
  /\ input_holds (fun _ => True) 2 2 0 (ex_calls None) ex_token /\ clips_fit 3 (ex_calls None) /\ positions 1 0 (ex_calls None) = [0; 2; 3; 4]
  /\ sees (calls (ex_net 1) SNone (ex_calls None)) = Ok [None; Some ([2; 1; 2], [(-1)%Q; 1%Q; 4%Q; 6%Q]); Some ([2; 1; 2], [(20954 # 2257)%Q; (61 # 13)%Q; 2%Q; (8 # 5)%Q]); Some ([2; 1], [(-1)%Q; 4%Q])].
Proof.
  split; [apply ex_layer_ok|]. split; [apply ex_final_ok|]. split; [reflexivity|]. split; [apply ex_calls_hold|].
  split; [unfold ex_calls, clips_fit; repeat constructor|]. split; [reflexivity|]. vm_compute. reflexivity.
Qed.

Example C74_two_layers_ex :
  let net := stream_net 2 2 1 3 (ex_w 2 4) (Some (ex_w 1 2)) ex_emb 0 (encoder2 (ex_layer 2 1) (ex_layer 2 2) ex_final) (ex_w 1 2) None in
  sees (calls net SNone [CFrame None (ex_fr 0); CFrame None (ex_fr 1)])
  = Ok [None; Some ([2; 1], [(12568086681722308951 # 12652072029258104437)%Q; (-446204851633945338613 # 292769601237415734861)%Q])].
Proof. vm_compute. reflexivity. Qed.
Example C74_long_clip_ex :
  sees1 (by_name Steps (ex_net 1) SNone (ex_cl 0 4)) = Err AssertionError.
Proof. vm_compute. reflexivity. Qed.

(** From the second window on, stepping is not forward on the window by a fresh network: the
    tokens have other positions. *)
Theorem C74_fresh_forward_refuted :
  exists B C O P we be wh bh emb (p : layer Qc) norm xs f x outs s1 y z s2,
    let N := t_N (l_a p) in let E := t_H (l_a p) * t_D (l_a p) in let n := length xs - 1 in
    let net := stream_net C E O P we be emb 0 (encoder1 p norm) wh bh in
    layer_ok p /\ norm_ok E norm /\ (forall j, length (emb j) = E)
    /\ stream_holds C B xs f /\ N <= length xs /\ N <= P /\ clip_holds C B N x (fun b t => f b (n + 1 - N + t))
    /\ calls net SNone (map (CFrame None) xs) = Ok (outs, s1) /\ last outs None = Some y
    /\ by_name Forward net SNone x = Ok (Some z, s2) /\ get y [0; 0] <> get z [0; 0; N - 1].
Proof.
  destruct (calls (ex_net 0) SNone (map (CFrame None) [ex_fr 0; ex_fr 1; ex_fr 2])) as [[outs s1]|] eqn:E1;
    [|exfalso; apply (f_equal (fun r => match r with Ok _ => 0 | Err _ => 1 end)) in E1; vm_compute in E1; discriminate].
  destruct (by_name Forward (ex_net 0) SNone (ex_cl 1 2)) as [[o s2]|] eqn:E2;
    [|exfalso; apply (f_equal (fun r => match r with Ok _ => 0 | Err _ => 1 end)) in E2; vm_compute in E2; discriminate].
  assert (V1 : option_map (fun y => this (get y [0; 0])) (last outs None) = Some (11 # 2)%Q).
  { transitivity (match calls (ex_net 0) SNone (map (CFrame None) [ex_fr 0; ex_fr 1; ex_fr 2]) with
                  | Ok (outs, _) => option_map (fun y => this (get y [0; 0])) (last outs None) | Err _ => None end);
      [rewrite E1; reflexivity|vm_compute; reflexivity]. }
  assert (V2 : option_map (fun y => this (get y [0; 0; 1])) o = Some (5 # 2)%Q).
  { transitivity (match by_name Forward (ex_net 0) SNone (ex_cl 1 2) with
                  | Ok (o, _) => option_map (fun y => this (get y [0; 0; 1])) o | Err _ => None end);
      [rewrite E2; reflexivity|vm_compute; reflexivity]. }
  destruct (last outs None) as [y|] eqn:Ey; [|discriminate V1]. destruct o as [z|]; [|discriminate V2].
  exists 2, 2, 1, 3, (ex_w 2 4), (Some (ex_w 1 2)), (ex_w 1 2), None, ex_emb, (ex_layer 2 1), ex_final, [ex_fr 0; ex_fr 1; ex_fr 2], ex_token, (ex_cl 1 2), outs, s1, y, z, s2.
  split; [apply ex_layer_ok|]. split; [apply ex_final_ok|]. split; [reflexivity|].
  split; [intros t x Hx; destruct t as [|[|[|[]]]]; cbn in Hx; try discriminate Hx; injection Hx as <-; apply ex_fr_holds|].
  split; [cbn; lia|]. split; [cbn; lia|]. split; [apply ex_cl_holds|]. split; [exact E1|]. split; [exact Ey|]. split; [exact E2|].
  intro H. apply (f_equal this) in H. cbn [option_map] in V1, V2. injection V1 as V1. injection V2 as V2.
  change (t_N (l_a (ex_layer 2 1)) - 1) with 1 in H. rewrite V1, V2 in H. discriminate H.
Qed.
Print Assumptions C74_fresh_forward_refuted.

(** With the default forward_update_index_steps=1, a call of forward changes what later steps
    give. *)
Theorem C74_forward_moves_refuted :
  exists B C O P we be wh bh emb (p : layer Qc) norm x xs l f outs s1 outs2 s2,
    let N := t_N (l_a p) in let E := t_H (l_a p) * t_D (l_a p) in
    let net := stream_net C E O P we be emb 1 (encoder1 p norm) wh bh in
    layer_ok p /\ norm_ok E norm /\ (forall j, length (emb j) = E) /\ stream_holds C B (x :: xs) f
    /\ calls net SNone (CFrame None x :: map (CFrame None) xs) = Ok (outs, s1)
    /\ calls net SNone (CFrame None x :: CForward None l :: map (CFrame None) xs) = Ok (outs2, s2)
    /\ option_map (@dat Qc) (last outs None) <> option_map (@dat Qc) (last outs2 None).
Proof.
  destruct (calls (ex_net 1) SNone (CFrame None (ex_fr 0) :: map (CFrame None) [ex_fr 1])) as [[outs s1]|] eqn:E1;
    [|exfalso; apply (f_equal (fun r => match r with Ok _ => 0 | Err _ => 1 end)) in E1; vm_compute in E1; discriminate].
  destruct (calls (ex_net 1) SNone (CFrame None (ex_fr 0) :: CForward None (ex_cl 0 2) :: map (CFrame None) [ex_fr 1])) as [[outs2 s2]|] eqn:E2;
    [|exfalso; apply (f_equal (fun r => match r with Ok _ => 0 | Err _ => 1 end)) in E2; vm_compute in E2; discriminate].
  exists 2, 2, 1, 3, (ex_w 2 4), (Some (ex_w 1 2)), (ex_w 1 2), None, ex_emb, (ex_layer 2 1), ex_final, (ex_fr 0), [ex_fr 1], (ex_cl 0 2), ex_token, outs, s1, outs2, s2.
  split; [apply ex_layer_ok|]. split; [apply ex_final_ok|]. split; [reflexivity|].
  split; [intros t x Hx; destruct t as [|[|[]]]; cbn in Hx; try discriminate Hx; injection Hx as <-; apply ex_fr_holds|].
  split; [exact E1|]. split; [exact E2|].
  intro H. apply (f_equal (option_map (map this))) in H.
  assert (V1 : option_map (map this) (option_map (@dat Qc) (last outs None)) = Some [(71 # 18)%Q; (-133 # 93)%Q]).
  { transitivity (match calls (ex_net 1) SNone (CFrame None (ex_fr 0) :: map (CFrame None) [ex_fr 1]) with
                  | Ok (outs, _) => option_map (map this) (option_map (@dat Qc) (last outs None)) | Err _ => None end);
      [rewrite E1; reflexivity|vm_compute; reflexivity]. }
  assert (V2 : option_map (map this) (option_map (@dat Qc) (last outs2 None)) = Some [(20954 # 2257)%Q; 2%Q]).
  { transitivity (match calls (ex_net 1) SNone (CFrame None (ex_fr 0) :: CForward None (ex_cl 0 2) :: map (CFrame None) [ex_fr 1]) with
                  | Ok (outs, _) => option_map (map this) (option_map (@dat Qc) (last outs None)) | Err _ => None end);
      [rewrite E2; reflexivity|vm_compute; reflexivity]. }
  rewrite V1, V2 in H. discriminate H.
Qed.
Print Assumptions C74_forward_moves_refuted.
