(** Property C73: TransformerEncoder.build_from. *)
From Coq Require Import List ZArith Bool Arith Lia QArith Qcanon.
From Verif Require Import Base Attn AttnSpec CallMode Tensor TAttn TAttnSpec TEnc TEncSpec TBuild TBuildSpec TBuildProof TBuildThm ZAttn.
Import ListNotations.
Close Scope Q_scope.
Close Scope Qc_scope.
Open Scope list_scope.
Open Scope nat_scope.

(** C73.  The parameters of the new network are those of the source, layer by layer; the
    source is as before; the layers of the new network have parameters of their own, but the
    final norm is the same object in both. *)
Theorem C73_build_from :
  forall (K : Type) init layer_norm scale N src (h : list (list nat * list K)),
    encoder_in h src -> 0 < N -> length (te_layers src) = 1 \/ length (te_layers src) = 2 ->
    Forall (fun t => tl_bias t = true /\ convertible (tl_act t) = true) (te_layers src) ->
    exists net h', build_from init N src h = Ok (net, h')
      /\ map (as_layer layer_norm scale N h') (te_layers net) = map (as_layer layer_norm scale N h) (te_layers src)
      /\ te_norm net = te_norm src
      /\ as_norm layer_norm h' (te_norm net) = as_norm layer_norm h (te_norm src)
      /\ (forall c, c < length h -> cell h' c = cell h c)
      /\ Forall (fun t => Forall (fun c => length h <= c) (layer_cells t)) (te_layers net).
Proof. exact @built. Qed.
Print Assumptions C73_build_from.

(** When it raises, given a source of equal layers: without layers, and otherwise exactly if
    there are more than two, or sequence_len is 0, or the activation is neither a Python
    function nor a module, or the layers have no biases. *)
Theorem C73_raises :
  forall (K : Type) init N src (h : list (list nat * list K)),
    encoder_in h src -> (forall t u, In t (te_layers src) -> In u (te_layers src) -> tl_bias t = tl_bias u) ->
    match te_layers src with
    | [] => build_from init N src h = Err IndexError
    | t :: _ =>
        if (2 <? length (te_layers src)) || (N =? 0) || negb (convertible (tl_act t)) || negb (tl_bias t)
        then build_from init N src h = Err AssertionError
        else exists r, build_from init N src h = Ok r
    end.
Proof. exact @build_raises. Qed.
Print Assumptions C73_raises.

(** One layer: forward gives what the torch encoder gives for the clip, and from time N - 1 on
    stepping gives the last token that it gives for the last N tokens. *)
Theorem C73_one_layer :
  forall (K : Type) (NK : Num K) (NL : NumLaws K) init layer_norm scale N t norm (h : list (list nat * list K)) B l f,
    let src := {| te_layers := [t]; te_norm := norm |} in
    let torch := torch_encoder [(false, as_layer layer_norm scale N h t)] (as_norm layer_norm h norm) in
    encoder_in h src -> 0 < N -> tl_bias t = true -> convertible (tl_act t) = true ->
    (forall eps w b v, length (layer_norm eps w b v) = length v) -> 0 < tl_heads t -> Nat.divide (tl_heads t) (tl_dim t) ->
    0 < B -> input_holds (fun _ => True) (tl_dim t) B 0 l f ->
    exists net h' outs s', build_from init N src h = Ok (net, h')
      /\ calls (network layer_norm scale N h' net) SNone l = Ok (outs, s')
      /\ answers N
           (fun n y => frame_holds (tl_dim t) B y (fun b => nth (N - 1) (torch (window_tokens N n f b)) []))
           (fun n c y => clip_holds (tl_dim t) B c y (fun b j => nth (N - 1) (torch (window_tokens N (n + j) f b)) []))
           (fun x y => forall L k, clip_holds (tl_dim t) B L x k ->
              clip_holds (tl_dim t) B L y (fun b i => nth i (torch (clip_tokens L k b)) []))
           0 l outs.
Proof. exact @converted_1. Qed.
Print Assumptions C73_one_layer.

(** Two layers: forward gives the last token of what the torch encoder gives, and so does
    stepping before time 2 (N - 1), see C71 for the rest. *)
Theorem C73_two_layers :
  forall (K : Type) (NK : Num K) (NL : NumLaws K) init layer_norm scale N t u norm (h : list (list nat * list K)) B l f,
    let src := {| te_layers := [t; u]; te_norm := norm |} in
    let torch := torch_encoder [(false, as_layer layer_norm scale N h t); (false, as_layer layer_norm scale N h u)]
                   (as_norm layer_norm h norm) in
    encoder_in h src -> 2 <= N -> tl_bias t = true -> tl_bias u = true -> convertible (tl_act t) = true ->
    (forall eps w b v, length (layer_norm eps w b v) = length v) -> 0 < tl_heads t -> Nat.divide (tl_heads t) (tl_dim t) ->
    0 < B -> input_holds (fun _ => True) (tl_dim t) B 0 l f ->
    Forall (fun c => ctx_of c = None \/ ctx_of c = Some Forward) l ->
    exists net h' outs s', build_from init N src h = Ok (net, h')
      /\ calls (network layer_norm scale N h' net) SNone l = Ok (outs, s')
      /\ answers N
           (fun n y => n < 2 * (N - 1) -> frame_holds (tl_dim t) B y (fun b => nth (N - 1) (torch (window_tokens N n f b)) []))
           (fun n c y => n + c <= 2 * (N - 1) ->
              clip_holds (tl_dim t) B c y (fun b j => nth (N - 1) (torch (window_tokens N (n + j) f b)) []))
           (fun x y => forall L k, 0 < L -> clip_holds (tl_dim t) B L x k ->
              clip_holds (tl_dim t) B 1 y (fun b _ => nth (L - 1) (torch (clip_tokens L k b)) []))
           0 l outs.
Proof. exact @converted_2. Qed.
Print Assumptions C73_two_layers.

(** For examples: one head of dimension two, a norm that scales and shifts the entries, cells
    with the weights of one layer, and two more with weights of nn.PReLU. *)
Definition relu (x : Qc) : Qc := if Qclt_le_dec x 0%Qc then 0%Qc else x.
Definition prelu (w : list Qc) (x : Qc) : Qc := if Qclt_le_dec x 0%Qc then (nth 0 w 0 * x)%Qc else x.
Definition ex_ln (eps : Qc) (w b v : list Qc) : list Qc :=
  map (fun i => (nth i w 0 * nth i v 0 + nth i b 0)%Qc) (seq 0 (length v)).
Lemma ex_ln_length eps w b v : length (ex_ln eps w b v) = length v.
Proof. unfold ex_ln. rewrite map_length, seq_length. reflexivity. Qed.
Definition ex_tl (i : nat) (a : activation Qc) (norm_first : bool) : tlayer Qc :=
  {| tl_c := cells_at i; tl_dim := 2; tl_heads := 1; tl_ff := 1; tl_eps := z 0; tl_act := a; tl_norm_first := norm_first; tl_bias := true |}.
Definition ex_heap : list (list nat * list Qc) :=
  combine (shapes 2 1) (map (map z) [[1; 0; 0; 1; 1; 1; 0; 1; 1; 0; 2; 1]; [0; 1; 0; 0; 1; 0]; [1; 0; 1; 1]; [0; 1]; [1; 1]; [1]; [1; -1]; [0; 1];
    [2; 3]; [1; 0]; [1; 2]; [0; 1]]%Z)
  ++ [([1], [z 3]); ([1], [z 4])].

(** norm_first=True is ignored: the conversion succeeds and gives another function. *)
Theorem C73_norm_first_refuted :
  exists init layer_norm scale N t (h : list (list nat * list Qc)) B L x k net h' y s',
    let src := {| te_layers := [t]; te_norm := None |} in
    encoder_in h src /\ tl_norm_first t = true /\ tl_bias t = true /\ 0 < tl_heads t /\ Nat.divide (tl_heads t) (tl_dim t)
    /\ clip_holds (tl_dim t) B L x k
    /\ build_from init N src h = Ok (net, h') /\ by_name Forward (network layer_norm scale N h' net) SNone x = Ok (Some y, s')
    /\ ~ clip_holds (tl_dim t) B L y (fun b i => nth i (torch_encoder [(true, as_layer layer_norm scale N h t)] None (clip_tokens L k b)) []).
Proof.
  pose (t := ex_tl 0 (AFun relu) true).
  assert (EI : encoder_in ex_heap {| te_layers := [t]; te_norm := None |}).
  { split; [|exact I]. intros t1 t2 [<- | []] [<- | []]. split; [repeat split|]. unfold layer_in, has. cbn. repeat split; lia. }
  assert (Hx : clip_holds 2 1 1 (T [1; 2; 1] [z 1; z 3]) (fun _ _ => [z 1; z 3])).
  { split; [reflexivity|]. intros b i Hb Hi. split; [reflexivity|]. intros e He.
    replace b with 0 by lia. replace i with 0 by lia. assert (e = 0 \/ e = 1) as [-> | ->] by lia; reflexivity. }
  destruct (C73_one_layer Qc NumQ NumQLaws (fun _ => []) ex_ln (fun _ x => x) 1 t None ex_heap 1 [CForward None (T [1; 2; 1] [z 1; z 3])] (fun _ _ => []) EI)
    as (net & h' & outs & s' & Eb & Ec & A); [lia|reflexivity|reflexivity|exact ex_ln_length|cbn; lia|exists 2; reflexivity|lia| |].
  { split; [|exact I]. exists 1, (fun _ _ => [z 1; z 3]). split; [lia|]. split; [exact I|exact Hx]. }
  unfold calls in Ec. unfold call in Ec. change (exec None Forward) with (fun (m : tmod Qc) s (x : tens Qc) (pe upd : bool) => exec None Forward m s x pe upd) in Ec.
  cbv beta in Ec. destruct (exec None Forward (network ex_ln (fun _ x => x) 1 h' net) SNone (T [1; 2; 1] [z 1; z 3]) false true) as [[o s'']|] eqn:Ex; [|discriminate].
  cbn [bind] in Ec. injection Ec as <- <-. cbn [answers] in A. destruct A as [(y & -> & Hy) _]. specialize (Hy 1 (fun _ _ => [z 1; z 3]) Hx).
  exists (fun _ => []), ex_ln, (fun _ x => x), 1, t, ex_heap, 1, 1, (T [1; 2; 1] [z 1; z 3]), (fun _ _ => [z 1; z 3]), net, h', y, s''.
  split; [exact EI|]. split; [reflexivity|]. split; [reflexivity|]. split; [cbn; lia|]. split; [exists 2; reflexivity|]. split; [exact Hx|].
  split; [exact Eb|]. split; [exact Ex|]. intros [_ H2]. destruct Hy as [_ H1].
  destruct (H1 0 0 ltac:(lia) ltac:(lia)) as [_ V1]. destruct (H2 0 0 ltac:(lia) ltac:(lia)) as [_ V2].
  specialize (V1 0 ltac:(cbn; lia)). specialize (V2 0 ltac:(cbn; lia)). rewrite V1 in V2. apply (f_equal this) in V2. vm_compute in V2. discriminate.
Qed.
Print Assumptions C73_norm_first_refuted.

(** An activation module with a weight is shared, not copied: if the layers of the source have
    different weights then both layers of the new network get that of the second, and so does
    the first layer of the source. *)
Theorem C73_activation_refuted :
  exists init layer_norm scale N t u (h : list (list nat * list Qc)) net h' v,
    let src := {| te_layers := [t; u]; te_norm := None |} in
    layer_in h t /\ layer_in h u /\ build_from init N src h = Ok (net, h')
    /\ l_act (as_layer layer_norm scale N h' (hd t (te_layers net))) v <> l_act (as_layer layer_norm scale N h t) v
    /\ l_act (as_layer layer_norm scale N h' t) v <> l_act (as_layer layer_norm scale N h t) v.
Proof.
  pose (t := ex_tl 0 (AModule (Some 12) prelu) false). pose (u := ex_tl 0 (AModule (Some 13) prelu) false).
  destruct (build_from (fun _ => []) 1 {| te_layers := [t; u]; te_norm := None |} ex_heap) as [[net h']|] eqn:E; [|vm_compute in E; discriminate].
  exists (fun _ => []), ex_ln, (fun _ x => x), 1, t, u, ex_heap, net, h', (z (-1)).
  assert (V : val h' 12 = [z 4] /\ tl_act (hd t (te_layers net)) = AModule (Some 12) prelu).
  { assert (Q : match build_from (fun _ => []) 1 {| te_layers := [t; u]; te_norm := None |} ex_heap with
                | Ok (net, h') => val h' 12 = [z 4] /\ tl_act (hd t (te_layers net)) = AModule (Some 12) prelu | Err _ => False end)
      by (vm_compute; split; reflexivity).
    rewrite E in Q. exact Q. }
  destruct V as [V1 V2].
  split; [unfold layer_in, has; cbn; repeat split; lia|]. split; [unfold layer_in, has; cbn; repeat split; lia|]. split; [exact E|].
  cbn [as_layer l_act]. rewrite V2. cbn [tl_act t ex_tl act_fun]. rewrite V1.
  split; intro H; apply (f_equal this) in H; vm_compute in H; discriminate.
Qed.
Print Assumptions C73_activation_refuted.

(** Two layers with different weights and a final norm: what is in the cells of the new
    network (24 new ones behind the 30 of the source), and names that the sorting meets. *)
From Coq Require Import String.
Import List.
Example C73_build_from_ex :
  let h := map (fun i => (nth (i mod 12) (shapes 2 3) [2], [i; i + 100])) (seq 0 24) ++ map (fun i => ([2], [i])) (seq 24 6) in
  let tl i := {| tl_c := cells_at i; tl_dim := 2; tl_heads := 2; tl_ff := 3; tl_eps := 7; tl_act := AFun (fun x => x); tl_norm_first := false; tl_bias := true |} in
  let src := {| te_layers := [tl 0; tl 12]; te_norm := Some (9, 28, 29) |} in
  encoder_in h src
  /\ match build_from (fun _ => []) 4 src h with
     | Ok (net, h') => skipn 30 h' = firstn 24 h /\ firstn 30 h' = h /\ map (fun t => c_w1 (tl_c t)) (te_layers net) = [34; 46]
     | Err _ => False
     end.
Proof.
  cbv zeta. split.
  - split; [|cbn; lia]. intros t u Ht Hu.
    destruct Ht as [<- | [<- | []]], Hu as [<- | [<- | []]]; (split; [repeat split|unfold layer_in, has; cbn; repeat split; lia]).
  - vm_compute. repeat split.
Qed.
Example C73_keys_ex :
  map fst (state_dict "" (co_tree {| te_layers := [ex_tl 0 (AFun relu) false]; te_norm := Some (z 0, 1, 2) |}))
  = ["layers.0.0.self_attn.in_proj_weight"; "layers.0.0.self_attn.in_proj_bias"; "layers.0.0.self_attn.out_proj.weight";
     "layers.0.0.self_attn.out_proj.bias"; "layers.0.1.norm1.fn.weight"; "layers.0.1.norm1.fn.bias";
     "layers.0.1._ff_block.1.linear1.weight"; "layers.0.1._ff_block.1.linear1.bias"; "layers.0.1._ff_block.1.linear2.weight";
     "layers.0.1._ff_block.1.linear2.bias"; "layers.0.1.norm2.fn.weight"; "layers.0.1.norm2.fn.bias"; "norm.fn.weight"; "norm.fn.bias"]%string
  /\ clean_key "layers.1.fn.1._ff_block.1.linear1.weight" = "layers.1.1.1.linear1.weight"%string
  /\ last_two "layers.0.self_attn.out_proj.bias" = "out_proj.bias"%string.
Proof. vm_compute. repeat split. Qed.
