(** The attention modules of [Attn.v] on whole tensors: batches, the split into
    heads, projections by weight matrices, and the layouts selected by batch_first and
    embed_dim_second. *)
From Coq Require Import List ZArith Bool Arith.
From Verif Require Import Base Attn Frames Tensor.
Import ListNotations.

(** Numbers of [Attn.v] as the scalars of [Tensor.v]. *)
Lemma num_mul_0 {K} {NK : Num K} {NL : NumLaws K} (a : K) : kmul a k0 = k0.
Proof.
  assert (E : kadd (kmul a k0) (kmul a k0) = kmul a k0).
  { rewrite !(kmul_comm a). rewrite <- kdistr. rewrite kadd_0. reflexivity. }
  assert (E2 : kadd (kadd (kmul a k0) (kmul a k0)) (kopp (kmul a k0)) = kadd (kmul a k0) (kopp (kmul a k0))) by (rewrite E; reflexivity).
  rewrite <- kadd_assoc, kadd_opp, kadd_comm, kadd_0 in E2. exact E2.
Qed.
#[export] Instance num_scal {K} (NK : Num K) : Scal K := {|
  s0 := k0; sadd := kadd; smul := kmul
|}.
#[export] Instance num_scal_laws {K} (NK : Num K) (NL : NumLaws K) : ScalLaws K := {|
  sadd_comm := kadd_comm; sadd_assoc := kadd_assoc;
  sadd_0_l := kadd_0; smul_0_r := num_mul_0
|}.

Section TAttn.
Context {K : Type} {NK : Num K} {NL : NumLaws K}.

(** ** Tensors with their shape *)

Record tens := T { sh : list nat; dat : list K }.
Definition get (x : tens) (ix : list nat) : K := at_ (sh x) (dat x) (map Z.of_nat ix).
Definition mk (s : list nat) (f : list nat -> K) : tens := T s (tab s f).
Definition remove_at {A} (d : nat) (l : list A) : list A := firstn d l ++ skipn (S d) l.
Definition insert_at {A} (d : nat) (a : A) (l : list A) : list A := firstn d l ++ a :: skipn d l.
Fixpoint index_of (d : nat) (p : list nat) : nat :=
  match p with [] => 0 | a :: p' => if Nat.eqb a d then 0 else S (index_of d p') end.

(** [x.permute(p)], [x.transpose(a, b)], [x.select(d, i)] (indexing a dimension),
    [x.unsqueeze(d)], [x.squeeze(d)] (does nothing unless the size is 1),
    [torch.stack(xs, dim=d)]. *)
Definition permute (p : list nat) (x : tens) : tens :=
  mk (map (fun d => nth d (sh x) 0) p)
     (fun ix => get x (map (fun d => nth (index_of d p) ix 0) (seq 0 (length p)))).
Definition transpose (a b : nat) (x : tens) : tens :=
  permute (map (fun d => if Nat.eqb d a then b else if Nat.eqb d b then a else d) (seq 0 (length (sh x)))) x.
Definition select (d i : nat) (x : tens) : tens :=
  mk (remove_at d (sh x)) (fun ix => get x (insert_at d i ix)).
Definition unsqueeze (d : nat) (x : tens) : tens := T (insert_at d 1 (sh x)) (dat x).
Definition squeeze (d : nat) (x : tens) : tens :=
  if Nat.eqb (nth d (sh x) 0) 1 then T (remove_at d (sh x)) (dat x) else x.
Definition stack (d : nat) (xs : list tens) : tens :=
  match xs with
  | [] => T [] []
  | x0 :: _ => mk (insert_at d (length xs) (sh x0))
                  (fun ix => get (nth (nth d ix 0) xs x0) (remove_at d ix))
  end.

(** Python indexing of a dimension, possibly from the end. *)
Definition py_select (d : nat) (i : Z) (x : tens) : res tens :=
  let n := nth d (sh x) 0 in
  let j := if Z.ltb i 0 then (i + Z.of_nat n)%Z else i in
  if Z.leb 0 j && Z.ltb j (Z.of_nat n) then Ok (select d (Z.to_nat j) x) else Err IndexError.

(** ** Projections and heads *)

(** Parameters of a module: sequence_len, num_heads, head_dim, division by
    sqrt(head_dim), in_proj_weight (3E x E), in_proj_bias, out_proj.weight (E x E),
    out_proj.bias, batch_first, embed_dim_second.  E is num_heads * head_dim: the
    constructor of nn.MultiheadAttention refuses other values of embed_dim. *)
Record tattn := {
  t_N : nat; t_H : nat; t_D : nat; t_scale : K -> K;
  t_win : list K; t_bin : option (list K); t_wout : list K; t_bout : option (list K);
  t_bf : bool; t_eds : bool
}.
Variable m : tattn.
Definition t_E : nat := t_H m * t_D m.

(** [F.linear] on the data of a tensor of shape (R, I). *)
Definition linear (R I O : nat) (w : list K) (b : option (list K)) (x : list K) : list K :=
  tab [R; O] (fun ix => match ix with
    | [r; o] => kadd (bias_at b o)
                  (ksum (map (fun i => kmul (at_ [R; I] x [Z.of_nat r; Z.of_nat i]) (at_ [O; I] w [Z.of_nat o; Z.of_nat i])) (seq 0 I)))
    | _ => k0
    end).

(** [F._in_projection_packed] (mha_base.py:135-139): part [i] (query, key, value) of
    in_proj_weight.chunk(3) and in_proj_bias.chunk(3). *)
Definition chunk (i n : nat) (l : list K) : list K := firstn n (skipn (i * n) l).
Definition in_proj (i B : nat) (x : list K) : list K :=
  linear B t_E t_E (chunk i (t_E * t_E) (t_win m)) (option_map (chunk i t_E) (t_bin m)) x.

(** mha_base.py:178-182, 215: the projected step (1, B, E) viewed as (1, B * num_heads,
    head_dim), transposed and squeezed to (B * num_heads, head_dim). *)
Definition heads (B : nat) (y : list K) : list (list K) :=
  map (fun r => chunk r (t_D m) y) (seq 0 (B * t_H m)).

(** mha_base.py:220-221: the heads of one output row, (B * num_heads, head_dim), viewed
    as (B, E), and the output projection. *)
Definition out_proj (B : nat) (hs : list (list K)) : list K :=
  linear B t_E t_E (t_wout m) (t_bout m) (concat hs).

(** The configuration of [Attn.v] for batches of size [B]: a "token" is the data of a
    tensor of shape (B, E).  Simplification: no bias_k, add_zero_attn or separate
    projections (C31 has these). *)
Definition acfg (B : nat) : cfg K :=
  Cfg (t_N m) (B * t_H m) (t_D m) (t_scale m)
      (fun x => heads B (in_proj 0 B x)) (fun x => heads B (in_proj 1 B x)) (fun x => heads B (in_proj 2 B x))
      (out_proj B) None true false.

(** ** forward *)

(** The slices x[t] of a tensor, and the tensor (L, B, E) with given rows. *)
Definition slices (x : tens) : list (list K) := map (fun t => dat (select 0 t x)) (seq 0 (nth 0 (sh x) 0)).
Definition of_rows (B : nat) (rows : list (list K)) : tens := T [length rows; B; t_E] (concat rows).

(** Query, key and value of shapes (L, B, E), (S, B, E), (S, B, E). *)
Definition shapes3 (q k v : tens) : option nat :=
  match sh q, sh k, sh v with
  | [_; B; e], [s1; B1; e1], [s2; B2; e2] =>
      if forallb (Nat.eqb B) [B1; B2] && forallb (Nat.eqb t_E) [e; e1; e2] && Nat.eqb s1 s2 then Some B else None
  | _, _, _ => None
  end.

(** torch [MultiheadAttention.forward] of the base class, without the weights:
    transposed if batch_first, then [F.multi_head_attention_forward]. *)
Definition nn_forward (q k v : tens) : res tens :=
  let flip x := if t_bf m then transpose 1 0 x else x in
  let q := flip q in let k := flip k in let v := flip v in
  match shapes3 q k v with
  | Some B => Ok (flip (of_rows B (mha_forward (acfg B) (slices q) (slices k) (slices v))))
  | None => Err AssertionError
  end.

(** mha_base.py:356-371 [MultiheadAttentionBase.forward], first result. *)
Definition b_forward (q k v : tens) : res tens :=
  let flip x := if t_eds m then permute [0; 2; 1] x else x in
  o <- nn_forward (flip q) (flip k) (flip v) ;; Ok (flip o).

(** single_output_mha.py:268-300 [forward]. *)
Definition s_forward (single_output_forward : bool) (query_index : Z) (q k v : tens) : res tens :=
  if single_output_forward then
    q' <- (if t_bf m then
             if t_eds m then x <- py_select 2 query_index q ;; Ok (unsqueeze 2 x)
             else x <- py_select 1 query_index q ;; Ok (unsqueeze 1 x)
           else x <- py_select 0 query_index q ;; Ok (unsqueeze 0 x)) ;;
    b_forward q' k v
  else b_forward q k v.

(** ** Steps *)

(** mha_base.py:103-127: query, key and value must have shape (B, E). *)
Definition shapes2 (q k v : tens) : option nat :=
  match sh q, sh k, sh v with
  | [B; e], [B1; e1], [B2; e2] =>
      if forallb (Nat.eqb B) [B1; B2] && forallb (Nat.eqb t_E) [e; e1; e2] then Some B else None
  | _, _, _ => None
  end.

(** mha_base.py:430-478 [MultiheadAttentionBase.forward_step]: the step of [Attn.v] on
    the data; the output has shape (L, B, E), or (B, L, E) if batch_first. *)
Definition b_forward_step (p : sdpa K) (o : option (mstate p)) (q k v : tens) (upd : bool) (h : cells)
  : res (option tens * option (mstate p) * cells) :=
  match shapes2 q k v with
  | Some B =>
      '(out, o, h) <- m_forward_step (acfg B) p o (dat q, dat k, dat v) upd h ;;
      Ok (option_map (fun rows => let y := of_rows B rows in if t_bf m then transpose 1 0 y else y) out, o, h)
  | None => Err AssertionError
  end.

(** mha_base.py:480-544 [MultiheadAttentionBase.forward_steps]. *)
Definition b_forward_steps (p : sdpa K) (o : option (mstate p)) (q k v : tens) (upd : bool) (h : cells)
  : res (option tens * option (mstate p) * cells) :=
  let flip x :=
    let x := if t_eds m then permute [0; 2; 1] x else x in
    if t_bf m then transpose 1 0 x else x in
  let q := flip q in let k := flip k in let v := flip v in
  match shapes3 q k v with
  | Some B =>
      if Nat.eqb (nth 0 (sh q) 0) (nth 0 (sh k) 0) then
        '(outs, o, h) <- m_forward_steps (acfg B) p o (combine (combine (slices q) (slices k)) (slices v)) upd h ;;
        Ok (option_map (fun rs =>
              stack (if t_bf m then 1 else 0)
                    (map (fun rows => let y := of_rows B rows in if t_bf m then transpose 0 1 y else y) rs)) outs, o, h)
      else Err AssertionError
  | None => Err AssertionError
  end.

(** single_output_mha.py:340-369 [forward_step], 371-400 [forward_steps]. *)
Definition s_forward_step (p : sdpa K) (o : option (mstate p)) (q k v : tens) (upd : bool) (h : cells) :=
  '(out, o, h) <- b_forward_step p o q k v upd h ;;
  Ok (option_map (squeeze (if t_bf m then 1 else 0)) out, o, h).
Definition s_forward_steps (p : sdpa K) (o : option (mstate p)) (q k v : tens) (upd : bool) (h : cells) :=
  '(out, o, h) <- b_forward_steps p o q k v upd h ;;
  Ok (option_map (fun y => let y := squeeze 2 y in if t_eds m then transpose 1 2 y else y) out, o, h).

(** retroactive_mha.py:325-356 [forward_step], 358-374 [forward_steps]. *)
Definition r_forward_step (p : sdpa K) (o : option (mstate p)) (q k v : tens) (upd : bool) (h : cells) :=
  '(out, o, h) <- b_forward_step p o q k v upd h ;;
  Ok (option_map (fun y => if t_eds m then transpose 1 2 y else y) out, o, h).
Definition r_forward_steps (p : sdpa K) (o : option (mstate p)) (q k v : tens) (upd : bool) (h : cells) :=
  '(out, o, h) <- b_forward_steps p o q k v upd h ;;
  Ok (option_map (fun y => if t_eds m then permute [0; 3; 1; 2] y else y) out, o, h).

(** Both subclasses; the memory does not depend on the batch size. *)
Definition ts_sdpa (query_index : Z) : sdpa K := so_sdpa (acfg 0) query_index.
Definition tr_sdpa : sdpa K := re_sdpa (acfg 0).

End TAttn.
Arguments tens K : clear implicits.
Arguments tattn K : clear implicits.
