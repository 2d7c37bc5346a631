(** What a torch encoder is and computes, for the conversion of TBuild.v. *)
From Coq Require Import List Bool Arith ZArith.
From Verif Require Import Base Attn TAttn TEnc TEncSpec TBuild.
Import ListNotations.

Section TBuildSpec.
Context {K : Type} {NK : Num K}.
Notation heap := (list (list nat * list K)).

(** nn.TransformerEncoderLayer on the tokens of one batch element: norms after the residuals,
    or before the blocks with norm_first=True. *)
Definition torch_token (norm_first : bool) (p : layer K) (ts : list (list K)) (i : nat) : list K :=
  if norm_first
  then let y := plus (nth i ts []) (attend p (map (l_norm1 p) ts) i) in plus y (feed_forward p (l_norm2 p y))
  else layer_token p ts i.
Definition torch_layer (q : bool * layer K) (ts : list (list K)) : list (list K) :=
  map (torch_token (fst q) (snd q) ts) (seq 0 (length ts)).
(** nn.TransformerEncoder. *)
Definition torch_encoder (ps : list (bool * layer K)) (norm : option (list K -> list K)) (ts : list (list K)) : list (list K) :=
  map (normed norm) (fold_left (fun ts q => torch_layer q ts) ps ts).

(** Cell [c] holds a tensor of shape [s]. *)
Definition has (h : heap) (s : list nat) (c : nat) : Prop := c < length h /\ fst (cell h c) = s.
(** The parameters of a layer have the shapes that its sizes ask for. *)
Definition layer_in (h : heap) (t : tlayer K) : Prop :=
  let c := tl_c t in let E := tl_dim t in let F := tl_ff t in
  has h [3 * E; E] (c_inw c) /\ has h [3 * E] (c_inb c) /\ has h [E; E] (c_ow c) /\ has h [E] (c_ob c)
  /\ has h [F; E] (c_w1 c) /\ has h [F] (c_b1 c) /\ has h [E; F] (c_w2 c) /\ has h [E] (c_b2 c)
  /\ has h [E] (c_n1w c) /\ has h [E] (c_n1b c) /\ has h [E] (c_n2w c) /\ has h [E] (c_n2b c).
(** Two activations of the same kind; a weight has its value in both. *)
Definition same_act (h : heap) (a b : activation K) : Prop :=
  match a, b with
  | AFun f, AFun g | ACallable f, ACallable g => f = g
  | AModule None f, AModule None g => f = g
  | AModule (Some c) f, AModule (Some d) g => f = g /\ c < length h /\ d < length h /\ cell h c = cell h d
  | _, _ => False
  end.
(** nn.TransformerEncoder copies its first layer: the sizes agree (the weights need not). *)
Definition alike (h : heap) (t u : tlayer K) : Prop :=
  tl_dim u = tl_dim t /\ tl_heads u = tl_heads t /\ tl_ff u = tl_ff t /\ tl_eps u = tl_eps t /\ same_act h (tl_act t) (tl_act u).
Definition encoder_in (h : heap) (e : tencoder K) : Prop :=
  (forall t u, In t (te_layers e) -> In u (te_layers e) -> alike h t u /\ layer_in h t)
  /\ match te_norm e with Some (_, w, b) => w < length h /\ b < length h | None => True end.

(** The cells of a layer. *)
Definition layer_cells (t : tlayer K) : list nat :=
  let c := tl_c t in
  [c_inw c; c_inb c; c_ow c; c_ob c; c_w1 c; c_b1 c; c_w2 c; c_b2 c; c_n1w c; c_n1b c; c_n2w c; c_n2b c].
End TBuildSpec.
