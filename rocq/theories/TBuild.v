(** Conversion of a torch encoder: transformer.py:577-638 [TransformerEncoder.build_from],
    with the names of the parameters in both networks, the transfer by sorted names, and the
    parameters as cells that two modules may share. *)
From Coq Require Import List Ascii String Bool Arith ZArith.
From Verif Require Import Base Attn TAttn TEnc.
Import ListNotations.
Local Open Scope string_scope.
Local Open Scope list_scope.

(** ** Python strings *)

(** [s.replace(old, new)] for a non-empty [old]: from the left, without overlaps. *)
Fixpoint replace_from (old new : string) (skip : nat) (s : string) : string :=
  match s with
  | EmptyString => EmptyString
  | String c t =>
      match skip with
      | S k => replace_from old new k t
      | 0 => if String.prefix old s then (new ++ replace_from old new (String.length old - 1) t)%string
             else String c (replace_from old new 0 t)
      end
  end.
Definition replace (old new s : string) : string := replace_from old new 0 s.
(** [s.split(".")]. *)
Fixpoint split_dot (s : string) : list string :=
  match s with
  | EmptyString => [""]
  | String c t =>
      if Ascii.eqb c "."%char then "" :: split_dot t
      else match split_dot t with w :: ws => String c w :: ws | [] => [] end
  end.
(** [".".join(k.split(".")[-2:])]. *)
Definition last_two (k : string) : string :=
  let l := split_dot k in String.concat "." (skipn (List.length l - 2) l).
(** [sorted(l, key=lambda x: x[0])]: stable. *)
Fixpoint insert {A} (x : string * A) (l : list (string * A)) : list (string * A) :=
  match l with
  | [] => [x]
  | y :: t => if String.leb (fst x) (fst y) then x :: l else y :: insert x t
  end.
Definition sort {A} (l : list (string * A)) : list (string * A) := fold_right insert [] l.

(** ** Trees of modules with named parameters *)

(** A parameter is a cell of the heap.  torch's [state_dict] lists the parameters of a module
    before those of its children; non-persistent buffers (all buffers of the library's
    attention and delay modules) do not occur. *)
Inductive mtree := Node (params : list (string * nat)) (kids : list (string * mtree)).
Fixpoint state_dict (prefix : string) (m : mtree) : list (string * nat) :=
  match m with
  | Node ps ks =>
      map (fun p => ((prefix ++ fst p)%string, snd p)) ps
      ++ flat_map (fun k => state_dict (prefix ++ fst k ++ ".")%string (snd k)) ks
  end.
Definition leaf : mtree := Node [] [].
(** [Lambda(fn)] registers a module [fn] under that name (closure.py:79). *)
Definition lam_tree (t : mtree) : mtree := Node [] [("fn", t)].
(** nn.Linear and nn.LayerNorm. *)
Definition wb_tree (bias : bool) (w b : nat) : mtree :=
  Node (("weight", w) :: if bias then [("bias", b)] else []) [].

(** The parameters of one layer, the same in torch and here. *)
Record lcells := {
  c_inw : nat; c_inb : nat; c_ow : nat; c_ob : nat; c_w1 : nat; c_b1 : nat; c_w2 : nat; c_b2 : nat;
  c_n1w : nat; c_n1b : nat; c_n2w : nat; c_n2b : nat
}.
(** nn.MultiheadAttention with equal key and value sizes. *)
Definition mha_tree (bias : bool) (c : lcells) : mtree :=
  Node (("in_proj_weight", c_inw c) :: if bias then [("in_proj_bias", c_inb c)] else [])
       [("out_proj", wb_tree bias (c_ow c) (c_ob c))].

Section TBuild.
Context {K : Type} {NK : Num K}.

(** The heap: shape and entries of each cell. *)
Notation heap := (list (list nat * list K)).
Definition cell (h : heap) (c : nat) : list nat * list K := nth c h ([], []).
Definition write (h : heap) (c : nat) (v : list nat * list K) : heap := firstn c h ++ v :: skipn (S c) h.

(** The activation of a layer: a Python function; another callable (a built-in function such
    as F.gelu, a functools.partial); a torch module from convert.py's NAIVE_MAPPING that acts
    on every entry, with the cell of its weight if it has one (nn.PReLU). *)
Inductive activation :=
| AFun (f : K -> K)
| ACallable (f : K -> K)
| AModule (w : option nat) (f : list K -> K -> K).
Definition act_cell (a : activation) : option nat := match a with AModule w _ => w | _ => None end.
Definition act_tree (a : activation) : mtree := match act_cell a with Some c => Node [("weight", c)] [] | None => leaf end.

(** nn.TransformerEncoderLayer, and nn.TransformerEncoder with an optional final LayerNorm
    (eps, weight, bias). *)
Record tlayer := {
  tl_c : lcells; tl_dim : nat; tl_heads : nat; tl_ff : nat; tl_eps : K; tl_act : activation;
  tl_norm_first : bool; tl_bias : bool
}.
Record tencoder := { te_layers : list tlayer; te_norm : option (K * nat * nat) }.

(** The children of nn.TransformerEncoderLayer. *)
Definition torch_layer_tree (t : tlayer) : mtree :=
  let c := tl_c t in let b := tl_bias t in
  Node [] [("self_attn", mha_tree b c); ("linear1", wb_tree b (c_w1 c) (c_b1 c)); ("dropout", leaf);
           ("linear2", wb_tree b (c_w2 c) (c_b2 c)); ("norm1", wb_tree b (c_n1w c) (c_n1b c));
           ("norm2", wb_tree b (c_n2w c) (c_n2b c)); ("dropout1", leaf); ("dropout2", leaf);
           ("activation", act_tree (tl_act t))].
Definition norm_tree (norm : option (K * nat * nat)) : list (string * mtree) :=
  match norm with Some (_, w, b) => [("norm", wb_tree true w b)] | None => [] end.
(** Names of the members of nn.ModuleList and of unnamed children.  Simplification: build_from
    fails for three or more layers before it looks at names, so two suffice. *)
Definition numbered (l : list mtree) : list (string * mtree) := combine ["0"; "1"; "2"] l.
Definition torch_tree (e : tencoder) : mtree :=
  Node [] (("layers", Node [] (numbered (map torch_layer_tree (te_layers e)))) :: norm_tree (te_norm e)).

(** transformer.py:237-293: the single-output layer.  [Residual] is
    [BroadcastReduce(Delay, ff)] without names (container.py:974-979). *)
Definition ff_tree (c : lcells) (act : mtree) : mtree :=
  Node [] [("linear1", wb_tree true (c_w1 c) (c_b1 c)); ("activation", act); ("dropout", leaf);
           ("linear2", wb_tree true (c_w2 c) (c_b2 c)); ("dropout2", leaf)].
Definition so_tree (t : tlayer) : mtree :=
  let c := tl_c t in
  Node [] (numbered [
    Node [] [("residual", leaf); ("self_attn", mha_tree true c)];
    Node [] [("norm1", lam_tree (wb_tree true (c_n1w c) (c_n1b c)));
             ("_ff_block", Node [] (numbered [leaf; ff_tree c (act_tree (tl_act t))]));
             ("norm2", lam_tree (wb_tree true (c_n2w c) (c_n2b c)))]]).
(** transformer.py:371-406: the retroactive layer. *)
Definition re_tree (t : tlayer) : mtree :=
  let c := tl_c t in
  Node [] (numbered [
    Node [] [("residual", leaf); ("self_attn", mha_tree true c)];
    lam_tree (Node [] [("norm1", wb_tree true (c_n1w c) (c_n1b c));
             ("_ff_block", Node [] [("fn", ff_tree c (match act_cell (tl_act t) with Some _ => lam_tree (act_tree (tl_act t)) | None => leaf end))]);
             ("norm2", wb_tree true (c_n2w c) (c_n2b c))])]).
(** transformer.py:542-575: the encoder. *)
Definition co_tree (e : tencoder) : mtree :=
  Node [] (("layers", Node [] (numbered match te_layers e with
      | [t] => [so_tree t]
      | [t1; t2] => [re_tree t1; lam_tree (so_tree t2); leaf]
      | _ => []
      end))
    :: map (fun q => (fst q, lam_tree (snd q))) (norm_tree (te_norm e))).

(** ** Construction of the continual network *)

(** New cells for the parameters of a layer, with arbitrary initial values. *)
Definition shapes (E ff : nat) : list (list nat) :=
  [[3 * E; E]; [3 * E]; [E; E]; [E]; [ff; E]; [ff]; [E; ff]; [E]; [E]; [E]; [E]; [E]].
Definition cells_at (i : nat) : lcells := {|
  c_inw := i; c_inb := i + 1; c_ow := i + 2; c_ob := i + 3; c_w1 := i + 4; c_b1 := i + 5; c_w2 := i + 6; c_b2 := i + 7;
  c_n1w := i + 8; c_n1b := i + 9; c_n2w := i + 10; c_n2b := i + 11 |}.
Variable init : nat -> list K.
Definition new_layer (tel : tlayer) (h : heap) : tlayer * heap :=
  let i := List.length h in
  ({| tl_c := cells_at i; tl_dim := tl_dim tel; tl_heads := tl_heads tel; tl_ff := tl_ff tel; tl_eps := tl_eps tel;
      tl_act := tl_act tel; tl_norm_first := false; tl_bias := true |},
   h ++ combine (shapes (tl_dim tel) (tl_ff tel)) (map (fun k => init (i + k)) (seq 0 12))).

(** container.py:135-142, convert.py:200-247: what [co.Sequential] accepts as a module. *)
Definition convertible (a : activation) : bool := match a with ACallable _ => false | _ => true end.
(** transformer.py:542-575 with the factory of 426-502 for [tel]; [sequence_len] is checked by
    the constructors of the layers (205-207, 351-353), and [REGULAR] layers are None, which
    Lambda refuses (409-423, closure.py:69-76).  The activation object and the norm object are
    passed on, not copied. *)
Definition construct (N : nat) (tel : tlayer) (n : nat) (norm : option (K * nat * nat)) (h : heap) : res (tencoder * heap) :=
  if Nat.eqb N 0 then Err AssertionError
  else match n with
  | 1 => if convertible (tl_act tel) then
           let (t, h) := new_layer tel h in Ok ({| te_layers := [t]; te_norm := norm |}, h)
         else Err AssertionError
  | 2 => let (t1, h) := new_layer tel h in
         if convertible (tl_act tel) then
           let (t2, h) := new_layer tel h in Ok ({| te_layers := [t1; t2]; te_norm := norm |}, h)
         else Err AssertionError
  | _ => Err AssertionError
  end.

(** ** Transfer of the weights *)

(** transformer.py:604-617. *)
Definition clean_key (k : string) : string :=
  replace ".0.self_attn" ".self_attn" (replace "_ff_block." "" (replace "fn." "" k)).
(** transformer.py:603-634: both dictionaries sorted by name, compared in the last two parts of
    the names as far as both go, and paired by position. *)
Definition transfer (net_sd src_sd : list (string * nat)) : res (list (string * nat)) :=
  let net_keys := map fst net_sd in
  let matched := sort (combine (map clean_key net_keys) (seq 0 (List.length net_keys))) in
  let reg := sort src_sd in
  if forallb (fun q => String.eqb (last_two (fst (fst q))) (last_two (fst (snd q)))) (combine matched reg) then
    if Nat.leb (List.length net_keys) (List.length reg) then
      Ok (map (fun q => (nth (snd (fst q)) net_keys "", snd (snd q))) (combine matched reg))
    else Err IndexError
  else Err AssertionError.
(** [net.load_state_dict(new_sd)]: every parameter is looked up by name and copied in place, in
    the order of the modules.  Simplification: torch copies what it can before it raises; here
    nothing is returned then. *)
Fixpoint lookup (k : string) (d : list (string * nat)) : option nat :=
  match d with [] => None | (k', c) :: t => if String.eqb k k' then Some c else lookup k t end.
Fixpoint copy_all (l : list (nat * nat)) (h : heap) : res heap :=
  match l with
  | [] => Ok h
  | (d, s) :: l =>
      if list_eq_dec Nat.eq_dec (fst (cell h d)) (fst (cell h s)) then copy_all l (write h d (cell h s)) else Err RuntimeError
  end.
Definition load (net_sd new_sd : list (string * nat)) (h : heap) : res heap :=
  ps <- mapM (fun q => match lookup (fst q) new_sd with Some s => Ok (snd q, s) | None => Err RuntimeError end) net_sd ;;
  copy_all ps h.

(** transformer.py:577-638. *)
Definition build_from (N : nat) (src : tencoder) (h : heap) : res (tencoder * heap) :=
  match te_layers src with
  | [] => Err IndexError
  | tel :: _ =>
      '(net, h) <- construct N tel (List.length (te_layers src)) (te_norm src) h ;;
      new_sd <- transfer (state_dict "" (co_tree net)) (state_dict "" (torch_tree src)) ;;
      h <- load (state_dict "" (co_tree net)) new_sd h ;;
      Ok (net, h)
  end.

(** ** What a network with these parameters computes *)

(** nn.LayerNorm (eps, weight, bias, token) and the division by the root of the head size. *)
Variable layer_norm : K -> list K -> list K -> list K -> list K.
Variable scale : nat -> K -> K.
Definition val (h : heap) (c : nat) : list K := snd (cell h c).
Definition act_fun (h : heap) (a : activation) : K -> K :=
  match a with AFun f | ACallable f => f | AModule w f => f (match w with Some c => val h c | None => [] end) end.
(** A layer as TEnc.v wants it.  Simplification: an activation that is a torch module is taken
    for the function that it computes. *)
Definition as_layer (N : nat) (h : heap) (t : tlayer) : layer K :=
  let c := tl_c t in let D := tl_dim t / tl_heads t in let opt b := if tl_bias t then Some (val h b) else None in {|
  l_a := {| t_N := N; t_H := tl_heads t; t_D := D; t_scale := scale D; t_win := val h (c_inw c); t_bin := opt (c_inb c);
            t_wout := val h (c_ow c); t_bout := opt (c_ob c); t_bf := true; t_eds := true |};
  l_ff := tl_ff t; l_norm1 := layer_norm (tl_eps t) (val h (c_n1w c)) (val h (c_n1b c));
  l_norm2 := layer_norm (tl_eps t) (val h (c_n2w c)) (val h (c_n2b c));
  l_act := act_fun h (tl_act t);
  l_w1 := val h (c_w1 c); l_b1 := opt (c_b1 c); l_w2 := val h (c_w2 c); l_b2 := opt (c_b2 c) |}.
Definition as_norm (h : heap) (norm : option (K * nat * nat)) : option (list K -> list K) :=
  match norm with Some (eps, w, b) => Some (layer_norm eps (val h w) (val h b)) | None => None end.
(** The continual network. *)
Definition network (N : nat) (h : heap) (net : tencoder) : tmod K :=
  match map (as_layer N h) (te_layers net) with
  | [p] => encoder1 p (as_norm h (te_norm net))
  | [p1; p2] => encoder2 p1 p2 (as_norm h (te_norm net))
  | _ => MSeq []
  end.
End TBuild.
Arguments activation K : clear implicits.
Arguments tlayer K : clear implicits.
Arguments tencoder K : clear implicits.
