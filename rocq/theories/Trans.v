(** Transformer encoder layers (continual/transformer.py), on top of the
    attention modules of [Attn.v] and the delays of [Leaf.v].

    Simplifications. A token is one time step of one batch element; [g] is the
    composition of the pointwise parts of a layer (norm1, the feed-forward block
    with its residual, norm2), which forward and forward_step both apply to
    every token separately. *)
From Coq Require Import List ZArith Bool Arith Lia.
From Verif Require Import Base Frames CoMod Leaf Attn.
Import ListNotations.

(** Feeding any stateful step function. *)
Fixpoint feeds {X Y S} (step : S -> X -> res (Y * S)) (s : S) (xs : list X)
  : res (list Y * S) :=
  match xs with
  | [] => Ok ([], s)
  | x :: xs => '(y, s) <- step s x ;; '(ys, s) <- feeds step s xs ;; Ok (y :: ys, s)
  end.

Section Unity.
Context {F : Type} {FA : Frames F} {FL : FrameLaws F}.

(** transformer.py:73-80 [RetroactiveUnity.init_state]. *)
Definition unity_init (d : nat) (m : fill) (x : F) : obj F :=
  Obj (repeat (make_padding m x) (d + 1)) (- Z.of_nat d) 0.

(** [buffer.roll(shifts=-k, dims=0)]: entry [j] is entry [(j + k) mod len]. [x]
    is a default that is never used. *)
Definition roll_back (k : Z) (l : list F) (x : F) : list F :=
  map (fun j => nth (Z.to_nat ((Z.of_nat j + k) mod Z.of_nat (length l))) l x)
      (seq 0 (length l)).

(** transformer.py:82-109 [RetroactiveUnity._forward_step]. The remainder by
    [self.delay] raises for delay 0. The output lists the frames along time. *)
Definition unity_fstep (d : nat) (m : fill) (x : F) (prev : option (obj F))
  : res (option (list F) * option (obj F)) :=
  let st := match prev with None => unity_init d m x | Some s => s end in
  let index := o_idx st in
  buffer <- setz (o_buf st) (index mod Z.of_nat (d + 1))%Z x ;;
  ni <- (if Z.ltb 0 (index + 1) then
           if Nat.eqb d 0 then Err RuntimeError
           else Ok ((index + 1) mod Z.of_nat d)%Z
         else Ok (index + 1)%Z) ;;
  let output := if Z.leb 0 index then Some (roll_back (index + 1) buffer x) else None in
  Ok (output, Some (Obj buffer ni (o_str st))).

(** delay.py:113-117 [Delay.forward_step], inherited. For delay 0 the frame is
    returned as it is (without a time dimension); module.py:213-219 otherwise. *)
Definition unity_forward_step (d : nat) (m : fill) (o : obj F) (x : F) (upd : bool)
  : res (option (list F) * obj F) :=
  if Nat.eqb d 0 then Ok (Some [x], o)
  else
    '(out, s) <- unity_fstep d m x (obj_get o) ;;
    Ok (out, match s with Some s => if upd then obj_set o s else o | None => o end).

(** delay.py:128-134 [Delay.forward] with auto_shrink=False. *)
Definition unity_forward (xs : list F) : list F := xs.

(** transformer.py:42-47 [SelectOrDelay.forward]; raises when the clip is too
    short. Its forward_step is that of Delay. *)
Definition select_forward (d : nat) (xs : list F) : res (list F) :=
  x <- py_index xs (-1 - Z.of_nat d) ;; Ok [x].

(** transformer.py:147-151 [sum_last_pairs] for two clips. *)
Definition sum_last_pairs (a b : list F) : list F :=
  let t := Nat.min (length a) (length b) in
  map2 fadd (skipn (length a - t) a) (skipn (length b - t) b).

End Unity.

Section Layers.
Context {K : Type} {NK : Num K} {NL : NumLaws K}.

(** Addition of tokens; a missing entry counts as zero, so that [] is the
    all-zeros token. *)
Fixpoint vadd (a b : vec K) : vec K :=
  match a, b with
  | [], _ => b
  | _, [] => a
  | x :: a, y :: b => kadd x y :: vadd a b
  end.

#[export] Instance vec_frames : Frames (vec K) := {| f0 := []; finf := []; fadd := vadd |}.
#[export] Instance vec_laws : FrameLaws (vec K).
Proof.
  split; cbn [fadd f0 vec_frames].
  - induction a as [|x a IH]; destruct b as [|y b]; cbn; auto.
    rewrite IH, kadd_comm. reflexivity.
  - induction a as [|x a IH]; destruct b as [|y b]; destruct c as [|w c]; cbn; auto.
    rewrite IH, kadd_assoc. reflexivity.
  - reflexivity.
Qed.

Variable c : cfg K.
Variable g : vec K -> vec K.

(** *** Retroactive layer, transformer.py:296-406 *)

(** Forward: BroadcastReduce of RetroactiveUnity and the attention, then [g] on
    every token. *)
Definition re_layer_forward (xs : list (vec K)) : list (vec K) :=
  map g (map2 fadd (unity_forward xs) (mha_forward c xs xs xs)).

(** State of a layer: the residual's object, the attention state and the cells. *)
Record lstate (p : sdpa K) := LS {
  l_res : obj (vec K); l_att : option (mstate p); l_cells : cells
}.
Arguments LS {p} _ _ _.
Arguments l_res {p} _.
Arguments l_att {p} _.
Arguments l_cells {p} _.

Definition lstate_init {p} : lstate p := LS obj_init None [].

(** forward_step: container.py BroadcastReduce.forward_step returns None unless
    all branches answered; then RetroactiveLambda applies [g] to every token
    (transformer.py:112-135). The residual is RetroactiveUnity(mha.delay) and
    mha.delay is sequence_len - 1. *)
Definition re_layer_step (s : lstate (re_sdpa c)) (x : vec K)
  : res (option (list (vec K)) * lstate (re_sdpa c)) :=
  '(r, u) <- unity_forward_step (c_N c - 1) Zeros (l_res s) x true ;;
  '(a, o, h) <- m_forward_step c (re_sdpa c) (l_att s) (x, x, x) true (l_cells s) ;;
  Ok (match r, a with
      | Some r, Some a => Some (map g (map2 fadd r a))
      | _, _ => None
      end, LS u o h).

(** *** Single-output layer, transformer.py:154-293 *)

Section SingleOutput.
Variable query_index : Z.
Variable sof : bool.     (* single_output_forward *)

Definition so_layer_forward (xs : list (vec K)) : res (list (vec K)) :=
  r <- (if sof then select_forward (so_delay (c_N c) query_index) xs else Ok xs) ;;
  a <- so_forward c sof query_index xs xs xs ;;
  Ok (map g (sum_last_pairs r a)).

(** forward_step: the residual is SelectOrDelay(mha.delay) or Identity; the
    squeezed attention output is one token. *)
Definition so_layer_step (s : lstate (so_sdpa c query_index)) (x : vec K)
  : res (option (vec K) * lstate (so_sdpa c query_index)) :=
  '(r, u) <- (if sof
              then delay_forward_step (so_delay (c_N c) query_index) Zeros ShNo
                     (l_res s) x true
              else Ok (Some x, l_res s)) ;;
  '(a, o, h) <- m_forward_step c (so_sdpa c query_index) (l_att s) (x, x, x) true
                  (l_cells s) ;;
  Ok (match r, a with
      | Some r, Some (a :: _) => Some (g (fadd r a))
      | _, _ => None
      end, LS u o h).

End SingleOutput.

End Layers.
Arguments LS {K p} _ _ _.
Arguments l_res {K p} _.
Arguments l_att {K p} _.
Arguments l_cells {K p} _.

(** *** TransformerEncoder, transformer.py:505-637 *)

(** Parameters of one encoder layer: its attention and its pointwise part. *)
Record layer K := Layer { y_cfg : cfg K; y_g : vec K -> vec K }.
Arguments Layer {K} _ _.
Arguments y_cfg {K} _.
Arguments y_g {K} _.

(** transformer.py:28-39 [MhaType]. *)
Inductive mha_type := RETROACTIVE | SINGLE_OUTPUT | SINGLE_OUTPUT_FORWARD | REGULAR.

(** transformer.py:478-500, the function returned by TransformerEncoderLayerFactory:
    a layer of the wanted type, or None for REGULAR, whose function body is
    [...] (transformer.py:409-423). *)
Definition factory {K} (t : mha_type) (l : layer K) : option (mha_type * layer K) :=
  match t with REGULAR => None | _ => Some (t, l) end.

(** closure.py:60-79 [Lambda.__init__] as used by RetroactiveLambda: the function
    has to be callable. *)
Definition retro_lambda {A} (fn : option A) : res A :=
  match fn with Some f => Ok f | None => Err AssertionError end.

(** The list of layers that the constructor puts together,
    transformer.py:542-575; [mk] gives the parameters of layer number [i]. The
    final Lambda only squeezes the time dimension. *)
Definition encoder_layers {K} (num_layers : Z) (mk : nat -> layer K)
  : res (list (mha_type * layer K)) :=
  if Z.eqb num_layers 1 then
    match factory SINGLE_OUTPUT (mk 0) with Some l => Ok [l] | None => Err AssertionError end
  else
    first <- retro_lambda (factory RETROACTIVE (mk 0)) ;;
    mid <- mapM (fun i => retro_lambda (factory REGULAR (mk i)))
             (seq 1 (Z.to_nat (num_layers - 2))) ;;
    last <- retro_lambda (factory SINGLE_OUTPUT_FORWARD
                            (mk (1 + Z.to_nat (num_layers - 2)))) ;;
    Ok (first :: mid ++ [last]).

Section Encoder.
Context {K : Type} {NK : Num K} {NL : NumLaws K}.

(** forward of one layer of the encoder; the layers are built with query_index
    -1 (transformer.py:478-500). *)
Definition layer_forward (t : mha_type) (l : layer K) (xs : list (vec K))
  : res (list (vec K)) :=
  match t with
  | RETROACTIVE => Ok (re_layer_forward (y_cfg l) (y_g l) xs)
  | SINGLE_OUTPUT => so_layer_forward (y_cfg l) (y_g l) (-1) false xs
  | SINGLE_OUTPUT_FORWARD => so_layer_forward (y_cfg l) (y_g l) (-1) true xs
  | REGULAR => Err RuntimeError
  end.

(** forward of a list of layers (Sequential.forward), then the optional norm on
    every token. *)
Fixpoint layers_forward (ls : list (mha_type * layer K)) (xs : list (vec K))
  : res (list (vec K)) :=
  match ls with
  | [] => Ok xs
  | (t, l) :: ls => ys <- layer_forward t l xs ;; layers_forward ls ys
  end.

Definition encoder_forward (num_layers : Z) (mk : nat -> layer K) (norm : vec K -> vec K)
  (xs : list (vec K)) : res (list (vec K)) :=
  ls <- encoder_layers num_layers mk ;;
  ys <- layers_forward ls xs ;;
  Ok (map norm ys).

(** forward_step. A layer after the first one runs its forward inside
    RetroactiveLambda (transformer.py:120-121, 554-561), so the state of an
    encoder is that of its first layer. *)
Definition estate (l : layer K) : Type :=
  (lstate (so_sdpa (y_cfg l) (-1)) + lstate (re_sdpa (y_cfg l)))%type.

(** State of a fresh encoder. *)
Definition estate_init (num_layers : Z) (l : layer K) : estate l :=
  if Z.eqb num_layers 1 then inl lstate_init else inr lstate_init.

Definition encoder_step (num_layers : Z) (mk : nat -> layer K) (norm : vec K -> vec K)
  (s : estate (mk 0)) (x : vec K) : res (option (vec K) * estate (mk 0)) :=
  ls <- encoder_layers num_layers mk ;;
  match s with
  | inl s =>
      '(y, s) <- so_layer_step (y_cfg (mk 0)) (y_g (mk 0)) (-1) false s x ;;
      Ok (option_map norm y, inl s)
  | inr s =>
      '(r, s) <- re_layer_step (y_cfg (mk 0)) (y_g (mk 0)) s x ;;
      match r with
      | None => Ok (None, inr s)
      | Some ys =>
          zs <- layers_forward (tl ls) ys ;;
          Ok (match zs with z :: _ => Some (norm z) | [] => None end, inr s)
      end
  end.

End Encoder.
