(** The recurrent modules of [Rnn.v] on whole tensors: weight matrices, gates,
    batches, layouts, the state, and the conversion from torch.nn. *)
From Coq Require Import List ZArith Bool Arith.
From Verif Require Import Base Attn Frames Tensor Rnn TAttn.
Import ListNotations.

Section TRnn.
Context {K : Type} {NK : Num K}.

(** The sigmoid and tanh functions; nothing is assumed of them. *)
Variables sig tnh : K -> K.

Inductive kind := Elman | Gru | Lstm.

(** torch [RNNBase.__init__]: input_size, hidden_size, num_layers, bias, proj_size
    (LSTM only), bidirectional, batch_first, nonlinearity (RNN only), and
    [_flat_weights].  Simplification: dropout between layers (training only), packed
    sequences, device and dtype are not modelled. *)
Record trnn := {
  n_kind : kind; n_in : nat; n_H : nat; n_L : nat; n_bias : bool; n_proj : nat;
  n_bidir : bool; n_bf : bool; n_act : K -> K; n_flat : list (tens K)
}.

Section Module.
Variable m : trnn.

(** torch [RNNBase.__init__]: gate_size, real_hidden_size, layer_input_size,
    num_directions and the order of the parameters of one layer and direction. *)
Definition gates : nat := match n_kind m with Elman => 1 | Gru => 3 | Lstm => 4 end.
Definition n_out : nat := if Nat.eqb (n_proj m) 0 then n_H m else n_proj m.
Definition dirs : nat := if n_bidir m then 2 else 1.
Definition layer_in (l : nat) : nat := if Nat.eqb l 0 then n_in m else dirs * n_out.
Definition layer_shapes (k : nat) : list (list nat) :=
  [[gates * n_H m; layer_in (k / dirs)]; [gates * n_H m; n_out]]
  ++ (if n_bias m then [[gates * n_H m]; [gates * n_H m]] else [])
  ++ (if Nat.eqb (n_proj m) 0 then [] else [[n_proj m; n_H m]]).
Definition flat_shapes : list (list nat) := flat_map layer_shapes (seq 0 (n_L m * dirs)).

(** Parameter [j] of layer and direction [k] = num_directions * layer + direction. *)
Definition per : nat := 2 + (if n_bias m then 2 else 0) + (if Nat.eqb (n_proj m) 0 then 0 else 1).
Definition param (k j : nat) : list K := dat (nth (k * per + j) (n_flat m) (T [] [])).
Definition bias_param (k j : nat) : option (list K) := if n_bias m then Some (param k j) else None.

(** One step of one layer on a batch (ATen RNN.cpp, SimpleCell, GRUCell, LSTMCell): the
    two linear maps, their chunks along the last dimension, and elementwise operations. *)
Definition elem (B : nat) (f : nat -> nat -> K) : list K :=
  tab [B; n_H m] (fun ix => match ix with [b; j] => f b j | _ => k0 end).
Definition cell (B k : nat) (h : hid (list K)) (x : list K) : hid (list K) * list K :=
  let G := gates * n_H m in
  let gi := linear B (layer_in (k / dirs)) G (param k 0) (bias_param k 2) x in
  let gh := linear B n_out G (param k 1) (bias_param k 3) (nth 0 h []) in
  let part y g b j := at_ [B; G] y [Z.of_nat b; Z.of_nat (g * n_H m + j)] in
  let both g b j := kadd (part gi g b j) (part gh g b j) in
  match n_kind m with
  | Elman => let y := elem B (fun b j => n_act m (both 0 b j)) in ([y], y)
  | Gru =>
      let y := elem B (fun b j =>
        let r := sig (both 0 b j) in
        let z := sig (both 1 b j) in
        let n := tnh (kadd (part gi 2 b j) (kmul r (part gh 2 b j))) in
        kadd (kmul (ksub (at_ [B; n_H m] (nth 0 h []) [Z.of_nat b; Z.of_nat j]) n) z) n) in
      ([y], y)
  | Lstm =>
      let c := elem B (fun b j =>
        kadd (kmul (sig (both 1 b j)) (at_ [B; n_H m] (nth 1 h []) [Z.of_nat b; Z.of_nat j]))
             (kmul (sig (both 0 b j)) (tnh (both 2 b j)))) in
      let y := elem B (fun b j =>
        kmul (sig (both 3 b j)) (tnh (at_ [B; n_H m] c [Z.of_nat b; Z.of_nat j]))) in
      let y := if Nat.eqb (n_proj m) 0 then y
               else linear B (n_H m) (n_proj m) (param k (if n_bias m then 4 else 2)) None y in
      ([y; c], y)
  end.

(** Both directions of a layer: the outputs are joined along the last dimension. *)
Definition join_cols (B : nat) (y z : list K) : list K :=
  tab [B; 2 * n_out] (fun ix => match ix with
    | [b; j] => if Nat.ltb j n_out then at_ [B; n_out] y [Z.of_nat b; Z.of_nat j]
                else at_ [B; n_out] z [Z.of_nat b; Z.of_nat (j - n_out)]
    | _ => k0
    end).
Definition nn_layer (B l : nat) (hs : list (hid (list K))) (xs : list (list K))
  : list (list K) * list (hid (list K)) :=
  if n_bidir m then
    let '(ys, h) := rnn_layer (cell B (2 * l)) (nth 0 hs []) xs in
    let '(zs, h') := rnn_layer (cell B (2 * l + 1)) (nth 1 hs []) (rev xs) in
    (map (fun p => join_cols B (fst p) (snd p)) (combine ys (rev zs)), [h; h'])
  else
    let '(ys, h) := rnn_layer (cell B l) (nth 0 hs []) xs in (ys, [h]).

(** Layers [l], ..., [l + n - 1]; [hs]: the states of all directions of these layers. *)
Fixpoint nn_layers (B l n : nat) (hs : list (hid (list K))) (xs : list (list K))
  : list (list K) * list (hid (list K)) :=
  match n with
  | 0 => (xs, [])
  | S n' =>
      let '(ys, h) := nn_layer B l (firstn dirs hs) xs in
      let '(zs, hs') := nn_layers B (S l) n' (skipn dirs hs) ys in
      (zs, h ++ hs')
  end.

(** torch [RNNBase.check_hidden_size], and the zeros used for [hx=None]: the state is
    [h] of shape (num_layers * num_directions, B, H_out), for LSTM also [c] of shape
    (num_layers * num_directions, B, H). *)
Definition state_shapes (B : nat) : list (list nat) :=
  [n_L m * dirs; B; n_out] :: match n_kind m with Lstm => [[n_L m * dirs; B; n_H m]] | _ => [] end.
Definition shape_eqb (a b : list nat) : bool := if list_eq_dec Nat.eq_dec a b then true else false.
Definition get_hidden (B : nat) (hx : option (list (tens K))) : res (list (hid (list K))) :=
  match hx with
  | None => Ok (repeat (map (fun s => repeat k0 (size (tl s))) (state_shapes B)) (n_L m * dirs))
  | Some ts =>
      if Nat.eqb (length ts) (length (state_shapes B))
         && forallb (fun p => shape_eqb (sh (fst p)) (snd p)) (combine ts (state_shapes B))
      then Ok (map (fun k => map (fun t => dat (select 0 k t)) ts) (seq 0 (n_L m * dirs)))
      else Err RuntimeError
  end.
Definition put_hidden (B : nat) (hs : list (hid (list K))) : list (tens K) :=
  map (fun p => T (snd p) (concat (map (fun h => nth (fst p) h []) hs)))
      (combine (seq 0 2) (state_shapes B)).

(** torch [nn.RNN.forward], [nn.GRU.forward], [nn.LSTM.forward] on a batch: (L, B, C) or,
    if batch_first, (B, L, C).  Simplification: inputs without a batch dimension are
    refused here; torch accepts them. *)
Definition nn_forward (x : tens K) (hx : option (list (tens K))) : res (tens K * list (tens K)) :=
  let flip x := if n_bf m then transpose 0 1 x else x in
  match sh (flip x) with
  | [L; B; c] =>
      if Nat.eqb L 0 then Err RuntimeError
      else if negb (Nat.eqb c (n_in m)) then Err RuntimeError
      else
        hs <- get_hidden B hx ;;
        let '(ys, hs') := nn_layers B 0 (n_L m) hs (slices (flip x)) in
        Ok (flip (T [L; B; dirs * n_out] (concat ys)), put_hidden B hs')
  | _ => Err RuntimeError
  end.

(** ** The continual modules *)

(** rnn.py:196-202 (RNN), 411-417 (GRU), 668-676 (LSTM) [forward]. *)
Definition r_forward (x : tens K) (hx : option (list (tens K))) : res (tens K * list (tens K)) :=
  if Nat.ltb (length (sh x)) 3 then Err IndexError
  else
    '(y, h) <- nn_forward (transpose 1 2 x) hx ;;
    Ok (transpose 1 2 y, h).

(** rnn.py:210-217, 425-432, 684-690 [_forward_step]; the object is the saved state,
    None if the attribute is absent. *)
Definition r_fstep (x : tens K) (prev : option (list (tens K))) : res (tens K * list (tens K)) :=
  '(y, h) <- nn_forward (unsqueeze 1 x) prev ;;
  Ok (squeeze 1 y, h).

(** rnn.py:204-208, 419-423, 678-682 [forward_step]. *)
Definition r_forward_step (o : option (list (tens K))) (x : tens K) (upd : bool)
  : res (tens K * option (list (tens K))) :=
  '(y, h) <- r_fstep x o ;;
  Ok (y, if upd then Some h else o).

(** rnn.py:219-224, 434-439, 692-696 [forward_steps]; pad_end has no effect. *)
Definition r_forward_steps (o : option (list (tens K))) (x : tens K) (pad_end upd : bool)
  : res (tens K * option (list (tens K))) :=
  '(y, h) <- r_forward x o ;;
  Ok (y, if upd then Some h else o).

(** rnn.py:191-194, 406-409 (the first entry of the tuple), 665-666 (the tuple is unpacked
    into two names). *)
Definition r_set_state (s : list (tens K)) : res (option (list (tens K))) :=
  match n_kind m, s with
  | Lstm, [h; c] => Ok (Some [h; c])
  | Lstm, _ => Err ValueError
  | _, h :: _ => Ok (Some [h])
  | _, [] => Err IndexError
  end.

(** rnn.py:183-185, 398-400, 655-659 [clean_state]. *)
Definition r_clean (o : option (list (tens K))) : option (list (tens K)) := None.

End Module.

(** ** Conversion *)

(** [ours.copy_(theirs)]: torch broadcasting of [theirs] to the shape of [ours]. *)
Fixpoint fits_into (theirs ours : list nat) : bool :=   (* last dimension first *)
  match theirs, ours with
  | [], _ => true
  | a :: theirs', b :: ours' => (Nat.eqb a b || Nat.eqb a 1) && fits_into theirs' ours'
  | _ :: _, [] => false
  end.
Definition spread (theirs : list nat) (ix : list nat) : list nat :=
  map (fun p => if Nat.eqb (fst p) 1 then 0 else snd p)
      (combine theirs (skipn (length ix - length theirs) ix)).
Definition copy_ (ours theirs : tens K) : res (tens K) :=
  if fits_into (rev (sh theirs)) (rev (sh ours))
  then Ok (mk (sh ours) (fun ix => get theirs (spread (sh theirs) ix)))
  else Err RuntimeError.

(** The loop over [zip(comodule._flat_weights, module._flat_weights)]. *)
Fixpoint copy_all (ours theirs : list (tens K)) : res (list (tens K)) :=
  match ours, theirs with
  | a :: ours', b :: theirs' => c <- copy_ a b ;; cs <- copy_all ours' theirs' ;; Ok (c :: cs)
  | _, _ => Ok ours
  end.

(** rnn.py:119-153 (RNN), 337-369 (GRU), 591-625 (LSTM): the constructor; [fresh] are the
    randomly initialised weights. *)
Definition co_init (kd : kind) (inp H L : nat) (bias : bool) (proj : nat) (act : K -> K) (fresh : list (tens K)) : trnn :=
  {| n_kind := kd; n_in := inp; n_H := H; n_L := L; n_bias := bias; n_proj := proj;
     n_bidir := false; n_bf := true; n_act := act; n_flat := fresh |}.

(** rnn.py:155-177, 371-392, 627-649 [build_from].  Simplification: no keyword arguments. *)
Definition build_from (m : trnn) (fresh : list (tens K)) : res trnn :=
  let co := co_init (n_kind m) (n_in m) (n_H m) (n_L m) (n_bias m) (n_proj m) (n_act m) in
  ws <- copy_all fresh (n_flat m) ;;
  Ok (co ws).

End TRnn.
Arguments trnn K : clear implicits.
