(** Recurrent networks as in the documentation of torch.nn.RNN, GRU and LSTM
    (rnn.py:16-26, 228-244, 441-466), entry by entry. *)
From Coq Require Import List ZArith Bool Arith.
From Verif Require Import Base Attn TAttn TRnn.
Import ListNotations.

Section TRnnSpec.
Context {K : Type} {NK : Num K}.
Variables sig tnh : K -> K.

(** The weights of one layer (and direction): row [r], column [c]. *)
Record lweights := {
  w_ih : nat -> nat -> K; w_hh : nat -> nat -> K; b_ih : nat -> K; b_hh : nat -> K; w_hr : nat -> nat -> K
}.

Variable m : trnn K.
Variable W : nat -> lweights.
Notation H := (n_H m).

(** Number of gates, size of the output of a layer and of its input. *)
Definition G : nat := match n_kind m with Elman => 1 | Gru => 3 | Lstm => 4 end.
Definition out_size : nat := match n_proj m with 0 => H | p => p end.
Definition ndir : nat := if n_bidir m then 2 else 1.
Definition in_size (l : nat) : nat := match l with 0 => n_in m | _ => ndir * out_size end.

(** [_flat_weights] lists the weights [W]: weight_ih (G*H, in), weight_hh (G*H, out),
    the biases (G*H) if there are any, and weight_hr (proj, H) if there is a projection. *)
Definition mat (r c : nat) (f : nat -> nat -> K) : tens K :=
  mk [r; c] (fun ix => match ix with [i; j] => f i j | _ => k0 end).
Definition col (r : nat) (f : nat -> K) : tens K :=
  mk [r] (fun ix => match ix with [i] => f i | _ => k0 end).
Definition tensors_of (k : nat) : list (tens K) :=
  [mat (G * H) (in_size (k / ndir)) (w_ih (W k)); mat (G * H) out_size (w_hh (W k))]
  ++ (if n_bias m then [col (G * H) (b_ih (W k)); col (G * H) (b_hh (W k))] else [])
  ++ match n_proj m with 0 => [] | p => [mat p H (w_hr (W k))] end.
Definition has_weights : Prop := n_flat m = flat_map tensors_of (seq 0 (n_L m * ndir)).

(** Only LSTMs have projections. *)
Definition proj_ok : Prop := match n_kind m with Lstm => True | _ => n_proj m = 0 end.

(** Vectors of one batch element, and affine maps. *)
Definition vec : Type := nat -> K.
Definition bias (b : nat -> K) (r : nat) : K := if n_bias m then b r else k0.
Definition affine (n : nat) (w : nat -> nat -> K) (b : nat -> K) (v : vec) (r : nat) : K :=
  kadd (bias b r) (ksum (map (fun i => kmul (v i) (w r i)) (seq 0 n))).

(** One step of layer [l]: the new (h, c) from the input and the old (h, c); [c] is used by
    LSTM only. *)
Definition ih (k l : nat) (x : vec) (g j : nat) : K := affine (in_size l) (w_ih (W k)) (b_ih (W k)) x (g * H + j).
Definition hh (k : nat) (h : vec) (g j : nat) : K := affine out_size (w_hh (W k)) (b_hh (W k)) h (g * H + j).
Definition lstm_c (k l : nat) (x h c : vec) (j : nat) : K :=
  let i := sig (kadd (ih k l x 0 j) (hh k h 0 j)) in
  let f := sig (kadd (ih k l x 1 j) (hh k h 1 j)) in
  let g := tnh (kadd (ih k l x 2 j) (hh k h 2 j)) in
  kadd (kmul f (c j)) (kmul i g).
Definition lstm_h (k l : nat) (x h c : vec) (j : nat) : K :=
  kmul (sig (kadd (ih k l x 3 j) (hh k h 3 j))) (tnh (lstm_c k l x h c j)).
Definition step (k l : nat) (x : vec) (s : vec * vec) : vec * vec :=
  let '(h, c) := s in
  match n_kind m with
  | Elman => (fun j => n_act m (kadd (ih k l x 0 j) (hh k h 0 j)), c)
  | Gru => (fun j =>
      let r := sig (kadd (ih k l x 0 j) (hh k h 0 j)) in
      let z := sig (kadd (ih k l x 1 j) (hh k h 1 j)) in
      let n := tnh (kadd (ih k l x 2 j) (kmul r (hh k h 2 j))) in
      kadd (kmul (ksub k1 z) n) (kmul z (h j)), c)
  | Lstm => (match n_proj m with
             | 0 => lstm_h k l x h c
             | _ => fun p => ksum (map (fun j => kmul (lstm_h k l x h c j) (w_hr (W k) p j)) (seq 0 H))
             end, lstm_c k l x h c)
  end.

(** State after [t] inputs; the input of layer [l] of a module with one direction at time
    [t]; its output is the input of layer num_layers. *)
Fixpoint after (k l : nat) (x : nat -> vec) (s : vec * vec) (t : nat) : vec * vec :=
  match t with 0 => s | S t' => step k l (x t') (after k l x s t') end.
Fixpoint input_of (l : nat) (x : nat -> vec) (s : nat -> vec * vec) : nat -> vec :=
  match l with
  | 0 => x
  | S l' => fun t => fst (after l' l' (input_of l' x s) (s l') (S t))
  end.
Definition out_at (x : nat -> vec) (s : nat -> vec * vec) (t : nat) : vec := input_of (n_L m) x s t.
Definition state_at (l : nat) (x : nat -> vec) (s : nat -> vec * vec) (t : nat) : vec * vec :=
  after l l (input_of l x s) (s l) t.

(** A saved state: None (all zeros), (h,) or (h, c), for [B] batch elements; and what it
    says about layer [l] of batch element [b]. *)
Definition shaped (s : list nat) (x : tens K) : Prop := sh x = s /\ length (dat x) = fold_right Nat.mul 1 s.
Definition state_ok (B : nat) (o : option (list (tens K))) : Prop :=
  match o, n_kind m with
  | None, _ => True
  | Some [h; c], Lstm => shaped [n_L m * ndir; B; out_size] h /\ shaped [n_L m * ndir; B; H] c
  | Some [h], Elman | Some [h], Gru => shaped [n_L m * ndir; B; out_size] h
  | _, _ => False
  end.
Definition hidden (o : option (list (tens K))) (b l : nat) : vec * vec :=
  match o with
  | Some (h :: r) => (fun j => get h [l; b; j],
                      fun j => match r with c :: _ => get c [l; b; j] | [] => k0 end)
  | _ => (fun _ => k0, fun _ => k0)
  end.

(** Two states agree for all batch elements below [B]. *)
Definition says (B : nat) (o : option (list (tens K))) (s : nat -> nat -> vec * vec) : Prop :=
  forall b l j, b < B -> l < n_L m ->
    (j < out_size -> fst (hidden o b l) j = fst (s b l) j) /\
    (n_kind m = Lstm -> j < H -> snd (hidden o b l) j = snd (s b l) j).

(** Index of entry [e] at time [t] of batch element [b] of a clip for torch.nn. *)
Definition nn_idx (b t e : nat) : list nat := if n_bf m then [b; t; e] else [t; b; e].
Definition same_clip (B T c : nat) (xn x : tens K) : Prop :=
  shaped (nn_idx B T c) xn /\ shaped [B; c; T] x /\
  forall b t e, b < B -> t < T -> e < c -> get xn (nn_idx b t e) = get x [b; e; t].

(** Calls, the frames they bring, and their answers after the frames [past]. A frame is
    given by its entries (batch element, channel). *)
Definition frame : Type := nat -> nat -> K.
Inductive rcall := Step (x : tens K) (upd : bool) | Steps (x : tens K) (pad_end upd : bool).
Definition call_ok (B : nat) (c : rcall) : Prop :=
  match c with
  | Step x _ => shaped [B; n_in m] x
  | Steps x _ _ => exists t, 0 < t /\ shaped [B; n_in m; t] x
  end.
Definition frames_of (c : rcall) : list frame :=
  match c with
  | Step x _ => [fun b i => get x [b; i]]
  | Steps x _ _ => map (fun t b i => get x [b; i; t]) (seq 0 (nth 2 (sh x) 0))
  end.
Definition updates (c : rcall) : bool := match c with Step _ u => u | Steps _ _ u => u end.
Definition stream (fs : list frame) (b t : nat) : vec := fun i => nth t fs (fun _ _ => k0) b i.
Definition answer (B : nat) (s : nat -> nat -> vec * vec) (past : list frame) (c : rcall) (y : tens K) : Prop :=
  let fs := past ++ frames_of c in
  match c with
  | Step _ _ => shaped [B; out_size] y /\
      forall b j, b < B -> j < out_size -> get y [b; j] = out_at (stream fs b) (s b) (length past) j
  | Steps x _ _ => shaped [B; out_size; nth 2 (sh x) 0] y /\
      forall b j t, b < B -> j < out_size -> t < nth 2 (sh x) 0 ->
        get y [b; j; t] = out_at (stream fs b) (s b) (length past + t) j
  end.
Fixpoint answers (B : nat) (s : nat -> nat -> vec * vec) (past : list frame) (cs : list rcall) (ys : list (tens K)) : Prop :=
  match cs, ys with
  | [], [] => True
  | c :: cs', y :: ys' =>
      answer B s past c y /\
      answers B s (if updates c then past ++ frames_of c else past) cs' ys'
  | _, _ => False
  end.
Definition taken (cs : list rcall) : list frame := flat_map frames_of (filter updates cs).

(** Running the calls on the module. *)
Fixpoint r_run (o : option (list (tens K))) (cs : list rcall) : res (list (tens K) * option (list (tens K))) :=
  match cs with
  | [] => Ok ([], o)
  | c :: cs' =>
      '(y, o) <- match c with
                 | Step x u => r_forward_step sig tnh m o x u
                 | Steps x pe u => r_forward_steps sig tnh m o x pe u
                 end ;;
      '(ys, o) <- r_run o cs' ;;
      Ok (y :: ys, o)
  end.

End TRnnSpec.
Arguments lweights K : clear implicits.
