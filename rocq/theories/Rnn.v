(** Recurrent modules (continual/rnn.py). *)
From Coq Require Import List ZArith Bool Arith.
From Verif Require Import Base Frames CoMod.
Import ListNotations.

Section Rnn.
Context {F : Type}.

(** Hidden state of one layer: [h] for RNN/GRU, [h; c] for LSTM. *)
Definition hid := list F.

(** One layer of torch.nn.RNN/GRU/LSTM: next hidden state and output from the
    previous hidden state and the input frame.  The cell equations are arbitrary.
    [r_h0] is the all-zeros initial hidden state torch uses for [hx=None].
    Simplification: inter-layer dropout (training only) and packed sequences are
    not modelled. *)
Record rnn_cfg := {
  r_cells : list (hid -> F -> hid * F);
  r_h0 : hid
}.

(** torch.nn.RNNBase.forward, one layer over the whole clip. *)
Fixpoint rnn_layer (cell : hid -> F -> hid * F) (h : hid) (xs : list F)
  : list F * hid :=
  match xs with
  | [] => ([], h)
  | x :: t => let '(h1, y) := cell h x in
              let '(ys, h2) := rnn_layer cell h1 t in (y :: ys, h2)
  end.

(** torch.nn.RNNBase.forward: layers one after the other over the whole clip. *)
Fixpoint rnn_layers (cells : list (hid -> F -> hid * F)) (hs : list hid) (xs : list F)
  : list F * list hid :=
  match cells, hs with
  | c :: ct, h :: ht =>
      let '(ys, h1) := rnn_layer c h xs in
      let '(zs, hs1) := rnn_layers ct ht ys in (zs, h1 :: hs1)
  | _, _ => (xs, [])
  end.

(** torch raises for sequences of length 0 and for a hidden state of the wrong
    size. *)
Definition torch_rnn (c : rnn_cfg) (xs : list F) (hx : option (list hid))
  : res (list F * list hid) :=
  let hs := match hx with Some h => h | None => repeat (r_h0 c) (length (r_cells c)) end in
  match xs with
  | [] => Err RuntimeError
  | _ => if Nat.eqb (length hs) (length (r_cells c))
         then Ok (rnn_layers (r_cells c) hs xs) else Err RuntimeError
  end.

(** rnn.py:196-202 (RNN), 411-417 (GRU), 668-676 (LSTM): [forward] ignores the
    saved hidden state. Containers keep only the output, container.py:58-61. *)
Definition rnn_forward (c : rnn_cfg) (xs : list F) : res (list F) :=
  '(ys, _) <- torch_rnn c xs None ;; Ok ys.

(** rnn.py:210-217, 425-432, 684-690 [_forward_step]. *)
Definition rnn_fstep (c : rnn_cfg) (x : F) (prev : option (list hid))
  : res (option F * option (list hid)) :=
  '(ys, h) <- torch_rnn c [x] prev ;;
  y <- getz ys 0 ;;
  Ok (Some y, Some h).

(** rnn.py:204-208, 419-423, 678-682 [forward_step]. The object is the hidden
    state attribute, [None] if absent (rnn.py:183-194). *)
Definition rnn_forward_step (c : rnn_cfg) (o : option (list hid)) (x : F) (upd : bool)
  : res (option F * option (list hid)) :=
  '(y, h) <- rnn_fstep c x o ;;
  Ok (y, if upd then h else o).

(** rnn.py:219-224, 434-439, 692-696 [forward_steps]; pad_end has no effect. *)
Definition rnn_forward_steps (c : rnn_cfg) (o : option (list hid)) (xs : list F) (pe upd : bool)
  : res (option (list F) * option (list hid)) :=
  '(ys, h) <- torch_rnn c xs o ;;
  Ok (Some ys, if upd then Some h else o).

(** rnn.py:183-185, 398-400, 655-659 [clean_state]. *)
Definition rnn_clean (o : option (list hid)) : option (list hid) := None.

End Rnn.
Arguments rnn_cfg F : clear implicits.
Arguments hid F : clear implicits.
