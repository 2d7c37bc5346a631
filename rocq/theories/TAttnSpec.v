(** Multi-head attention as in the literature, entry by entry, and the layouts. *)
From Coq Require Import List ZArith Bool Arith.
From Verif Require Import Base Attn AttnSpec TAttn.
Import ListNotations.

Section TAttnSpec.
Context {K : Type} {NK : Num K}.
Variable m : tattn K.
Notation E := (t_H m * t_D m). Notation D := (t_D m).

(** Bias [o] of a projection. *)
Definition bias_of (b : option (list K)) (o : nat) : K := match b with Some v => nth o v k0 | None => k0 end.

(** Head [h] of the query (i = 0), key (1) or value (2) projection of a token. *)
Definition head_of (i h : nat) (x : list K) : list K :=
  map (fun d => kadd (bias_of (t_bin m) (i * E + (h * D + d)))
                  (ksum (map (fun j => kmul (nth j x k0) (nth ((i * E + (h * D + d)) * E + j) (t_win m) k0)) (seq 0 E))))
      (seq 0 D).

(** Entry [e] of the output for query token [q] over key and value tokens: column [j]
    of the joined heads is entry [j mod D] of head [j / D]. *)
Definition mha_entry (q : list K) (ks vs : list (list K)) (e : nat) : K :=
  kadd (bias_of (t_bout m) e)
    (ksum (map (fun j =>
       kmul (weighted_mean D (map (t_scale m) (head_of 0 (j / D) q)) (map (head_of 1 (j / D)) ks) (map (head_of 2 (j / D)) vs) (j mod D))
            (nth (e * E + j) (t_wout m) k0)) (seq 0 E))).

(** Index of entry [e] of the token at time [t] of batch element [b], and the shape of
    a clip: (L, N, E), (N, L, E) if batch_first, (N, E, L) if also embed_dim_second.
    With embed_dim_second alone it is (L, E, N). *)
Definition idx (b t e : nat) : list nat :=
  if t_bf m then if t_eds m then [b; e; t] else [b; t; e]
  else if t_eds m then [t; e; b] else [t; b; e].
Definition clip_shape (B L : nat) (x : tens K) : Prop := sh x = idx B L E.
Definition frame_shape (B : nat) (x : tens K) : Prop := sh x = [B; E].

(** The token at time [t] of batch element [b] of a clip, of a step. *)
Definition token (x : tens K) (b t : nat) : list K := map (fun e => get x (idx b t e)) (seq 0 E).
Definition row (x : tens K) (b : nat) : list K := map (fun e => get x [b; e]) (seq 0 E).

(** Position of the selected query in the window that ends at time [n]. *)
Definition qpos (query_index : Z) (n : nat) : nat :=
  if Z.leb 0 query_index then n + 1 - t_N m + Z.to_nat query_index
  else n + 1 - Z.to_nat (- query_index).

(** A step of three tensors, and feeding a stream. *)
Definition step3 : Type := tens K * tens K * tens K.
Definition frames_ok (B : nat) (ts : list step3) : Prop :=
  Forall (fun t => let '(q, k, v) := t in frame_shape B q /\ frame_shape B k /\ frame_shape B v) ts.
Fixpoint t_run {S} (f : option S -> tens K -> tens K -> tens K -> bool -> cells -> res (option (tens K) * option S * cells))
  (o : option S) (ts : list step3) (h : cells) : res (list (option (tens K)) * option S * cells) :=
  match ts with
  | [] => Ok ([], o, h)
  | (q, k, v) :: ts =>
      '(out, o, h) <- f o q k v true h ;;
      '(outs, o, h) <- t_run f o ts h ;;
      Ok (out :: outs, o, h)
  end.
Definition q_at (ts : list step3) (b n : nat) : list K := nth n (map (fun t => row (fst (fst t)) b) ts) [].
Definition k_at (ts : list step3) (b n : nat) : list K := nth n (map (fun t => row (snd (fst t)) b) ts) [].
Definition v_at (ts : list step3) (b n : nat) : list K := nth n (map (fun t => row (snd t) b) ts) [].

(** Tokens of a stream: the steps [ts] fed before, then a clip. *)
Definition then_clip (at_time : list step3 -> nat -> nat -> list K) (ts : list step3) (x : tens K) (b n : nat) : list K :=
  if Nat.ltb n (length ts) then at_time ts b n else token x b (n - length ts).

(** The times of the window that ends at [n]. *)
Definition times (n : nat) : list nat := seq (n + 1 - t_N m) (t_N m).

(** Index of the output of forward_steps of the retroactive module: entry [e] of row [i]
    of the output for the window number [j], batch element [b]. *)
Definition ridx (b j i e : nat) : list nat :=
  if t_bf m then if t_eds m then [b; e; j; i] else [b; j; i; e]
  else if t_eds m then [j; e; i; b] else [j; i; b; e].

(** Time of the first output of a clip fed after [P] steps; the output of a clip of
    length [L]: None while no window is complete, else one entry per time. *)
Definition first_time (P : nat) : nat := Nat.max P (t_N m - 1).
Definition clip_result (P L : nat) (y : option (tens K)) (good : nat -> tens K -> Prop) : Prop :=
  if Nat.ltb (P + L) (t_N m) then y = None
  else exists t, y = Some t /\ good (P + L - first_time P) t.

(** A clip leaves the memory that its tokens leave when they are fed one by one. *)
Definition left_as_steps {S} (f : option S -> tens K -> tens K -> tens K -> bool -> cells -> res (option (tens K) * option S * cells))
    (B L : nat) (q k v : tens K) (o : option S) (h : cells) (o2 : option S) (h2 : cells) : Prop :=
  exists fs outs, frames_ok B fs /\ length fs = L
    /\ (forall b t, b < B -> t < L -> q_at fs b t = token q b t /\ k_at fs b t = token k b t /\ v_at fs b t = token v b t)
    /\ t_run f o fs h = Ok (outs, o2, h2).

(** A clip that holds the window ending at time [n]. *)
Definition is_window (B n : nat) (at_time : nat -> nat -> list K) (x : tens K) : Prop :=
  clip_shape B (t_N m) x
  /\ forall b i, b < B -> i < t_N m -> token x b i = at_time b (n + 1 - t_N m + i).

End TAttnSpec.
Arguments step3 K : clear implicits.
