(** Specification vocabulary for the stateless modules, the recurrent modules and
    the positional encoding. *)
From Coq Require Import List ZArith Bool Arith.
From Verif Require Import Base Frames Net Rnn Point.
Import ListNotations.

Section PointSpec.
Context {F : Type}.

(** One step per frame, results stacked along time. *)
Definition stepwise (step : val F -> res (val F)) (xs : list F) : res (val F) :=
  ys <- mapM (fun x => v <- step (VT x) ;; match v with VT y => Ok y | _ => Err TypeError end) xs ;;
  Ok (VS ys).

(** forward, forward_steps (any flags) and forward_step (any flag) agree on every
    non-empty clip, exceptions included up to their type. *)
Definition coherent (fwd : val F -> res (val F)) (steps : val F -> bool -> bool -> res (val F))
    (step : val F -> bool -> res (val F)) : Prop :=
  forall xs pe upd, xs <> [] ->
    fwd (VS xs) = steps (VS xs) pe upd /\
    forall ys, steps (VS xs) pe upd = Ok ys <-> stepwise (fun v => step v upd) xs = Ok ys.

(** A function on clips. *)
Definition clip_fun (f : val F -> res (val F)) : Prop :=
  forall xs, xs <> [] -> exists ys, f (VS xs) = Ok (VS ys).
(** It commutes with cutting a clip in two and keeps single frames single. *)
Definition splits (f : val F -> res (val F)) : Prop :=
  (forall a b ya yb, a <> [] -> b <> [] -> f (VS a) = Ok (VS ya) -> f (VS b) = Ok (VS yb) ->
     f (VS (a ++ b)) = Ok (VS (ya ++ yb))) /\
  (forall x, exists y, f (VS [x]) = Ok (VS [y])).

(** Column [t] of a matrix. *)
Definition column {R} (r0 : R) (t : nat) (x : list (list R)) : list R := map (fun r => nth t r r0) x.

End PointSpec.

(** Pieces of a stream given to a module with object type [Ob] whose forward_step
    and forward_steps always return something. *)
Section Pieces.
Context {F Ob : Type}.
Variable step : Ob -> F -> res (F * Ob).
Variable steps : Ob -> list F -> res (list F * Ob).

Inductive piece := One (x : F) | Many (xs : list F).
Definition content (p : piece) : list F := match p with One x => [x] | Many xs => xs end.

Fixpoint run_pieces (o : Ob) (ps : list piece) : res (list F * Ob) :=
  match ps with
  | [] => Ok ([], o)
  | One x :: t => '(y, o1) <- step o x ;; '(ys, o2) <- run_pieces o1 t ;; Ok (y :: ys, o2)
  | Many xs :: t => '(y, o1) <- steps o xs ;; '(ys, o2) <- run_pieces o1 t ;; Ok (y ++ ys, o2)
  end.
End Pieces.

Section RnnPieces.
Context {F : Type}.
(** forward_step and forward_steps of a recurrent module, updating the state. *)
Definition rnn_one (c : rnn_cfg F) (o : option (list (hid F))) (x : F) : res (F * option (list (hid F))) :=
  '(y, o') <- rnn_forward_step c o x true ;;
  match y with Some z => Ok (z, o') | None => Err TypeError end.
Definition rnn_many (c : rnn_cfg F) (o : option (list (hid F))) (xs : list F) : res (list F * option (list (hid F))) :=
  '(y, o') <- rnn_forward_steps c o xs false true ;;
  match y with Some z => Ok (z, o') | None => Err TypeError end.
End RnnPieces.

Section RpePieces.
Context {F : Type} {FA : Frames F}.
(** Index in range. *)
Definition rpe_in (c : rpe F) (idx : Z) : Prop := (0 <= idx < Z.of_nat (p_N c))%Z.
(** Frame [n] plus embedding number [idx + n] modulo N. *)
Definition encoded (c : rpe F) (idx : Z) (xs : list F) : list F :=
  map (fun n => fadd (nth n xs f0) (p_E c (Z.to_nat ((idx + Z.of_nat n) mod Z.of_nat (p_N c))))) (seq 0 (length xs)).
Definition rpe_one (c : rpe F) (idx : Z) (x : F) := rpe_forward_step c idx x true.
Definition rpe_many (c : rpe F) (idx : Z) (xs : list F) := rpe_forward_steps c idx xs false true.
End RpePieces.
