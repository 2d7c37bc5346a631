(** What the claims on the construction of containers say. *)
From Coq Require Import String Ascii List ZArith Bool Arith.
From Verif Require Import Base Frames CoMod Leaf Rnn Net Calls Build.
Import ListNotations.

(** No numeral is the name of an attribute. *)
Definition numerals_free (reserved : string -> bool) : Prop := forall n, reserved (str n) = false.

(** Names that a container accepts. *)
Definition good_name (reserved : string -> bool) (k : string) : Prop :=
  k <> ""%string /\ reserved k = false /\ forall a b, k <> (a ++ "." ++ b)%string.

Section Spec.
Context {F : Type} {FA : Frames F}.

(** Position [i] holds a Broadcast without a number of streams, and a Parallel follows. *)
Definition needs_streams (ms : list (md F)) (i : nat) : Prop :=
  exists n ps, nth_error ms i = Some (MBroadcast n) /\ (n = None \/ n = Some 0) /\ nth_error ms (S i) = Some (MPar ps).

(** Two networks used one after the other: the second is called with what the first
    returns, unless a step of the first returns None. *)
Definition one_after_other (p : md F * md F) (c : call F) : res (val F * (md F * md F)) :=
  let (a, b) := p in
  match c with
  | CStep v upd =>
      '(w, a') <- step a v upd ;;
      match w with
      | VNone => Ok (VNone, (a', b))
      | _ => '(z, b') <- step b w upd ;; Ok (z, (a', b'))
      end
  | CSteps v pe upd => '(w, a') <- steps a v pe upd ;; '(z, b') <- steps b w pe upd ;; Ok (z, (a', b'))
  | CForward v => w <- fwd a v ;; z <- fwd b w ;; Ok (z, (a, b))
  | CClean => Ok (VNone, (clean a, clean b))
  end.

Fixpoint run_pair (p : md F * md F) (cs : list (call F)) : res (list (val F) * (md F * md F)) :=
  match cs with
  | [] => Ok ([], p)
  | c :: t => '(w, p1) <- one_after_other p c ;; '(ws, p2) <- run_pair p1 t ;; Ok (w :: ws, p2)
  end.

End Spec.
