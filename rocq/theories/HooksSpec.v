(** What hooks may be expected to do. *)
From Coq Require Import List ZArith Bool Arith.
From Verif Require Import Base Frames CoMod Leaf Rnn Net Hooks.
Import ListNotations.

Section HooksSpec.
Context {F : Type} {FA : Frames F}.

(** The network without its hooks. *)
Fixpoint erase (m : hmd F) : md F :=
  match m with
  | HLeaf _ _ lf => lf
  | HSeq _ ms => MSeq (map erase ms)
  | HPar _ ms => MPar (map erase ms)
  | HBR _ ms r => MBR (map erase ms) r
  | HCond _ p D R a b => MCond p D R (erase a) (match b with Some c => Some (erase c) | None => None end)
  end.
(** A method of a network without hooks. *)
Definition plain (me : mode) (m : md F) (v : val F) : res (val F * md F) :=
  match me with
  | Fwd => w <- fwd m v ;; Ok (w, m)
  | Steps pe upd => steps m v pe upd
  | Step upd => step m v upd
  end.

(** Hooks that only look. *)
Definition observing (h : hooks F) : Prop :=
  (forall f, In f (h_pre h) -> forall v, f v = Ok None) /\ (forall f, In f (h_post h) -> forall v r, f v r = Ok None).

(** Leaves are modules without children. *)
Definition leafy (m : md F) : bool :=
  match m with MSeq _ | MPar _ | MBR _ _ | MCond _ _ _ _ _ => false | _ => true end.
Fixpoint wf (m : hmd F) : bool :=
  match m with
  | HLeaf _ _ lf => leafy lf
  | HSeq _ ms | HPar _ ms | HBR _ ms _ => forallb wf ms
  | HCond _ _ _ _ a b => wf a && match b with Some c => wf c | None => true end
  end.

(** The numbers of the modules of a network. *)
Fixpoint ids (m : hmd F) : list nat :=
  match m with
  | HLeaf i _ _ => [i]
  | HSeq i ms | HPar i ms | HBR i ms _ => i :: flat_map ids ms
  | HCond i _ _ _ a b => i :: ids a ++ match b with Some c => ids c | None => [] end
  end.
Fixpoint converted (m : hmd F) : list nat :=
  match m with
  | HLeaf i fs _ => if fs then [i] else []
  | HSeq _ ms | HPar _ ms | HBR _ ms _ => flat_map converted ms
  | HCond _ _ _ _ a b => converted a ++ match b with Some c => converted c | None => [] end
  end.
(** The recurrent modules, and networks without a Conditional. *)
Fixpoint rnns (m : hmd F) : list nat :=
  match m with
  | HLeaf i _ lf => match lf with MRnn _ _ => [i] | _ => [] end
  | HSeq _ ms | HPar _ ms | HBR _ ms _ => flat_map rnns ms
  | HCond _ _ _ _ a b => rnns a ++ match b with Some c => rnns c | None => [] end
  end.
Fixpoint no_cond (m : hmd F) : bool :=
  match m with
  | HLeaf _ _ _ => true
  | HSeq _ ms | HPar _ ms | HBR _ ms _ => forallb no_cond ms
  | HCond _ _ _ _ _ _ => false
  end.
(** The calls recorded for one module: (false, n) for pre-hook n, (true, n) for hook n. *)
Definition key (i : nat) (e : event F) : list (bool * nat) :=
  match e with
  | EPre j n _ => if Nat.eqb i j then [(false, n)] else []
  | EPost j n _ _ => if Nat.eqb i j then [(true, n)] else []
  end.
Definition seen (i : nat) (l : list (event F)) : list (bool * nat) := flat_map (key i) l.
Definition pres (h : hooks F) : list (bool * nat) := map (fun n => (false, n)) (seq 0 (length (h_pre h))).
Definition posts (h : hooks F) : list (bool * nat) := map (fun n => (true, n)) (seq 0 (length (h_post h))).

(** All hooks of a module once around one run of its method, or twice around it. *)
Definition one (h : hooks F) : list (bool * nat) := pres h ++ posts h.
Definition two (h : hooks F) : list (bool * nat) := pres h ++ one h ++ posts h.

(** Hooks that apply a function to every frame of a tensor; a hook after a step that gave
    nothing leaves it alone. *)
Definition on_frames (g : F -> F) (v : val F) : res (option (val F)) :=
  match v with VT x => Ok (Some (VT (g x))) | VS xs => Ok (Some (VS (map g xs))) | _ => Err TypeError end.
Definition on_result (g : F -> F) (_ r : val F) : res (option (val F)) :=
  match r with VNone => Ok None | _ => on_frames g r end.
Definition frame_hooks (ps qs : list (F -> F)) : hooks F := {| h_pre := map on_frames ps; h_post := map on_result qs |}.

(** Networks of single-input single-output modules in which neither converted torch modules
    nor recurrent modules have hooks. *)
Fixpoint hookable (hk : nat -> hooks F) (m : hmd F) : Prop :=
  match m with
  | HLeaf i fs lf =>
      match lf with
      | MDelay _ _ _ _ | MSkip _ _ | MConv _ _ | MPool _ _ | MMap _ => True
      | MRnn _ _ => hk i = {| h_pre := []; h_post := [] |}
      | _ => False
      end /\ (fs = true -> hk i = {| h_pre := []; h_post := [] |})
  | HSeq _ ms | HBR _ ms _ => fold_right (fun m Q => hookable hk m /\ Q) True ms
  | _ => False
  end.
(** The network with its hooks as modules: the pre-hooks before and the hooks after the
    module. *)
Section Plug.
Variables ps qs : nat -> list (F -> F).
Definition around (i : nat) (m : md F) : md F := MSeq (map MMap (ps i) ++ [m] ++ map MMap (qs i)).
Fixpoint plug (m : hmd F) : md F :=
  match m with
  | HLeaf i _ lf => around i lf
  | HSeq i ms => around i (MSeq (map plug ms))
  | HPar i ms => around i (MPar (map plug ms))
  | HBR i ms r => around i (MBR (map plug ms) r)
  | HCond i p D R a b => around i (MCond p D R (plug a) (match b with Some c => Some (plug c) | None => None end))
  end.
End Plug.

(** Histories of calls of a network with hooks, and of one without. *)
Fixpoint hooked_calls (hk : nat -> hooks F) (m : hmd F) (cs : list (mode * val F)) : res (list (val F) * hmd F) :=
  match cs with
  | [] => Ok ([], m)
  | (me, v) :: t => '(w, m1) <- snd (hcall hk me m v) ;; '(ws, m2) <- hooked_calls hk m1 t ;; Ok (w :: ws, m2)
  end.
Fixpoint plain_calls (m : md F) (cs : list (mode * val F)) : res (list (val F) * md F) :=
  match cs with
  | [] => Ok ([], m)
  | (me, v) :: t => '(w, m1) <- plain me m v ;; '(ws, m2) <- plain_calls m1 t ;; Ok (w :: ws, m2)
  end.
(** The argument is a tensor of the rank that the method expects. *)
Definition fits (c : mode * val F) : bool :=
  match c with
  | (Step _, VT _) | (Steps _ _, VS _) | (Fwd, VS _) => true
  | _ => false
  end.
(** [m(x)] with one frame in forward_step mode, and with a clip in forward mode. *)
Definition hstep (hk : nat -> hooks F) (m : hmd F) (x : F) : res (option F * hmd F) :=
  '(v, m') <- snd (hcall hk (Step true) m (VT x)) ;;
  match v with VT y => Ok (Some y, m') | VNone => Ok (None, m') | _ => Err TypeError end.
Definition hfwd (hk : nat -> hooks F) (m : hmd F) (xs : list F) : res (list F) :=
  '(v, _) <- snd (hcall hk Fwd m (VS xs)) ;;
  match v with VS ys => Ok ys | _ => Err TypeError end.

End HooksSpec.
