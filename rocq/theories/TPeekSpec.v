(** Specification vocabulary for update_state=False on networks of tensor modules: what can
    be observed of a state, and histories with such calls in them. *)
From Coq Require Import List ZArith Bool Arith.
From Verif Require Import Base CoMod Attn AttnSpec CallMode Tensor TAttn TEnc.
Import ListNotations.

Section TPeekSpec.
Context {K : Type} {NK : Num K}.

(** Two states of [m] between which no later call can tell: the same buffers in the delays,
    the same position, and the same memories and counter values in the attention modules
    (whose counters may be different tensors).  In particular [same m s s] says that the
    counters of [s] exist and that positions are positions of the encoding; the states that
    calls leave behind are such. *)
Definition same_att {p : sdpa K} (a b : option (mstate p) * cells) : Prop :=
  observe (fst a) (snd a) = observe (fst b) (snd b) /\ stored (fst a) (snd a) /\ stored (fst b) (snd b).
Fixpoint same (m : tmod K) (s t : tstate K) {struct m} : Prop :=
  match m with
  | MSeq l | MBR _ l | MNN l =>
      (fix go (l : list (tmod K)) (ss ts : list (tstate K)) : Prop :=
         match l with
         | [] => True
         | m :: l => same m (hd SNone ss) (hd SNone ts) /\ go l (tl ss) (tl ts)
         end) l (kids s) (kids t)
  | MNaive m => same m s t
  | MLam _ _ fn => same fn s t
  | MPos P _ _ _ => pos_of s = pos_of t /\ pos_of s mod P = pos_of s
  | MDel _ _ | MUni _ => obj_of s = obj_of t
  | MSO a qi _ => same_att (p := ts_sdpa a qi) (so_of s) (so_of t)
  | MRE a => same_att (p := tr_sdpa a) (re_of s) (re_of t)
  | _ => True
  end.

(** [update_state] is not passed on to what a [Lambda], an nn.Sequential or a NaiveResidual
    calls.  Run by method [me], [m] keeps no memory. *)
Fixpoint memoryless (ctx : option meth) (me : meth) (m : tmod K) {struct m} : bool :=
  match m with
  | MSeq l | MBR _ l => forallb (memoryless ctx me) l
  | MNN l => forallb (fun m => memoryless ctx (mode_of ctx m) m) l
  | MNaive m => memoryless ctx (mode_of ctx m) m
  | MLam _ _ fn => memoryless ctx (mode_of ctx fn) fn
  | MPos _ _ _ _ => false
  | MDel _ d => match me with Forward => true | _ => Nat.eqb d 0 end
  | MUni _ | MSO _ _ _ | MRE _ => match me with Forward => true | _ => false end
  | _ => true
  end.
(** What is called without [update_state] keeps no memory. *)
Fixpoint still (ctx : option meth) (m : tmod K) {struct m} : bool :=
  match m with
  | MSeq l | MBR _ l => forallb (still ctx) l
  | MNN _ | MNaive _ | MLam _ _ _ => memoryless ctx Forward m
  | _ => true
  end.
(** Every attention module that gets [update_state] has a state. *)
Fixpoint awake (m : tmod K) (s : tstate K) {struct m} : Prop :=
  match m with
  | MSeq l | MBR _ l =>
      (fix go (l : list (tmod K)) (ss : list (tstate K)) : Prop :=
         match l with
         | [] => True
         | m :: l => awake m (hd SNone ss) /\ go l (tl ss)
         end) l (kids s)
  | MSO _ _ _ => fst (so_of s) <> None
  | MRE _ => fst (re_of s) <> None
  | _ => True
  end.

(** A call with its [update_state]; [forward] has no such argument. *)
Definition ucall (m : tmod K) (s : tstate K) (c : tcall K) (upd : bool) : res (option (tens K) * tstate K) :=
  match c with
  | CFrame ctx x => exec ctx Step m s x false upd
  | CClip ctx x => exec ctx Steps m s x false upd
  | CForward ctx x => exec ctx Forward m s x false true
  end.
Fixpoint ucalls (m : tmod K) (s : tstate K) (l : list (tcall K * bool)) : res (list (option (tens K)) * tstate K) :=
  match l with
  | [] => Ok ([], s)
  | (c, upd) :: l => '(y, s) <- ucall m s c upd ;; '(ys, s) <- ucalls m s l ;; Ok (y :: ys, s)
  end.
Definition is_forward (c : tcall K) : bool := match c with CForward _ _ => true | _ => false end.
(** The calls that are not peeks, and their results. *)
Definition kept (c : tcall K * bool) : bool := snd c || is_forward (fst c).
Fixpoint kept_results {A} (l : list (tcall K * bool)) (outs : list A) : list A :=
  match l, outs with
  | c :: l, o :: outs => if kept c then o :: kept_results l outs else kept_results l outs
  | _, _ => []
  end.
(** A step, or a clip that is not empty. *)
Definition moves (c : tcall K) : bool :=
  match c with CFrame _ _ => true | CClip _ x => negb (empty_batch x) | CForward _ _ => false end.
End TPeekSpec.
