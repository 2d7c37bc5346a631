(** Specification vocabulary: histories of calls on a network object. *)
From Coq Require Import List ZArith Bool Arith.
From Verif Require Import Base Frames CoMod Leaf Rnn Net Spec NetSpec.
Import ListNotations.

Section Calls.
Context {F : Type} {FA : Frames F}.

(** A piece of the input stream: one frame given to forward_step or a clip given
    to forward_steps (pad_end=False). *)
Inductive chunk := Frame (x : F) | Clip (xs : list F).
Definition frames (c : chunk) : list F := match c with Frame x => [x] | Clip xs => xs end.

Definition do_chunk (m : md F) (c : chunk) : res (list F * md F) :=
  match c with
  | Frame x => '(y, m') <- nstep true m x ;; Ok (match y with Some z => [z] | None => [] end, m')
  | Clip xs => nsteps false true m xs
  end.

(** All frames returned while processing a stream piece by piece. *)
Fixpoint run_chunks (m : md F) (cs : list chunk) : res (list F * md F) :=
  match cs with
  | [] => Ok ([], m)
  | c :: t => '(ys, m1) <- do_chunk m c ;; '(zs, m2) <- run_chunks m1 t ;; Ok (ys ++ zs, m2)
  end.

(** Arbitrary method calls. *)
Inductive call :=
| CStep (v : val F) (upd : bool)
| CSteps (v : val F) (pe upd : bool)
| CForward (v : val F)
| CClean.

Definition do_call (m : md F) (c : call) : res (val F * md F) :=
  match c with
  | CStep v upd => step m v upd
  | CSteps v pe upd => steps m v pe upd
  | CForward v => w <- fwd m v ;; Ok (w, m)
  | CClean => Ok (VNone, clean m)
  end.

Fixpoint run_calls (m : md F) (cs : list call) : res (list (val F) * md F) :=
  match cs with
  | [] => Ok ([], m)
  | c :: t => '(w, m1) <- do_call m c ;; '(ws, m2) <- run_calls m1 t ;; Ok (w :: ws, m2)
  end.

(** Calls made with update_state=False, and [forward]. *)
Definition pure_call (c : call) : bool :=
  match c with
  | CStep _ upd => negb upd
  | CSteps _ _ upd => negb upd
  | CForward _ => true
  | CClean => false
  end.

(** forward_steps is called with a clip. *)
Definition clip_call (c : call) : bool :=
  match c with CSteps (VS _) _ _ => true | CSteps _ _ _ => false | _ => true end.

(** Calls that feed the network with frames or non-empty clips (without end
    padding), do not update it, or clean it. *)
Definition stream_call (c : call) : bool :=
  match c with
  | CStep (VT _) true => true
  | CSteps (VS (_ :: _)) false true => true
  | CStep _ false | CSteps _ _ false | CForward _ | CClean => true
  | _ => false
  end.

(** The results that belong to the calls that are not pure. *)
Fixpoint keep_outs (cs : list call) (ws : list (val F)) : list (val F) :=
  match cs, ws with
  | c :: ct, w :: wt => if pure_call c then keep_outs ct wt else w :: keep_outs ct wt
  | _, _ => []
  end.

(** The network contains no Conditional. *)
Fixpoint cond_free (m : md F) : Prop :=
  match m with
  | MSeq ms | MPar ms | MBR ms _ => allP cond_free ms
  | MCond _ _ _ _ _ => False
  | _ => True
  end.

(** Every buffer of the network is as after construction. *)
Fixpoint fresh (m : md F) : Prop :=
  match m with
  | MDelay _ _ _ o => o = obj_init
  | MSkip n o => o = skip_init n
  | MConv _ o => o = obj_init
  | MPool _ o => o = obj_init
  | MRnn _ o => o = None
  | MSeq ms | MPar ms | MBR ms _ => allP fresh ms
  | MCond _ _ _ a b => fresh a /\ match b with Some b0 => fresh b0 | None => True end
  | _ => True
  end.

(** Stateful stepping through a list of inputs. *)
Fixpoint run_steps (m : md F) (vs : list (val F)) : res (list (val F) * md F) :=
  match vs with
  | [] => Ok ([], m)
  | v :: t => '(w, m1) <- step m v true ;; '(ws, m2) <- run_steps m1 t ;; Ok (w :: ws, m2)
  end.
(** Stepping with the state passed explicitly. *)
Fixpoint run_fsteps (m : md F) (s : option (sst F)) (vs : list (val F)) : res (list (val F) * option (sst F)) :=
  match vs with
  | [] => Ok ([], s)
  | v :: t => '(w, s1) <- fstep m v s ;; '(ws, s2) <- run_fsteps m s1 t ;; Ok (w :: ws, s2)
  end.

(** No convolution with kernel size 1 that needs a state (see C36). *)
Fixpoint convs_regular (m : md F) : Prop :=
  match m with
  | MConv c _ => 2 <= ck c \/ conv_stateless c = true
  | MSeq ms | MPar ms | MBR ms _ => allP convs_regular ms
  | MCond _ _ _ a b => convs_regular a /\ match b with Some b0 => convs_regular b0 | None => True end
  | _ => True
  end.

(** module.py:314-327 [warm_up]: forward_steps on a clip of [delay] dummy frames;
    [z] is the dummy frame. *)
Definition warm_up (m : md F) (z : F) : res (md F) :=
  '(_, m') <- steps m (VS (repeat z (Z.to_nat (del m)))) false true ;; Ok m'.

(** Same architecture and parameters, any buffers. *)
Fixpoint same_arch (m n : md F) {struct m} : Prop :=
  match m, n with
  | MDelay d f sh _, MDelay d' f' sh' _ => d = d' /\ f = f' /\ sh = sh'
  | MSkip k _, MSkip k' _ => k = k'
  | MConv c _, MConv c' _ => c = c'
  | MPool c _, MPool c' _ => c = c'
  | MRnn c _, MRnn c' _ => c = c'
  | MMap g, MMap g' => g = g'
  | MBroadcast k, MBroadcast k' => k = k'
  | MDispatch d, MDispatch d' => d = d'
  | MReduce r, MReduce r' => r = r'
  | MSeq ms, MSeq ns | MPar ms, MPar ns =>
      (fix go l1 l2 := match l1, l2 with
        | [], [] => True | a :: t, b :: u => same_arch a b /\ go t u | _, _ => False end) ms ns
  | MBR ms r, MBR ns r' => r = r' /\
      (fix go l1 l2 := match l1, l2 with
        | [], [] => True | a :: t, b :: u => same_arch a b /\ go t u | _, _ => False end) ms ns
  | MCond p D R a b, MCond p' D' R' a' b' => p = p' /\ D = D' /\ R = R' /\ same_arch a a' /\
      match b, b' with Some x, Some y => same_arch x y | None, None => True | _, _ => False end
  | _, _ => False
  end.

End Calls.
Arguments chunk F : clear implicits.
Arguments call F : clear implicits.
