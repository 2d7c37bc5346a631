(** Calls that raise: what is left of the objects when an exception leaves a
    network.  [Net.v] returns only the exception; here every call returns the
    network afterwards together with the value or the exception.  Python undoes
    nothing: what the modules called so far have stored stays stored. *)
From Coq Require Import List ZArith Bool Arith.
From Verif Require Import Base Frames CoMod Leaf Rnn Net Calls.
Import ListNotations.

Section CoModuleExn.
Context {F Ob St : Type}.
Variable get_state : Ob -> option St.
Variable set_state : Ob -> St -> Ob.
Variable fstep : F -> option St -> res (option F * option St).
Variable mkpad : F -> F.

(** module.py:213-219: [set_state] is reached only when [_forward_step] returned.
    Simplification: a [_forward_step] that raises has not written to its buffer
    (the arguments refused in this model are refused before the write). *)
Definition xco_forward_step (o : Ob) (x : F) (upd : bool) : Ob * res (option F) :=
  match fstep x (get_state o) with
  | Err e => (o, Err e)
  | Ok (out, s') =>
      (match s' with Some s => if upd then set_state o s else o | None => o end, Ok out)
  end.

(** module.py:262-292: the state is stored after the loop over the clip and before
    the end padding, so an exception in the end padding keeps it. *)
Definition xco_forward_steps (pad : nat) (o : Ob) (xs : list F) (pad_end upd : bool)
  : Ob * res (option (list F)) :=
  match co_loop fstep xs (get_state o) with
  | Err e => (o, Err e)
  | Ok (outs, s1) =>
      let o1 := match s1 with Some s => if upd then set_state o s else o | None => o end in
      if pad_end then
        match end_frames mkpad pad xs with
        | Err e => (o1, Err e)
        | Ok fs =>
            match co_loop fstep fs (match get_state o1 with Some s => Some s | None => s1 end) with
            | Err e => (o1, Err e)
            | Ok (outs', _) => (o1, Ok (stack_outs (outs ++ outs')))
            end
        end
      else (o1, Ok (stack_outs outs))
  end.

End CoModuleExn.

Section NetExn.
Context {F : Type} {FA : Frames F}.

(** delay.py:113-126: with delay 0 the argument is returned. *)
Definition xdelay_forward_step d m sh (o : obj F) (x : F) (upd : bool) : obj F * res (option F) :=
  if Nat.eqb d 0 then (o, Ok (Some x))
  else xco_forward_step obj_get obj_set (delay_fstep d m sh) o x upd.
Definition xdelay_forward_steps d m sh (o : obj F) (xs : list F) (pe upd : bool)
  : obj F * res (option (list F)) :=
  if Nat.eqb d 0 then (o, Ok (Some xs))
  else xco_forward_steps obj_get obj_set (delay_fstep d m sh) (make_padding m) d o xs pe upd.

(** rnn.py:204-208, 219-224: nothing is stored when torch raises. *)
Definition xrnn_forward_step (c : rnn_cfg F) o (x : F) (upd : bool) : option (list (hid F)) * res (option F) :=
  match rnn_fstep c x o with
  | Err e => (o, Err e)
  | Ok (y, h) => (if upd then h else o, Ok y)
  end.
Definition xrnn_forward_steps (c : rnn_cfg F) o (xs : list F) (upd : bool)
  : option (list (hid F)) * res (option (list F)) :=
  match torch_rnn c xs o with
  | Err e => (o, Err e)
  | Ok (ys, h) => (if upd then Some h else o, Ok (Some ys))
  end.

(** Apply a function to the object and to the returned value. *)
Definition xmap {A B C D} (f : A -> B) (g : C -> D) (r : A * res C) : B * res D :=
  (f (fst r), match snd r with Ok c => Ok (g c) | Err e => Err e end).

Section Loops.
(** [call] is the method called on each child. *)
Variable call : md F -> val F -> md F * res (val F).

(** container.py:639-648: an exception leaves the loop; the children called before
    keep their new states, the later ones are not reached. *)
Fixpoint xseq_step (ms : list (md F)) (v : val F) : list (md F) * res (val F) :=
  match ms with
  | [] => ([], Ok v)
  | m :: t =>
      match call m v with
      | (m1, Err e) => (m1 :: t, Err e)
      | (m1, Ok v1) =>
          if is_none v1 then (m1 :: t, Ok VNone)
          else let '(t2, r) := xseq_step t v1 in (m1 :: t2, r)
      end
  end.

(** container.py:668-677. *)
Fixpoint xseq_steps (ms : list (md F)) (v : val F) : list (md F) * res (val F) :=
  match ms with
  | [] => ([], Ok v)
  | m :: t =>
      if stops v then (m :: t, Ok VNone)
      else match call m v with
           | (m1, Err e) => (m1 :: t, Err e)
           | (m1, Ok v1) => let '(t2, r) := xseq_steps t v1 in (m1 :: t2, r)
           end
  end.

(** container.py:326-331, 333-340: [inputs[i]] is evaluated just before child i is
    called. *)
Fixpoint xpar_run (ms : list (md F)) (l : list (val F)) : list (md F) * res (list (val F)) :=
  match ms with
  | [] => ([], Ok [])
  | m :: t =>
      match l with
      | [] => (m :: t, Err IndexError)
      | x :: lt =>
          match call m x with
          | (m1, Err e) => (m1 :: t, Err e)
          | (m1, Ok v1) =>
              let '(t2, r) := xpar_run t lt in
              (m1 :: t2, match r with Ok vs => Ok (v1 :: vs) | Err e => Err e end)
          end
      end
  end.

(** container.py:871-875, 881-886. *)
Fixpoint xbr_run (ms : list (md F)) (v : val F) : list (md F) * res (list (val F)) :=
  match ms with
  | [] => ([], Ok [])
  | m :: t =>
      match call m v with
      | (m1, Err e) => (m1 :: t, Err e)
      | (m1, Ok v1) =>
          let '(t2, r) := xbr_run t v in
          (m1 :: t2, match r with Ok vs => Ok (v1 :: vs) | Err e => Err e end)
      end
  end.

End Loops.

(** The methods of [Net.step], with the network that is left. *)
Fixpoint xstep (m : md F) (v : val F) (upd : bool) {struct m} : md F * res (val F) :=
  match m with
  | MDelay d f sh o =>
      match v with
      | VT x => xmap (MDelay d f sh) of_opt (xdelay_forward_step d f sh o x upd)
      | _ => (m, Err TypeError)
      end
  | MSkip n o =>
      match v with
      | VT x => xmap (MSkip n) of_opt (xco_forward_step skip_get skip_set (skip_fstep n) o x upd)
      | _ => (m, Err TypeError)
      end
  | MConv c o =>
      match v with
      | VT x => xmap (MConv c) of_opt (xco_forward_step obj_get obj_set (conv_fstep c) o x upd)
      | _ => (m, Err TypeError)
      end
  | MPool c o =>
      match v with
      | VT x => xmap (MPool c) of_opt (xco_forward_step obj_get obj_set (pool_fstep c) o x upd)
      | _ => (m, Err TypeError)
      end
  | MMap g => match v with VT x => (m, Ok (VT (g x))) | _ => (m, Err TypeError) end
  | MRnn c o =>
      match v with
      | VT x => xmap (MRnn c) of_opt (xrnn_forward_step c o x upd)
      | _ => (m, Err TypeError)
      end
  | MSeq ms =>                                        (* container.py:639-648 *)
      let '(ms', r) := xseq_step (fun m v => xstep m v upd) ms v in (MSeq ms', r)
  | MBroadcast n => (m, broadcast_val n v)
  | MPar ms =>                                        (* container.py:326-331 *)
      match v with
      | VL l => xmap MPar VL (xpar_run (fun m v => xstep m v upd) ms l)
      | _ => (m, Err TypeError)
      end
  | MDispatch d => (m, dispatch_val d v)
  | MReduce r => (m, reduce_step r v)
  | MBR ms r =>       (* container.py:871-879: the reduction runs after all branches *)
      match xbr_run (fun m v => xstep m v upd) ms v with
      | (ms', Err e) => (MBR ms' r, Err e)
      | (ms', Ok vs) => (MBR ms' r, if forallb is_tensor vs then reduce_vals r vs else Ok VNone)
      end
  | MCond p D R a b =>                                (* container.py:1048-1053 *)
      if p v then let '(a', w) := xstep a v upd in (MCond p D R a' b, w)
      else match b with
           | Some b0 => let '(b', w) := xstep b0 v upd in (MCond p D R a (Some b'), w)
           | None => (m, Ok v)
           end
  end.

(** The methods of [Net.steps], with the network that is left. *)
Fixpoint xsteps (m : md F) (v : val F) (pe upd : bool) {struct m} : md F * res (val F) :=
  match m with
  | MDelay d f sh o =>
      match v with
      | VS x => xmap (MDelay d f sh) of_clip (xdelay_forward_steps d f sh o x pe upd)
      | _ => (m, Err TypeError)
      end
  | MSkip n o =>
      match v with
      | VS x => xmap (MSkip n) of_clip
                  (xco_forward_steps skip_get skip_set (skip_fstep n) (fun _ : F => f0) 0 o x pe upd)
      | _ => (m, Err TypeError)
      end
  | MConv c o =>
      match v with
      | VS x => xmap (MConv c) of_clip
                  (xco_forward_steps obj_get obj_set (conv_fstep c) (make_padding (cfill c)) (cp c) o x pe upd)
      | _ => (m, Err TypeError)
      end
  | MPool c o =>
      match v with
      | VS x => xmap (MPool c) of_clip
                  (xco_forward_steps obj_get obj_set (pool_fstep c) (make_padding (pfill c)) (pp c) o x pe upd)
      | _ => (m, Err TypeError)
      end
  | MMap g => match v with VS x => (m, Ok (VS (map g x))) | _ => (m, Err TypeError) end
  | MRnn c o =>
      match v with
      | VS x => xmap (MRnn c) of_clip (xrnn_forward_steps c o x upd)
      | _ => (m, Err TypeError)
      end
  | MSeq ms =>                                        (* container.py:668-677 *)
      let '(ms', r) := xseq_steps (fun m v => xsteps m v pe upd) ms v in (MSeq ms', r)
  | MBroadcast n => (m, broadcast_val n v)
  | MPar ms =>                                        (* container.py:333-340 *)
      match v with
      | VL l => xmap MPar VL (xpar_run (fun m v => xsteps m v pe upd) ms l)
      | _ => (m, Err TypeError)
      end
  | MDispatch d => (m, dispatch_val d v)
  | MReduce r => (m, reduce_fwd r v)
  | MBR ms r =>                                       (* container.py:881-888 *)
      match xbr_run (fun m v => xsteps m v pe upd) ms v with
      | (ms', Err e) => (MBR ms' r, Err e)
      | (ms', Ok vs) => (MBR ms' r, reduce_vals r vs)
      end
  | MCond p D R a b =>                                (* container.py:1065-1070 *)
      if p v then let '(a', w) := xsteps a v false true in (MCond p D R a' b, w)
      else match b with
           | Some b0 => let '(b', w) := xsteps b0 v false true in (MCond p D R a (Some b'), w)
           | None => (m, Ok v)
           end
  end.

(** A call inside [try: ... except: pass]: what it returned or raised, and the
    network afterwards. *)
Definition xcall (m : md F) (c : call F) : md F * res (val F) :=
  match c with
  | CStep v upd => xstep m v upd
  | CSteps v pe upd => xsteps m v pe upd
  | CForward v => (m, fwd m v)
  | CClean => (clean m, Ok VNone)
  end.

(** A whole history of such calls. *)
Fixpoint xrun (m : md F) (cs : list (call F)) : md F * list (res (val F)) :=
  match cs with
  | [] => (m, [])
  | c :: t => let '(m1, r) := xcall m c in let '(m2, rs) := xrun m1 t in (m2, r :: rs)
  end.

End NetExn.
