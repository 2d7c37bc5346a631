(** Buffers as mutable tensors.

    [CoMod.v] and [Net.v] treat state buffers as values.  In the library they are
    tensors that are written in place ([buffer[i] = x]) and shared between a
    module, the tuple returned by [get_state] and the copies made by
    [_clone_first] (module.py:95-98).  This file models the same methods on an
    explicit heap of tensors; [HeapProof.v] relates the two.

    Simplifications: the index tensors [state_index]/[stride_index] are never
    written in place by the library and stay values, and so do frames passed
    between modules (no module writes to its input, and no returned tensor
    is a view of a state buffer: delay.py:102, conv.py:237-261,
    pooling.py:197-210).  Hidden states of recurrent modules are replaced, never
    written (rnn.py:204-224).  When an exception is raised the heap is dropped. *)
From Coq Require Import List ZArith Bool Arith.
From Verif Require Import Base Frames CoMod Leaf Rnn Net Calls.
Import ListNotations.

(** A tensor on the heap: a stack of frames (Delay and pooling buffers), or a
    stack of rows (convolution buffers). *)
Inductive cell (F : Type) :=
| TFrames (l : list F)
| TRows (l : list (list F)).
Arguments TFrames {F} l.
Arguments TRows {F} l.

(** The heap; a reference is a position in it. *)
Definition heap (F : Type) := list (cell F).

(** What the stateful modules keep of a tensor: [B] is the type of an item. *)
Class Buf (F B : Type) := {
  wrap : list B -> cell F;
  unwrap : cell F -> option (list B)
}.
#[global] Instance BufFrames F : Buf F F :=
  {| wrap := TFrames; unwrap c := match c with TFrames l => Some l | TRows _ => None end |}.
#[global] Instance BufRows F : Buf F (list F) :=
  {| wrap := TRows; unwrap c := match c with TRows l => Some l | TFrames _ => None end |}.

(** State tuple (buffer reference, state_index, stride_index), and also the three
    attributes of a module object (conv.py:121-123, pooling.py:148-150,
    delay.py:62-63). *)
Record hobj := HObj { h_ref : nat; h_idx : Z; h_str : Z }.

Section HeapOps.
Context {F B : Type} {BF : Buf F B}.

(** Contents of a tensor.  A dangling or wrongly shaped reference is an error
    (shown unreachable). *)
Definition hread (h : heap F) (r : nat) : res (list B) :=
  match nth_error h r with
  | Some c => match unwrap c with Some l => Ok l | None => Err RuntimeError end
  | None => Err RuntimeError
  end.

(** A new tensor. *)
Definition halloc (h : heap F) (l : list B) : nat * heap F := (length h, h ++ [wrap l]).

(** [buffer[i] = x]: in-place write. *)
Definition hwrite (h : heap F) (r : nat) (i : Z) (x : B) : res (heap F) :=
  l <- hread h r ;; l' <- setz l i x ;; Ok (set_nth h r (wrap l')).

(** [buffer.clone()]. *)
Definition hclone (h : heap F) (r : nat) : res (nat * heap F) :=
  l <- hread h r ;; Ok (halloc h l).

(** module.py:95-98 [_clone_first]. *)
Definition clone_first (s : hobj) (h : heap F) : res (hobj * heap F) :=
  '(r, h') <- hclone h (h_ref s) ;; Ok (HObj r (h_idx s) (h_str s), h').

(** A new module's buffers: an empty tensor (conv.py:121-123, pooling.py:148-150,
    delay.py:62-63); also what [clean_state] assigns (conv.py:157-160,
    pooling.py:168-171, delay.py:78-80). *)
Definition hobj_clean (h : heap F) : hobj * heap F :=
  let '(r, h') := halloc h [] in (HObj r 0 0, h').

(** conv.py:162-165, pooling.py:173-175, delay.py:82-85: [get_state] hands out the
    buffer itself. *)
Definition hobj_get (o : hobj) (h : heap F) : res (option hobj) :=
  l <- hread h (h_ref o) ;; Ok (match l with [] => None | _ => Some o end).

(** conv.py:167-168, pooling.py:177-178, delay.py:87-88. *)
Definition hobj_set (o s : hobj) : hobj := s.

(** A state tuple built by [init_state] lives in a new tensor. *)
Definition hobj_new (s : obj B) (h : heap F) : hobj * heap F :=
  let '(r, h') := halloc h (o_buf s) in (HObj r (o_idx s) (o_str s), h').

(* ------------------------------------------------------------------ *)
(** ** CoModule (continual/module.py) *)

(** [_forward_step] of the module. *)
Variable hfs : F -> option hobj -> heap F -> res (option F * option hobj * heap F).
Variable mkpad : F -> F.                                        (* _make_padding *)

(** [_clone_first] of an optional state (module.py:214-215, 262-263, 277-279). *)
Definition clone_opt (s : option hobj) (h : heap F) : res (option hobj * heap F) :=
  match s with
  | Some t => '(t', h') <- clone_first t h ;; Ok (Some t', h')
  | None => Ok (None, h)
  end.

(** module.py:213-219 [CoModule.forward_step]. *)
Definition hco_forward_step (o : hobj) (x : F) (upd : bool) (h : heap F)
  : res (option F * hobj * heap F) :=
  s <- hobj_get o h ;;
  '(s1, h1) <- (if upd then Ok (s, h) else clone_opt s h) ;;
  '(out, s2, h2) <- hfs x s1 h1 ;;
  Ok (out, match s2 with
           | Some t => if upd then hobj_set o t else o
           | None => o
           end, h2).

(** module.py:265-268 and 281-286: the loops of [_forward_steps_impl]. *)
Fixpoint hco_loop (xs : list F) (s : option hobj) (h : heap F)
  : res (list F * option hobj * heap F) :=
  match xs with
  | [] => Ok ([], s, h)
  | x :: t =>
      '(o, s1, h1) <- hfs x s h ;;
      '(outs, s2, h2) <- hco_loop t s1 h1 ;;
      Ok (match o with Some y => y :: outs | None => outs end, s2, h2)
  end.

(** module.py:248-292 [CoModule._forward_steps_impl]. *)
Definition hco_forward_steps (pad : nat) (o : hobj) (xs : list F) (pad_end upd : bool)
    (h : heap F) : res (option (list F) * hobj * heap F) :=
  s <- hobj_get o h ;;
  '(s0, h0) <- (if upd then Ok (s, h) else clone_opt s h) ;;
  '(outs, s1, h1) <- hco_loop xs s0 h0 ;;
  let o1 := match s1 with
            | Some t => if upd then hobj_set o t else o
            | None => o
            end in
  '(outs2, h2) <- (if pad_end then
       opt <- hobj_get o1 h1 ;;
       '(s2, h2) <- (match opt with
                     | Some t => clone_opt (Some t) h1
                     | None => Ok (s1, h1)
                     end) ;;
       fs <- end_frames mkpad pad xs ;;
       '(outs', _, h3) <- hco_loop fs s2 h2 ;;
       Ok (outs', h3)
     else Ok ([], h1)) ;;
  Ok (stack_outs (outs ++ outs2), o1, h2).

End HeapOps.

Section HeapLeaves.
Context {F : Type} {FA : Frames F} {FL : FrameLaws F}.

(* ------------------------------------------------------------------ *)
(** ** Delay *)

(** delay.py:90-111: the output is read (cloned) before the in-place write. *)
Definition hdelay_fstep (d : nat) (m : fill) (sh : shrink)
    (x : F) (prev : option hobj) (h : heap F) : res (option F * option hobj * heap F) :=
  if Nat.eqb d 0 then Ok (Some x, prev, h)
  else
    let '(st, h1) := match prev with
                     | None => hobj_new (B := F) (delay_init d m sh x) h
                     | Some s => (s, h)
                     end in
    let index := h_idx st in
    output <- (if Z.leb 0 index
               then (buffer <- hread h1 (h_ref st) ;; y <- getz buffer index ;; Ok (Some y))
               else Ok None) ;;
    h2 <- hwrite (B := F) h1 (h_ref st) (index mod Z.of_nat d)%Z x ;;
    let ni := (index + 1)%Z in
    let ni := if Z.ltb 0 ni then (ni mod Z.of_nat d)%Z else ni in
    Ok (output, Some (HObj (h_ref st) ni (h_str st)), h2).

(** delay.py:113-117. *)
Definition hdelay_forward_step d m sh (o : hobj) (x : F) (upd : bool) (h : heap F)
  : res (option F * hobj * heap F) :=
  if Nat.eqb d 0 then Ok (Some x, o, h)
  else hco_forward_step (B := F) (hdelay_fstep d m sh) o x upd h.

(** delay.py:119-126. *)
Definition hdelay_forward_steps d m sh (o : hobj) (xs : list F) (pe upd : bool) (h : heap F)
  : res (option (list F) * hobj * heap F) :=
  if Nat.eqb d 0 then Ok (Some xs, o, h)
  else hco_forward_steps (B := F) (hdelay_fstep d m sh) (make_padding m) d o xs pe upd h.

(* ------------------------------------------------------------------ *)
(** ** Convolutions *)

(** conv.py:200-278; [training] is the flag set by [train()]/[eval()].  In
    training mode the buffer is cloned before the write (conv.py:265). *)
Definition hconv_fstep (c : conv_cfg F) (training : bool)
    (x : F) (prev : option hobj) (h : heap F) : res (option F * option hobj * heap F) :=
  if conv_stateless c then
    ys <- conv_forward c [x] ;;
    y <- getz ys 0 ;;
    Ok (Some y, prev, h)
  else
    xp <- pad_time Zeros (ck c - 1) [x] ;;
    xs <- xcorr (cW c) None (ck c) 1 xp ;;
    x_out <- getz xs 0 ;;
    let x_rest := skipn 1 xs in
    let '(st, h1) := match prev with
                     | None => hobj_new (B := list F) (conv_init c x_rest) h
                     | Some s => (s, h)
                     end in
    let index := h_idx st in
    let stride_index := h_str st in
    let tot := (ck c - 1)%nat in
    let valid := Z.eqb stride_index (Z.of_nat (cs c) - 1) in
    out <- (if valid then
              (buffer <- hread h1 (h_ref st) ;;
               g <- conv_gather buffer index tot ;;
               Ok (add_bias (cb c) (fadd x_out (fsum g))))
            else Ok x_out) ;;
    '(nr, nidx, h2) <- (if Nat.ltb 1 (ck c) then
              ('(r, h2) <- (if training then hclone (B := list F) h1 (h_ref st)
                            else Ok (h_ref st, h1)) ;;
               h3 <- hwrite h2 r index x_rest ;;
               Ok (r, ((index + 1) mod Z.of_nat tot)%Z, h3))
            else Ok (h_ref st, index, h1)) ;;
    let ns := (stride_index + 1)%Z in
    let ns := if Z.ltb 0 ns then (ns mod Z.of_nat (cs c))%Z else ns in
    Ok (if valid then Some out else None, Some (HObj nr nidx ns), h2).

(** module.py:192-219 and conv.py:280-286. *)
Definition hconv_forward_step c tr (o : hobj) (x : F) (upd : bool) (h : heap F) :=
  hco_forward_step (B := list F) (hconv_fstep c tr) o x upd h.
Definition hconv_forward_steps c tr (o : hobj) (xs : list F) (pe upd : bool) (h : heap F) :=
  hco_forward_steps (B := list F) (hconv_fstep c tr) (make_padding (cfill c))
    (cp c) o xs pe upd h.

(* ------------------------------------------------------------------ *)
(** ** Pooling *)

(** pooling.py:180-212: the write comes first, and is in place in training mode
    too (pooling.py:193). *)
Definition hpool_fstep (c : pool_cfg F) (x : F) (prev : option hobj) (h : heap F)
  : res (option F * option hobj * heap F) :=
  let pooled := psp c x in
  let '(st, h1) := match prev with
                   | Some s => (s, h)
                   | None => hobj_new (B := F) (pool_init c pooled) h
                   end in
  let index := h_idx st in
  let stride_index := h_str st in
  h2 <- hwrite (B := F) h1 (h_ref st) index pooled ;;
  let next_index := ((index + 1) mod Z.of_nat (pk c))%Z in
  let ns := (stride_index + 1)%Z in
  let ns := if Z.ltb 0 ns then (ns mod Z.of_nat (ps c))%Z else ns in
  out <- (if Z.eqb stride_index (Z.of_nat (ps c) - 1) then
            buffer <- hread h2 (h_ref st) ;;
            sel <- (if Nat.eqb (pd c) 1 then Ok buffer
                    else mapM (fun i =>
                           getz buffer ((Z.of_nat (i * pd c) + next_index)
                                        mod Z.of_nat (length buffer))%Z)
                         (seq 0 (pk c))) ;;
            Ok (Some (pagg c sel))
          else Ok None) ;;
  Ok (out, Some (HObj (h_ref st) next_index ns), h2).

(** module.py:192-219, pooling.py:214-219. *)
Definition hpool_forward_step c (o : hobj) (x : F) (upd : bool) (h : heap F) :=
  hco_forward_step (B := F) (hpool_fstep c) o x upd h.
Definition hpool_forward_steps c (o : hobj) (xs : list F) (pe upd : bool) (h : heap F) :=
  hco_forward_steps (B := F) (hpool_fstep c) (make_padding (pfill c)) (pp c) o xs pe upd h.

(* ------------------------------------------------------------------ *)
(** ** Networks *)

(** Module objects as in [Net.v], with references instead of buffers, and the
    [training] flag of the convolutions (the only modules that look at it while
    stepping). *)
Inductive hmd :=
| HDelay (d : nat) (m : fill) (sh : shrink) (o : hobj)
| HSkip (n : nat) (o : Z)
| HConv (c : conv_cfg F) (tr : bool) (o : hobj)
| HPool (c : pool_cfg F) (o : hobj)
| HMap (g : F -> F)
| HRnn (c : rnn_cfg F) (o : option (list (hid F)))
| HSeq (ms : list hmd)
| HBroadcast (n : option nat)
| HPar (ms : list hmd)
| HDispatch (map : dmap)
| HReduce (r : red F)
| HBR (ms : list hmd) (r : red F)
| HCond (pred : val F -> bool) (D R : Z) (a : hmd) (b : option hmd).

Section HLoops.
Variable call : hmd -> val F -> heap F -> res (val F * hmd * heap F).

(** container.py:639-648. *)
Fixpoint hseq_step (ms : list hmd) (v : val F) (h : heap F) : res (val F * list hmd * heap F) :=
  match ms with
  | [] => Ok (v, [], h)
  | m :: t =>
      '(v1, m1, h1) <- call m v h ;;
      if is_none v1 then Ok (VNone, m1 :: t, h1)
      else '(v2, t2, h2) <- hseq_step t v1 h1 ;; Ok (v2, m1 :: t2, h2)
  end.

(** container.py:668-677. *)
Fixpoint hseq_steps (ms : list hmd) (v : val F) (h : heap F) : res (val F * list hmd * heap F) :=
  match ms with
  | [] => Ok (v, [], h)
  | m :: t =>
      if stops v then Ok (VNone, m :: t, h)
      else '(v1, m1, h1) <- call m v h ;;
           '(v2, t2, h2) <- hseq_steps t v1 h1 ;; Ok (v2, m1 :: t2, h2)
  end.

(** container.py:326-331, 333-340. *)
Fixpoint hpar_run (ms : list hmd) (l : list (val F)) (h : heap F)
  : res (list (val F) * list hmd * heap F) :=
  match ms with
  | [] => Ok ([], [], h)
  | m :: t =>
      match l with
      | [] => Err IndexError
      | x :: lt =>
          '(v1, m1, h1) <- call m x h ;;
          '(vs, t2, h2) <- hpar_run t lt h1 ;; Ok (v1 :: vs, m1 :: t2, h2)
      end
  end.

(** container.py:871-875, 881-886. *)
Fixpoint hbr_run (ms : list hmd) (v : val F) (h : heap F)
  : res (list (val F) * list hmd * heap F) :=
  match ms with
  | [] => Ok ([], [], h)
  | m :: t =>
      '(v1, m1, h1) <- call m v h ;;
      '(vs, t2, h2) <- hbr_run t v h1 ;; Ok (v1 :: vs, m1 :: t2, h2)
  end.

End HLoops.

(** [forward_step]; container lines as in [Net.step]. *)
Fixpoint hstep (m : hmd) (v : val F) (upd : bool) (h : heap F) {struct m}
  : res (val F * hmd * heap F) :=
  match m with
  | HDelay d f sh o =>
      match v with
      | VT x => '(y, o', h') <- hdelay_forward_step d f sh o x upd h ;;
                Ok (of_opt y, HDelay d f sh o', h')
      | _ => Err TypeError
      end
  | HSkip n o =>
      match v with
      | VT x => '(y, o') <- skip_forward_step n o x upd ;; Ok (of_opt y, HSkip n o', h)
      | _ => Err TypeError
      end
  | HConv c tr o =>
      match v with
      | VT x => '(y, o', h') <- hconv_forward_step c tr o x upd h ;;
                Ok (of_opt y, HConv c tr o', h')
      | _ => Err TypeError
      end
  | HPool c o =>
      match v with
      | VT x => '(y, o', h') <- hpool_forward_step c o x upd h ;; Ok (of_opt y, HPool c o', h')
      | _ => Err TypeError
      end
  | HMap g => match v with VT x => Ok (VT (g x), m, h) | _ => Err TypeError end
  | HRnn c o =>
      match v with
      | VT x => '(y, o') <- rnn_forward_step c o x upd ;; Ok (of_opt y, HRnn c o', h)
      | _ => Err TypeError
      end
  | HSeq ms =>                                        (* container.py:639-648 *)
      '(w, ms', h') <- hseq_step (fun m v h => hstep m v upd h) ms v h ;; Ok (w, HSeq ms', h')
  | HBroadcast n => w <- broadcast_val n v ;; Ok (w, m, h)
  | HPar ms =>                                        (* container.py:326-331 *)
      match v with
      | VL l => '(vs, ms', h') <- hpar_run (fun m v h => hstep m v upd h) ms l h ;;
                Ok (VL vs, HPar ms', h')
      | _ => Err TypeError
      end
  | HDispatch d => w <- dispatch_val d v ;; Ok (w, m, h)
  | HReduce r => w <- reduce_step r v ;; Ok (w, m, h)
  | HBR ms r =>                                       (* container.py:871-879 *)
      '(vs, ms', h') <- hbr_run (fun m v h => hstep m v upd h) ms v h ;;
      w <- (if forallb is_tensor vs then reduce_vals r vs else Ok VNone) ;;
      Ok (w, HBR ms' r, h')
  | HCond p D R a b =>                                (* container.py:1048-1053 *)
      if p v then '(w, a', h') <- hstep a v upd h ;; Ok (w, HCond p D R a' b, h')
      else match b with
           | Some b0 => '(w, b', h') <- hstep b0 v upd h ;; Ok (w, HCond p D R a (Some b'), h')
           | None => Ok (v, m, h)
           end
  end.

(** [forward_steps]; container lines as in [Net.steps]. *)
Fixpoint hsteps (m : hmd) (v : val F) (pe upd : bool) (h : heap F) {struct m}
  : res (val F * hmd * heap F) :=
  match m with
  | HDelay d f sh o =>
      match v with
      | VS x => '(y, o', h') <- hdelay_forward_steps d f sh o x pe upd h ;;
                Ok (of_clip y, HDelay d f sh o', h')
      | _ => Err TypeError
      end
  | HSkip n o =>
      match v with
      | VS x => '(y, o') <- skip_forward_steps n o x pe upd ;; Ok (of_clip y, HSkip n o', h)
      | _ => Err TypeError
      end
  | HConv c tr o =>
      match v with
      | VS x => '(y, o', h') <- hconv_forward_steps c tr o x pe upd h ;;
                Ok (of_clip y, HConv c tr o', h')
      | _ => Err TypeError
      end
  | HPool c o =>
      match v with
      | VS x => '(y, o', h') <- hpool_forward_steps c o x pe upd h ;;
                Ok (of_clip y, HPool c o', h')
      | _ => Err TypeError
      end
  | HMap g => match v with VS x => Ok (VS (map g x), m, h) | _ => Err TypeError end
  | HRnn c o =>
      match v with
      | VS x => '(y, o') <- rnn_forward_steps c o x pe upd ;; Ok (of_clip y, HRnn c o', h)
      | _ => Err TypeError
      end
  | HSeq ms =>                                        (* container.py:668-677 *)
      '(w, ms', h') <- hseq_steps (fun m v h => hsteps m v pe upd h) ms v h ;;
      Ok (w, HSeq ms', h')
  | HBroadcast n => w <- broadcast_val n v ;; Ok (w, m, h)
  | HPar ms =>                                        (* container.py:333-340 *)
      match v with
      | VL l => '(vs, ms', h') <- hpar_run (fun m v h => hsteps m v pe upd h) ms l h ;;
                Ok (VL vs, HPar ms', h')
      | _ => Err TypeError
      end
  | HDispatch d => w <- dispatch_val d v ;; Ok (w, m, h)
  | HReduce r => w <- reduce_fwd r v ;; Ok (w, m, h)
  | HBR ms r =>                                       (* container.py:881-888 *)
      '(vs, ms', h') <- hbr_run (fun m v h => hsteps m v pe upd h) ms v h ;;
      w <- reduce_vals r vs ;;
      Ok (w, HBR ms' r, h')
  | HCond p D R a b =>                                (* container.py:1065-1070 *)
      if p v then '(w, a', h') <- hsteps a v false true h ;; Ok (w, HCond p D R a' b, h')
      else match b with
           | Some b0 => '(w, b', h') <- hsteps b0 v false true h ;;
                        Ok (w, HCond p D R a (Some b'), h')
           | None => Ok (v, m, h)
           end
  end.

(** Threading the heap through the children of a container. *)
Definition hmap (f : hmd -> heap F -> hmd * heap F) :=
  fix go (ms : list hmd) (h : heap F) : list hmd * heap F :=
    match ms with
    | [] => ([], h)
    | m :: t => let '(m1, h1) := f m h in let '(t2, h2) := go t h1 in (m1 :: t2, h2)
    end.

(** [clean_state] (as [Net.clean]): new empty tensors are assigned. *)
Fixpoint hclean (m : hmd) (h : heap F) : hmd * heap F :=
  match m with
  | HDelay d f sh o => let '(o', h') := hobj_clean (B := F) h in (HDelay d f sh o', h')
  | HSkip n _ => (HSkip n (skip_init n), h)
  | HConv c tr o => let '(o', h') := hobj_clean (B := list F) h in (HConv c tr o', h')
  | HPool c o => let '(o', h') := hobj_clean (B := F) h in (HPool c o', h')
  | HRnn c o => (HRnn c (rnn_clean o), h)
  | HSeq ms => let '(ms', h') := hmap hclean ms h in (HSeq ms', h')
  | HPar ms => let '(ms', h') := hmap hclean ms h in (HPar ms', h')
  | HBR ms r => let '(ms', h') := hmap hclean ms h in (HBR ms' r, h')
  | _ => (m, h)
  end.

(** [train(mode)] (torch.nn.Module.train): sets the flag in all submodules. *)
Fixpoint htrain (b : bool) (m : hmd) : hmd :=
  match m with
  | HConv c _ o => HConv c b o
  | HSeq ms => HSeq (map (htrain b) ms)
  | HPar ms => HPar (map (htrain b) ms)
  | HBR ms r => HBR (map (htrain b) ms) r
  | HCond p D R a e => HCond p D R (htrain b a) (option_map (htrain b) e)
  | _ => m
  end.

(** The module tree with the buffers read from the heap: the network of
    [Net.v] that an observer sees. *)
Definition buf_of {B} {BF : Buf F B} (h : heap F) (r : nat) : list B :=
  match hread h r with Ok l => l | Err _ => [] end.
Definition obj_of {B} {BF : Buf F B} (h : heap F) (o : hobj) : obj B :=
  Obj (buf_of h (h_ref o)) (h_idx o) (h_str o).
Fixpoint view (h : heap F) (m : hmd) : md F :=
  match m with
  | HDelay d f sh o => MDelay d f sh (obj_of h o)
  | HSkip n o => MSkip n o
  | HConv c tr o => MConv c (obj_of h o)
  | HPool c o => MPool c (obj_of h o)
  | HMap g => MMap g
  | HRnn c o => MRnn c o
  | HSeq ms => MSeq (map (view h) ms)
  | HBroadcast n => MBroadcast n
  | HPar ms => MPar (map (view h) ms)
  | HDispatch d => MDispatch d
  | HReduce r => MReduce r
  | HBR ms r => MBR (map (view h) ms) r
  | HCond p D R a b => MCond p D R (view h a) (option_map (view h) b)
  end.

(** Lay out a network on the heap, every stateful module with its own tensor. *)
Definition hmap2 {A} (f : A -> heap F -> hmd * heap F) :=
  fix go (ms : list A) (h : heap F) : list hmd * heap F :=
    match ms with
    | [] => ([], h)
    | m :: t => let '(m1, h1) := f m h in let '(t2, h2) := go t h1 in (m1 :: t2, h2)
    end.
Fixpoint place (tr : bool) (m : md F) (h : heap F) : hmd * heap F :=
  match m with
  | MDelay d f sh o => let '(o', h') := hobj_new o h in (HDelay d f sh o', h')
  | MSkip n o => (HSkip n o, h)
  | MConv c o => let '(o', h') := hobj_new o h in (HConv c tr o', h')
  | MPool c o => let '(o', h') := hobj_new o h in (HPool c o', h')
  | MMap g => (HMap g, h)
  | MRnn c o => (HRnn c o, h)
  | MSeq ms => let '(ms', h') := hmap2 (place tr) ms h in (HSeq ms', h')
  | MBroadcast n => (HBroadcast n, h)
  | MPar ms => let '(ms', h') := hmap2 (place tr) ms h in (HPar ms', h')
  | MDispatch d => (HDispatch d, h)
  | MReduce r => (HReduce r, h)
  | MBR ms r => let '(ms', h') := hmap2 (place tr) ms h in (HBR ms' r, h')
  | MCond p D R a b =>
      let '(a', h1) := place tr a h in
      match b with
      | Some b0 => let '(b', h2) := place tr b0 h1 in (HCond p D R a' (Some b'), h2)
      | None => (HCond p D R a' None, h1)
      end
  end.

(** Method calls on a network object, and mode switches between them. *)
Inductive hcall := HCall (c : call F) | HTrain (b : bool).

Definition hdo (m : hmd) (c : hcall) (h : heap F) : res (val F * hmd * heap F) :=
  match c with
  | HCall (CStep v upd) => hstep m v upd h
  | HCall (CSteps v pe upd) => hsteps m v pe upd h
  | HCall (CForward v) => w <- fwd (view h m) v ;; Ok (w, m, h)   (* reads no buffer *)
  | HCall CClean => let '(m', h') := hclean m h in Ok (VNone, m', h')
  | HTrain b => Ok (VNone, htrain b m, h)
  end.

(** The results of the method calls, in order. *)
Fixpoint hrun (m : hmd) (cs : list hcall) (h : heap F)
  : res (list (val F) * hmd * heap F) :=
  match cs with
  | [] => Ok ([], m, h)
  | c :: t =>
      '(w, m1, h1) <- hdo m c h ;;
      '(ws, m2, h2) <- hrun m1 t h1 ;;
      Ok (match c with HCall _ => w :: ws | HTrain _ => ws end, m2, h2)
  end.

(** The method calls of a history. *)
Fixpoint calls_of (cs : list hcall) : list (call F) :=
  match cs with
  | [] => []
  | HCall c :: t => c :: calls_of t
  | HTrain _ :: t => calls_of t
  end.

(** [get_state()] of a stateful module: the live buffer, or None while empty. *)
Definition hget_state (m : hmd) (h : heap F) : res (option hobj) :=
  match m with
  | HDelay _ _ _ o => hobj_get (B := F) o h
  | HConv _ _ o => hobj_get (B := list F) o h
  | HPool _ o => hobj_get (B := F) o h
  | _ => Ok None
  end.
(** [set_state(s)]. *)
Definition hset_state (m : hmd) (s : hobj) : hmd :=
  match m with
  | HDelay d f sh _ => HDelay d f sh s
  | HConv c tr _ => HConv c tr s
  | HPool c _ => HPool c s
  | _ => m
  end.
(** [(s[0].clone(),) + s[1:]] for a state of module [m]. *)
Definition hcopy_state (m : hmd) (s : hobj) (h : heap F) : res (hobj * heap F) :=
  match m with
  | HConv _ _ _ => clone_first (B := list F) s h
  | _ => clone_first (B := F) s h
  end.

End HeapLeaves.
Arguments hmd F : clear implicits.
Arguments hcall F : clear implicits.
