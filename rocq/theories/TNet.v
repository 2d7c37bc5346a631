(** Networks of the tensor modules of [TConv.v], [TPool.v] and [TRnn.v]: every value is a
    tensor with its shape.  [Net.v] models the same containers with one abstract type of
    frames. *)
From Coq Require Import List ZArith Bool Arith.
From Verif Require Import Base Attn Frames CoMod Leaf Tensor TConv TPool TAttn TRnn TPoint.
Import ListNotations.

Section TNet.
Context {K : Type} {SC : Scal K}.

(** [x[:, :, t]] for all [t] of a clip of shape (B, C, T, *sp), and
    [torch.stack(frames, dim=2)]; no outputs give None (module.py:288-292). *)
Definition frames_of (x : tens K) : list (tens K) :=
  match sh x with
  | B :: C :: t :: sp => map (fun i => T (B :: C :: sp) (slice2 B C t sp (dat x) i)) (seq 0 t)
  | _ => []
  end.
Definition clip_of (l : list (tens K)) : option (tens K) :=
  match l with
  | [] => None
  | f :: _ => match sh f with
              | B :: C :: sp => Some (T (B :: C :: length l :: sp) (stack2 B C sp (map dat l)))
              | _ => None
              end
  end.

(** Reductions of BroadcastReduce (container.py:64-96): elementwise operations applied from
    left to right (sum, mul, max), and concatenation of the channels.  Simplification:
    torch also accepts, and broadcasts, operands of different shapes. *)
Inductive kred := KEl (op : K -> K -> K) | KCat.
Definition el2 (op : K -> K -> K) (x y : tens K) : res (tens K) :=
  if shape_eqb (sh x) (sh y) then Ok (T (sh x) (map (fun p => op (fst p) (snd p)) (combine (dat x) (dat y))))
  else Err RuntimeError.
(** [torch.cat([x, y], dim=1)]. *)
Definition cat2 (x y : tens K) : res (tens K) :=
  match sh x, sh y with
  | B :: C :: r, B' :: C' :: r' =>
      if Nat.eqb B B' && shape_eqb r r' then
        Ok (T (B :: C + C' :: r)
              (tab (B :: C + C' :: r) (fun ix => match ix with
                 | b :: c :: q => if Nat.ltb c C then at_ (sh x) (dat x) (map Z.of_nat (b :: c :: q))
                                  else at_ (sh y) (dat y) (map Z.of_nat (b :: c - C :: q))
                 | _ => s0
                 end)))
      else Err RuntimeError
  | _, _ => Err RuntimeError
  end.
Fixpoint kfold (f : tens K -> tens K -> res (tens K)) (x : tens K) (l : list (tens K)) : res (tens K) :=
  match l with [] => Ok x | y :: t => z <- f x y ;; kfold f z t end.
Definition kreduce (r : kred) (l : list (tens K)) : res (tens K) :=
  match r, l with
  | KEl op, x :: y :: t => kfold (el2 op) x (y :: t)
  | KEl op, _ => Err AssertionError
  | KCat, x :: t => kfold cat2 x t
  | KCat, [] => Err RuntimeError
  end.
(** [nonempty] (container.py:99-106): None if an operand is None or has no batch entry. *)
Fixpoint all_some {A} (l : list (option A)) : option (list A) :=
  match l with
  | [] => Some []
  | Some a :: t => match all_some t with Some u => Some (a :: u) | None => None end
  | None :: _ => None
  end.
Definition no_batch (x : tens K) : bool := match sh x with 0 :: _ => true | _ => false end.
Definition kreduce_some (r : kred) (l : list (option (tens K))) : res (option (tens K)) :=
  match all_some l with
  | None => Ok None
  | Some xs => if existsb no_batch xs then Ok None else y <- kreduce r xs ;; Ok (Some y)
  end.

(** Modules with their states.  [KChan f] is a module of torch.nn that maps the entries of
    channel [c] by [f c] (activations, batch normalisation in evaluation mode, dropout in
    evaluation mode), wrapped by [forward_stepping] (convert.py:80-148).  [KLin] is
    [co.Linear(channel_dim=1)] (linear.py:79-97). *)
Inductive kmod :=
| KConv (c : tconv K) (o : obj (list (list K)))
| KPool (P : Pool K) (c : tpool) (o : obj (list K))
| KRnn (NK : Num K) (sig tnh : K -> K) (m : trnn K) (o : option (list (tens K)))
| KChan (f : nat -> K -> K)
| KLin (cin cout : nat) (w : list K) (b : option (list K))
| KDelay (d : nat) (fl : fill) (o : obj (list K))
| KSeq (ms : list kmod)
| KBR (r : kred) (ms : list kmod).

(** Channelwise map of a tensor of shape (B, C, *r). *)
Definition chan (f : nat -> K -> K) (x : tens K) : res (tens K) :=
  match sh x with
  | _ :: _ :: _ => Ok (T (sh x) (tab (sh x) (fun ix => f (nth 1 ix 0) (at_ (sh x) (dat x) (map Z.of_nat ix)))))
  | _ => Err RuntimeError
  end.

(** linear.py:79-97 with channel_dim=1. *)
Definition klin (cin cout : nat) (w : list K) (b : option (list K)) (x : tens K) : res (tens K) :=
  tl_forward 1 cin cout w b x.

(** delay.py:57-59 [_make_padding]; finf has no counterpart among the scalars: temporal_fill
    of a Delay is zeros or replicate. *)
Definition kfill (fl : fill) (x : list K) : list K := match fl with Zeros => zlike x | _ => x end.
(** delay.py:65-126, as in Leaf.v, without auto_shrink. *)
Definition kd_init (d : nat) (fl : fill) (x : list K) : obj (list K) :=
  Obj (repeat (kfill fl x) d) (- Z.of_nat d)%Z 0.
Definition kd_fstep (d : nat) (fl : fill) (x : list K) (prev : option (obj (list K)))
  : res (option (list K) * option (obj (list K))) :=
  if Nat.eqb d 0 then Ok (Some x, prev)
  else
    let st := match prev with None => kd_init d fl x | Some s => s end in
    output <- (if Z.leb 0 (o_idx st) then (y <- getz (o_buf st) (o_idx st) ;; Ok (Some y)) else Ok None) ;;
    buffer' <- setz (o_buf st) (o_idx st mod Z.of_nat d)%Z x ;;
    let ni := (o_idx st + 1)%Z in
    let ni := if Z.ltb 0 ni then (ni mod Z.of_nat d)%Z else ni in
    Ok (output, Some (Obj buffer' ni (o_str st))).
Definition kd_forward_step d fl (o : obj (list K)) (x : list K) (upd : bool) :=
  if Nat.eqb d 0 then Ok (Some x, o) else co_forward_step obj_get obj_set (kd_fstep d fl) o x upd.
Definition kd_forward_steps d fl (o : obj (list K)) (xs : list (list K)) (pe upd : bool) :=
  if Nat.eqb d 0 then Ok (Some xs, o)
  else co_forward_steps obj_get obj_set (kd_fstep d fl) (kfill fl) d o xs pe upd.

(** A frame or clip that a convolution or pooling takes: as many spatial dimensions as the
    kernel has; a convolution checks the channels. *)
Definition dims_ok {A} (sp ks : list A) : bool := Nat.eqb (length sp) (length ks).

(** ** forward (container.py:633-637, 890-896; apply_forward drops the hidden state) *)
Section Loops.
Variable fw : kmod -> tens K -> res (tens K).
Fixpoint kseq_fwd (ms : list kmod) (x : tens K) : res (tens K) :=
  match ms with [] => Ok x | m :: t => y <- fw m x ;; kseq_fwd t y end.
Fixpoint kbr_fwd (ms : list kmod) (x : tens K) : res (list (tens K)) :=
  match ms with [] => Ok [] | m :: t => y <- fw m x ;; ys <- kbr_fwd t x ;; Ok (y :: ys) end.

Variable st : kmod -> tens K -> res (option (tens K) * kmod).
(** container.py:639-648, 663-677: the loop stops at a None; the later modules are left
    as they are. *)
Fixpoint kseq_step (ms : list kmod) (x : tens K) : res (option (tens K) * list kmod) :=
  match ms with
  | [] => Ok (Some x, [])
  | m :: t =>
      '(y, m') <- st m x ;;
      match y with
      | Some y => '(z, t') <- kseq_step t y ;; Ok (z, m' :: t')
      | None => Ok (None, m' :: t)
      end
  end.
(** container.py:871-888: every branch gets the input. *)
Fixpoint kbr_step (ms : list kmod) (x : tens K) : res (list (option (tens K)) * list kmod) :=
  match ms with
  | [] => Ok ([], [])
  | m :: t => '(y, m') <- st m x ;; '(ys, t') <- kbr_step t x ;; Ok (y :: ys, m' :: t')
  end.
End Loops.

Fixpoint kfwd (m : kmod) (x : tens K) : res (tens K) :=
  match m with
  | KConv c _ =>
      match sh x with
      | B :: C :: t :: sp =>
          if Nat.eqb C (t_cin c) && dims_ok sp (t_ks c) then
            y <- t_forward B sp c t (dat x) ;;
            Ok (T (B :: t_cout c :: out_dims (t :: sp) (t_k c :: t_ks c) (t_s c :: t_ss c) (t_p c :: t_ps c) (1 :: t_ds c)) y)
          else Err RuntimeError
      | _ => Err RuntimeError
      end
  | KPool P c _ =>
      match sh x with
      | B :: C :: t :: sp =>
          if dims_ok sp (p_ks c) then
            y <- p_forward B C sp c t (dat x) ;;
            Ok (T (B :: C :: pool_out_dims (p_ceil c) (t :: sp) (p_k c :: p_ks c) (p_s c :: p_ss c) (p_p c :: p_ps c) (1 :: p_ds c)) y)
          else Err RuntimeError
      | _ => Err RuntimeError
      end
  | KRnn NK sig tnh n _ => '(y, _) <- r_forward sig tnh n x None ;; Ok y
  | KChan f => chan f x
  | KLin cin cout w b => klin cin cout w b x
  | KDelay _ _ _ => Ok x
  | KSeq ms => kseq_fwd kfwd ms x
  | KBR r ms =>
      ys <- kbr_fwd kfwd ms x ;;
      y <- kreduce_some r (map Some ys) ;;
      match y with Some y => Ok y | None => Err TypeError end    (* None is returned *)
  end.

(** ** forward_step(update_state=True) *)
Fixpoint kstep (m : kmod) (x : tens K) : res (option (tens K) * kmod) :=
  match m with
  | KConv c o =>
      match sh x with
      | B :: C :: sp =>
          if Nat.eqb C (t_cin c) && dims_ok sp (t_ks c) then
            '(y, o') <- t_forward_step B sp c o (dat x) true ;;
            Ok (option_map (T (B :: t_cout c :: t_osp sp c)) y, KConv c o')
          else Err RuntimeError
      | _ => Err RuntimeError
      end
  | KPool P c o =>
      match sh x with
      | B :: C :: sp =>
          if dims_ok sp (p_ks c) then
            '(y, o') <- p_forward_step B C sp c o (dat x) true ;;
            Ok (option_map (T (B :: C :: p_osp sp c)) y, KPool P c o')
          else Err RuntimeError
      | _ => Err RuntimeError
      end
  | KRnn NK sig tnh n o => '(y, o') <- r_forward_step sig tnh n o x true ;; Ok (Some y, KRnn NK sig tnh n o')
  | KChan f => y <- chan f x ;; Ok (Some y, m)
  | KLin cin cout w b => y <- klin cin cout w b x ;; Ok (Some y, m)
  | KDelay d fl o => '(y, o') <- kd_forward_step d fl o (dat x) true ;; Ok (option_map (T (sh x)) y, KDelay d fl o')
  | KSeq ms => '(y, ms') <- kseq_step kstep ms x ;; Ok (y, KSeq ms')
  | KBR r ms => '(ys, ms') <- kbr_step kstep ms x ;; y <- kreduce_some r ys ;; Ok (y, KBR r ms')
  end.

(** ** forward_steps(pad_end, update_state=True) on a clip *)
Fixpoint ksteps (pe : bool) (m : kmod) (x : tens K) : res (option (tens K) * kmod) :=
  match m with
  | KConv c o =>
      match sh x with
      | B :: C :: t :: sp =>
          if Nat.eqb C (t_cin c) && dims_ok sp (t_ks c) then
            '(y, o') <- t_forward_steps B sp c o (map dat (frames_of x)) pe true ;;
            Ok (match y with Some ys => clip_of (map (T (B :: t_cout c :: t_osp sp c)) ys) | None => None end, KConv c o')
          else Err RuntimeError
      | _ => Err RuntimeError
      end
  | KPool P c o =>
      match sh x with
      | B :: C :: t :: sp =>
          if dims_ok sp (p_ks c) then
            '(y, o') <- p_forward_steps B C sp c o (map dat (frames_of x)) pe true ;;
            Ok (match y with Some ys => clip_of (map (T (B :: C :: p_osp sp c)) ys) | None => None end, KPool P c o')
          else Err RuntimeError
      | _ => Err RuntimeError
      end
  | KRnn NK sig tnh n o => '(y, o') <- r_forward_steps sig tnh n o x pe true ;; Ok (Some y, KRnn NK sig tnh n o')
  | KChan f => y <- chan f x ;; Ok (Some y, m)
  | KLin cin cout w b => y <- klin cin cout w b x ;; Ok (Some y, m)
  | KDelay d fl o =>
      match sh x with
      | B :: C :: t :: sp =>
          if Nat.eqb d 0 then Ok (Some x, m)
          else
            '(y, o') <- kd_forward_steps d fl o (map dat (frames_of x)) pe true ;;
            Ok (match y with Some ys => clip_of (map (T (B :: C :: sp)) ys) | None => None end, KDelay d fl o')
      | _ => Err RuntimeError
      end
  | KSeq ms => '(y, ms') <- kseq_step (ksteps pe) ms x ;; Ok (y, KSeq ms')
  | KBR r ms => '(ys, ms') <- kbr_step (ksteps pe) ms x ;; y <- kreduce_some r ys ;; Ok (y, KBR r ms')
  end.

End TNet.
Arguments kmod K : clear implicits.
Arguments kred K : clear implicits.
