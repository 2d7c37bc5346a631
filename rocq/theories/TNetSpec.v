(** Shapes, lengths and timing of networks of tensor modules, read off the constructor
    arguments. *)
From Coq Require Import List ZArith Bool Arith.
From Verif Require Import Base Attn Frames CoMod Tensor TConv TConvSpec TPool TPoolSpec TAttn TRnn TRnnSpec TNet.
Import ListNotations.

Section TNetSpec.
Context {K : Type} {SC : Scal K}.

(** A tensor has as many entries as its shape says. *)
Definition whole (x : tens K) : Prop := length (dat x) = size (sh x).

(** Channels and spatial size of the output, for an input with [C] channels and spatial
    size [sp]. *)
Fixpoint kout (m : kmod K) (C : nat) (sp : list nat) : nat * list nat :=
  match m with
  | KConv c _ => (t_cout c, out_dims sp (t_ks c) (t_ss c) (t_ps c) (t_ds c))
  | KPool _ c _ => (C, pool_out_dims (p_ceil c) sp (p_ks c) (p_ss c) (p_ps c) (p_ds c))
  | KRnn _ _ _ n _ => (out_size n, [])
  | KChan _ | KDelay _ _ _ => (C, sp)
  | KLin _ cout _ _ => (cout, sp)
  | KSeq ms => fold_left (fun s m => kout m (fst s) (snd s)) ms (C, sp)
  | KBR (KEl _) (m :: _) => kout m C sp
  | KBR KCat (m :: t) =>
      (fst (kout m C sp) + fold_right (fun m a => fst (kout m C sp) + a) 0 t, snd (kout m C sp))
  | KBR _ [] => (C, sp)
  end.

(** Number of frames that forward returns for a clip of [t] frames. *)
Fixpoint klen (m : kmod K) (t : nat) : nat :=
  match m with
  | KConv c _ => (t + 2 * t_p c - t_k c) / t_s c + 1
  | KPool _ c _ => (t + 2 * p_p c - p_k c) / p_s c + 1
  | KSeq ms => fold_left (fun t m => klen m t) ms t
  | KBR _ (m :: _) => klen m t
  | _ => t
  end.

(** The clip is long enough for every kernel. *)
Fixpoint kfits (m : kmod K) (t : nat) : Prop :=
  match m with
  | KConv c _ => t_k c <= t + 2 * t_p c
  | KPool _ c _ => p_k c <= t + 2 * p_p c
  | KSeq ms => (fix go ms t := match ms with [] => True | m :: r => kfits m t /\ go r (klen m t) end) ms t
  | KBR _ ms => fold_right (fun m Q => kfits m t /\ Q) True ms
  | _ => True
  end.

(** Delay and stride: outputs come at steps delay, delay + stride, ... *)
Fixpoint kstr (m : kmod K) : nat :=
  match m with
  | KConv c _ => t_s c
  | KPool _ c _ => p_s c
  | KSeq ms => fold_right (fun m a => kstr m * a) 1 ms
  | KBR _ (m :: _) => kstr m
  | _ => 1
  end.
Fixpoint kdel (m : kmod K) : nat :=
  match m with
  | KConv c _ => t_k c - 1 - t_p c
  | KPool _ c _ => p_k c - 1 - p_p c
  | KDelay d _ _ => d
  | KSeq ms => fold_right (fun m a => kdel m + kstr m * a) 0 ms
  | KBR _ (m :: _) => kdel m
  | _ => 0
  end.

(** A newly built network for batches of size [B] with [C] channels and spatial size [sp]:
    the hypotheses of C55, C56 and C62 on the leaves, matching shapes, and branches with
    the same delay, stride and number of output frames for every clip that fits them. *)
Fixpoint kok (B : nat) (m : kmod K) (C : nat) (sp : list nat) : Prop :=
  match m with
  | KConv c o => o = obj_init /\ C = t_cin c /\ tconv_ok B sp c
  | KPool P c o => o = obj_init /\ PoolLaws K /\ p_ceil c = false /\ tpool_ok sp c
  | KRnn NK _ _ n o =>
      o = None /\ NumLaws K /\ sp = [] /\ C = n_in n /\ n_bidir n = false /\ n_bf n = true /\ 0 < n_L n /\
      proj_ok n /\ exists W, has_weights n W
  | KChan _ => True
  | KLin cin _ _ _ => C = cin
  | KDelay _ _ o => o = obj_init
  | KSeq ms =>
      (fix go ms C sp := match ms with
                         | [] => True
                         | m :: r => kok B m C sp /\ go r (fst (kout m C sp)) (snd (kout m C sp))
                         end) ms C sp
  | KBR r ms =>
      fold_right (fun m Q => kok B m C sp /\ Q) True ms /\
      match ms with
      | [] => False
      | m :: t =>
          Forall (fun m' => kdel m' = kdel m /\ kstr m' = kstr m /\ (forall n, 1 <= n -> kfits m n -> kfits m' n -> klen m' n = klen m n) /\
                            match r with
                            | KEl _ => kout m' C sp = kout m C sp
                            | KCat => snd (kout m' C sp) = snd (kout m C sp)
                            end) t /\
          match r with KEl _ => t <> [] | KCat => True end
      end
  end.

End TNetSpec.
