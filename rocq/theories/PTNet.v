(** C65: networks of tensor modules. *)
From Coq Require Import List ZArith Bool Arith Lia.
From Verif Require Import Base Attn Frames CoMod Leaf Spec LeafSpec Rnn Tensor TConv TConvSpec TPool TPoolSpec TAttn TRnn TRnnSpec
  TNet TNetSpec TNetProof TNetThm PTensor PTRnn.
Import ListNotations.

(** [forward] of a new network on a clip (B, C, t, *sp): the documented shape. *)
Theorem C65_forward_shape :
  forall (K : Type) (SC : Scal K) (SL : ScalLaws K) (m : kmod K) (B C t : nat) (sp : list nat) (X : tens K),
    1 <= B -> 1 <= t -> kok B m C sp -> kfits m t -> whole X -> sh X = B :: C :: t :: sp ->
    1 <= klen m t /\
    exists Y, kfwd m X = Ok Y /\ whole Y /\ sh Y = B :: fst (kout m C sp) :: klen m t :: snd (kout m C sp).
Proof. exact @net_forward_shape. Qed.
Print Assumptions C65_forward_shape.

(** The frames fed one by one: nothing for [delay] steps, then every [stride]-th step the
    next frame of what [forward] returns for the clip. *)
Theorem C65_step :
  forall (K : Type) (SC : Scal K) (SL : ScalLaws K) (m : kmod K) (B C t : nat) (sp : list nat) (X Y : tens K) (n : nat),
    1 <= B -> 1 <= t -> kok B m C sp -> kfits m t -> whole X -> sh X = B :: C :: t :: sp -> kfwd m X = Ok Y -> n <= t ->
    exists m', feed kstep m (firstn n (frames_of X)) =
               Ok (map (fun i => if emits (kdel m) (kstr m) i then nth_error (frames_of Y) ((i - kdel m) / kstr m) else None) (seq 0 n), m').
Proof. intros K SC SL m B C t sp X; intros. apply (net_step m B C t sp X); assumption. Qed.
Print Assumptions C65_step.

(** Every frame of forward's output is reached, or will be once [delay] further frames have come. *)
Theorem C65_reach :
  forall (K : Type) (SC : Scal K) (SL : ScalLaws K) (m : kmod K) (B C t : nat) (sp : list nat) (X Y : tens K),
    1 <= B -> 1 <= t -> kok B m C sp -> kfits m t -> whole X -> sh X = B :: C :: t :: sp -> kfwd m X = Ok Y ->
    length (frames_of Y) = klen m t /\ 1 <= kstr m /\ t <= kdel m + kstr m * length (frames_of Y).
Proof. intros K SC SL m B C t sp X; intros. apply (net_reach m B C t sp X); assumption. Qed.
Print Assumptions C65_reach.

(** [forward_steps] without padding on the first [n] frames: the outputs of the [n] steps
    stacked, None if there are none, and the same state afterwards. *)
Theorem C65_steps_no_pad :
  forall (K : Type) (SC : Scal K) (SL : ScalLaws K) (m : kmod K) (B C t : nat) (sp : list nat) (X : tens K),
    1 <= B -> 1 <= t -> kok B m C sp -> kfits m t -> whole X -> sh X = B :: C :: t :: sp ->
    exists ys m', feed kstep m (frames_of X) = Ok (ys, m') /\ ksteps false m X = Ok (clip_of (somes ys), m').
Proof. exact @net_no_pad. Qed.
Print Assumptions C65_steps_no_pad.

(** A clip given at once, then single frames: as if all frames had come one by one. *)
Theorem C65_clip_then_frames :
  forall (K : Type) (SC : Scal K) (SL : ScalLaws K) (m : kmod K) (B C t : nat) (sp : list nat) (X Y : tens K) (n : nat) (X1 : tens K),
    1 <= B -> 1 <= t -> kok B m C sp -> kfits m t -> whole X -> sh X = B :: C :: t :: sp -> kfwd m X = Ok Y ->
    1 <= n <= t -> clip_of (firstn n (frames_of X)) = Some X1 ->
    exists m1 m2, ksteps false m X1 =
        Ok (clip_of (somes (map (fun i => if emits (kdel m) (kstr m) i then nth_error (frames_of Y) ((i - kdel m) / kstr m) else None) (seq 0 n))), m1) /\
      feed kstep m1 (skipn n (frames_of X)) =
        Ok (map (fun i => if emits (kdel m) (kstr m) i then nth_error (frames_of Y) ((i - kdel m) / kstr m) else None) (seq n (t - n)), m2).
Proof. intros K SC SL m B C t sp X; intros. apply (net_clip_then m B C t sp X); assumption. Qed.
Print Assumptions C65_clip_then_frames.

(** [forward_steps] with padding at the end of a new network is [forward]. *)
Theorem C65_pad_end :
  forall (K : Type) (SC : Scal K) (SL : ScalLaws K) (m : kmod K) (B C t : nat) (sp : list nat) (X : tens K),
    1 <= B -> 1 <= t -> kok B m C sp -> kfits m t -> whole X -> sh X = B :: C :: t :: sp ->
    exists Y m', kfwd m X = Ok Y /\ ksteps true m X = Ok (Some Y, m').
Proof. exact @net_pad_end. Qed.
Print Assumptions C65_pad_end.

(* ------------------------------------------------------------------ *)
(** ** Examples over the integers; pooling sums *)

Definition ZSum : Pool Z := {|
  pe := 0%Z; pop := Z.add; pscale := fun _ a => a; pz := 0%Z; pninf := 0%Z; pmode_ := Zeros |}.
#[local] Instance ZSumLaws : @PoolLaws Z ZSum.
Proof. constructor; try reflexivity; [exact Z.add_comm|exact Z.add_assoc]. Qed.

Definition ex_conv (cin cout k s p ks ps ds : nat) (d : nat) : tconv Z :=
  {| t_cin := cin; t_cout := cout; t_g := 1; t_k := k; t_ks := repeat ks d; t_s := s; t_ss := repeat 1 d; t_p := p; t_ps := repeat ps d;
     t_ds := repeat ds d; t_w := map (fun i => Z.of_nat (i * i mod 5) - 2)%Z (seq 1 (cin * cout * k * (if Nat.eqb d 0 then 1 else ks)));
     t_b := Some (map Z.of_nat (seq 1 cout)); t_mode := Zeros; t_fill := Zeros |}.
Definition ex_sum (k s : nat) (d : nat) : tpool :=
  {| p_k := k; p_ks := repeat 2 d; p_s := s; p_ss := repeat 1 d; p_p := 0; p_ps := repeat 0 d; p_ds := repeat 1 d;
     p_ceil := false; p_cip := true; p_div := None; p_sdiv := None; p_fill := Zeros |}.

(** Sequential(Residual(conv), BroadcastReduce(conv1, ReLU, "concat"), pool, Linear): two
    samples, two channels, frames of three positions. *)
Definition ex_net : kmod Z :=
  KSeq [ KBR (KEl Z.add) [KConv (ex_conv 2 2 3 1 1 2 1 2 1) obj_init; KDelay 1 Zeros obj_init];
         KBR KCat [KConv (ex_conv 2 1 1 1 0 1 0 1 1) obj_init; KChan (fun _ => Z.max 0)];
         KPool ZSum (ex_sum 3 2 1) obj_init;
         KLin 3 2 [1; -1; 2; 0; 3; 1]%Z (Some [5; -5]%Z) ].
Definition ex_X : tens Z := T [2; 2; 7; 3] (map (fun i => Z.of_nat (i * i mod 17) - 6)%Z (seq 0 84)).

(** Sequential(conv, GRU). *)
Definition ex_net2 : kmod Z :=
  KSeq [KConv (ex_conv 2 2 2 1 0 1 0 1 0) obj_init; KRnn NumZ zs zt ex_gru None].

Lemma ex_net_ok : kok 2 ex_net 2 [3] /\ kfits ex_net 7 /\ whole ex_X.
Proof.
  assert (A : tconv_ok 2 [3] (ex_conv 2 2 3 1 1 2 1 2 1)) by (constructor; cbn; auto with arith; discriminate).
  assert (A' : tconv_ok 2 [3] (ex_conv 2 1 1 1 0 1 0 1 1)) by (constructor; cbn; auto with arith; discriminate).
  assert (P : @tpool_ok _ ZSum [3] (ex_sum 3 2 1)) by (constructor; cbn; auto with arith).
  split; [|split].
  - cbn. repeat match goal with |- _ /\ _ => split end; try (reflexivity || exact I || assumption || discriminate || exact ZSumLaws).
    all: constructor; [|constructor]; split; [reflexivity|]; split; [reflexivity|]; split; [|reflexivity].
    all: intros n Hn _ _; match goal with |- _ = fst (Nat.divmod ?a 0 0 0) + 1 => change (fst (Nat.divmod a 0 0 0)) with (a / 1) end; rewrite Nat.div_1_r; cbn [klen]; lia.
  - cbn. repeat split; lia.
  - reflexivity.
Qed.
Lemma ex_net2_ok : kok 2 ex_net2 2 [] /\ kfits ex_net2 3 /\ whole ex_x.
Proof.
  split; [|split].
  - cbn. split; [|split; [|exact I]].
    + split; [reflexivity|]. split; [reflexivity|]. constructor; cbn; auto with arith; discriminate.
    + repeat match goal with |- _ /\ _ => split end; try (reflexivity || exact NumZLaws || (cbn; lia)). exists ex_W. apply ex_has.
  - cbn. repeat split; lia.
  - reflexivity.
Qed.

(** Outputs at steps 3 and 5. *)
Example C65_step_ex :
  kdel ex_net = 3 /\ kstr ex_net = 2 /\ klen ex_net 7 = 3 /\ kout ex_net 2 [3] = (2, [2]) /\
  match kfwd ex_net ex_X, feed kstep ex_net (frames_of ex_X) with
  | Ok Y, Ok (ys, _) =>
      sh Y = [2; 2; 3; 2] /\
      match ys with
      | [None; None; None; Some y0; None; Some y1; None] => frames_of Y = [y0; y1; nth 2 (frames_of Y) y0] /\ y0 <> y1 /\ length (nodup Z.eq_dec (dat Y)) = 23
      | _ => False
      end
  | _, _ => False
  end.
Proof. vm_compute. repeat split; discriminate. Qed.
Example C65_pad_end_ex :
  match kfwd ex_net ex_X, ksteps true ex_net ex_X with
  | Ok Y, Ok (Some Y', _) => Y = Y' /\ length (frames_of Y) = 3
  | _, _ => False
  end.
Proof. vm_compute. repeat split; discriminate. Qed.
Example C65_no_pad_ex :
  match ksteps false ex_net ex_X, feed kstep ex_net (frames_of ex_X) with
  | Ok (Some Y', m1), Ok (_, m2) => m1 = m2 /\ length (frames_of Y') = 2 /\ m1 <> ex_net
  | _, _ => False
  end.
Proof. vm_compute. repeat split; discriminate. Qed.
(** Two frames at once give nothing; the rest one by one. *)
Example C65_clip_then_frames_ex :
  match clip_of (firstn 2 (frames_of ex_X)) with
  | Some X1 => match ksteps false ex_net X1 with
    | Ok (None, m1) => match feed kstep m1 (skipn 2 (frames_of ex_X)) with
      | Ok ([None; Some _; None; Some _; None], _) => True | _ => False end
    | _ => False end
  | None => False
  end.
Proof. vm_compute. exact I. Qed.
(** A convolution before a recurrent module: the first output one step late. *)
Example C65_rnn_ex :
  kdel ex_net2 = 1 /\ klen ex_net2 3 = 2 /\
  match kfwd ex_net2 ex_x, feed kstep ex_net2 (frames_of ex_x) with
  | Ok Y, Ok ([None; Some y0; Some y1], _) => sh Y = [2; 2; 2] /\ frames_of Y = [y0; y1] /\ y0 <> y1
  | _, _ => False
  end.
Proof. vm_compute. repeat split; discriminate. Qed.
