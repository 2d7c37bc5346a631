(** Property C60: adaptive pooling modules on whole tensors. *)
From Coq Require Import List ZArith Bool Arith Lia QArith Qcanon.
From Verif Require Import Base Frames CoMod Spec Tensor TPool TPoolSpec AdPool AdPoolSpec AdPoolProof AdEntry PTPool.
Import ListNotations.
Close Scope Qc_scope. Close Scope Q_scope. Open Scope nat_scope.

(** C60.  Whatever frames are fed to a new module without temporal padding: step [m]
    returns what [forward] returns for the last [k] frames alone, on the schedule that
    the reported delay and the stride give; otherwise None. *)
Theorem C60_window :
  forall (K : Type) (P : Pool K) (PL : PoolLaws K) (B C : nat) (sp : list nat) (c : adp), adp_ok sp c ->
  ad_delay c = a_k c - 1 /\
  forall xs : list (list K), Forall (fun x => length x = size (B :: C :: sp)) xs ->
  exists os o,
    feed (fun o x => ad_forward_step B C sp c o x true) obj_init xs = Ok (os, o) /\ length os = length xs /\
    forall m, m < length xs -> pools_last B C sp c xs m (nth m os None).
Proof.
  intros K P PL B C sp c OK. split; [|exact (ad_window B C sp c OK)].
  destruct OK. unfold ad_delay, ad_rf. lia.
Qed.
Print Assumptions C60_window.

(** The same for [forward_steps] on a clip of at least [k] frames; pad_end makes no
    difference. *)
Theorem C60_steps :
  forall (K : Type) (P : Pool K) (PL : PoolLaws K) (B C : nat) (sp : list nat) (c : adp), adp_ok sp c ->
  forall (xs : list (list K)) (pend : bool), Forall (fun x => length x = size (B :: C :: sp)) xs -> a_k c <= length xs ->
  exists ys o,
    ad_forward_steps B C sp c obj_init xs pend true = Ok (Some ys, o) /\
    length ys = (length xs - a_k c) / a_s c + 1 /\
    forall j, j < length ys -> pools_from B C sp c xs (j * a_s c) (nth j ys []).
Proof. exact @ad_steps. Qed.
Print Assumptions C60_steps.

(** For clips of exactly kernel_size frames [forward_steps] and [forward] agree: the
    assertion in the documentation of the four classes. *)
Theorem C60_clip :
  forall (K : Type) (P : Pool K) (PL : PoolLaws K) (B C : nat) (sp : list nat) (c : adp), adp_ok sp c ->
  forall (X : list K) (pend : bool), length X = size (B :: C :: a_k c :: sp) ->
  exists Y y o,
    ad_forward B C sp c (a_k c) X = Ok Y /\
    ad_forward_steps B C sp c obj_init (pin_frames B C sp (a_k c) X (seq 0 (a_k c))) pend true = Ok (Some [y], o) /\
    stack2 B C (a_out c) [y] = Y.
Proof. exact @ad_clip. Qed.
Print Assumptions C60_clip.

(** For no longer clip that holds a second window they agree: [forward] pools the
    whole clip in time, whatever kernel_size and stride are. *)
Theorem C60_longer_clip_refuted :
  forall (K : Type) (P : Pool K) (PL : PoolLaws K) (B C : nat) (sp : list nat) (c : adp), adp_ok sp c ->
  forall (T : nat) (X : list K) (pend : bool), a_k c + a_s c <= T -> 1 <= size (B :: C :: a_out c) ->
  exists Y ys o,
    ad_forward B C sp c T X = Ok Y /\
    ad_forward_steps B C sp c obj_init (pin_frames B C sp T X (seq 0 T)) pend true = Ok (Some ys, o) /\
    length Y = size (B :: C :: 1 :: a_out c) /\ 2 <= length ys /\ stack2 B C (a_out c) ys <> Y.
Proof. exact @ad_clip_longer. Qed.
Print Assumptions C60_longer_clip_refuted.

(** The constructors take no other temporal output size than 1. *)
Theorem C60_constructor :
  forall (out : list nat) (k s p : nat) (fl : fill),
  (exists osp, out = 1 :: osp /\ 1 <= k /\
     ad_new out k s p fl = Ok {| a_out := osp; a_k := k; a_s := s; a_p := p; a_fill := fl |}) \/
  ((hd_error out <> Some 1 \/ k = 0) /\ ad_new out k s p fl = Err AssertionError).
Proof. exact ad_new_spec. Qed.
Print Assumptions C60_constructor.

(** Each entry that [forward] returns pools every position that overlaps with it, once. *)
Theorem C60_forward_entry :
  forall (K : Type) (P : Pool K) (B C : nat) (sp : list nat) (c : adp), length (a_out c) = length sp ->
  forall (T : nat) (X Y : list K), ad_forward B C sp c T X = Ok Y ->
  forall b ch q, b < B -> ch < C -> Forall2 lt q (a_out c) ->
  exists ps, NoDup ps /\ (forall r, In r ps <-> overlap (T :: sp) (1 :: a_out c) (0 :: q) r) /\
    (forall r, In r ps -> Forall2 lt r (T :: sp)) /\
    at_ (B :: C :: 1 :: a_out c) Y (map Z.of_nat (b :: ch :: 0 :: q)) =
      pscale (length ps) (ksum (map (fun r => at_ (B :: C :: T :: sp) X (map Z.of_nat (b :: ch :: r))) ps)).
Proof. exact @ad_forward_entry. Qed.
Print Assumptions C60_forward_entry.

(* ------------------------------------------------------------------ *)

(** Five positions pooled to two: windows 0..2 and 2..4 overlap. *)
Definition ex_ad (d2 : bool) (p : nat) (f : fill) : adp :=
  {| a_out := if d2 then [2] else [2; 3]; a_k := 3; a_s := 2; a_p := p; a_fill := f |}.
Definition ex_asp (d2 : bool) : list nat := if d2 then [5] else [5; 2].
Definition ex_zd (n : nat) : list (option Z) := map (fun i => Some (Z.of_nat (i * 37 mod 101) - 90)%Z) (seq 0 n).
Lemma ex_ad_ok d2 f : adp_ok (ex_asp d2) (ex_ad d2 0 f).
Proof. destruct d2; constructor; cbn; auto with arith. Qed.

Example C60_windows_ex : map (ad_start 5 2) [0; 1] = [0; 2] /\ map (ad_stop 5 2) [0; 1] = [3; 5] /\
  map (ad_start 2 3) [0; 1; 2] = [0; 0; 1] /\ map (ad_stop 2 3) [0; 1; 2] = [1; 2; 2].
Proof. repeat split; reflexivity. Qed.

Example C60_forward_entry_ex :
  overlap [3; 5] [1; 2] [0; 0] [2; 2] /\ overlap [3; 5] [1; 2] [0; 1] [2; 2] /\ ~ overlap [3; 5] [1; 2] [0; 1] [2; 1].
Proof.
  split; [repeat constructor|split; [repeat constructor|]].
  intros H. inversion H; subst. match goal with O : overlap [5] _ _ _ |- _ => inversion O; subst end. lia.
Qed.

Example C60_constructor_ex :
  ad_new [1; 2; 3] 3 2 0 Zeros = Ok (ex_ad false 0 Zeros) /\ ad_new [2; 2] 3 1 0 Zeros = Err AssertionError.
Proof. split; reflexivity. Qed.

(** Six frames, batch of 1, 2 channels: outputs at steps 2 and 4. *)
Example C60_window_max_ex :
  let xs := pin_frames 1 2 [5; 2] 6 (ex_zd 120) (seq 0 6) in
  adp_ok [5; 2] (ex_ad false 0 Zeros) /\ Forall (fun x => length x = 20) xs /\
  exists a b o, feed (fun o x => ad_forward_step 1 2 [5; 2] (ex_ad false 0 Zeros) o x true) obj_init xs
    = Ok ([None; None; Some a; None; Some b; None], o) /\
    a = [Some (-10); Some (-6); Some (-6); Some 4; Some 7; Some 7; Some 9; Some 9; Some (-8); Some 2; Some 5; Some 5]%Z /\
    exists Y, ad_forward 1 2 [5; 2] (ex_ad false 0 Zeros) 3 (stack2 1 2 [5; 2] (firstn 3 (skipn 2 xs))) = Ok Y /\ Y = b.
Proof.
  cbv zeta. split; [apply (ex_ad_ok false)|]. split; [vm_compute; repeat constructor|].
  do 3 eexists. split; [vm_compute; reflexivity|]. split; [reflexivity|]. eexists. split; [vm_compute; reflexivity|]. reflexivity.
Qed.

Example C60_clip_avg_ex :
  exists Y, ad_forward 1 2 [5] (ex_ad true 0 Zeros) 3 (ex_qs 30) = Ok Y /\ nums Y = [(55, 9); (103, 9); (79, 9); (55, 9)]%Z.
Proof.
  unfold ad_forward, adpool. match goal with |- exists Y, (if ?b then _ else _) = _ /\ _ => change b with true end. cbv iota.
  eexists. split; [reflexivity|]. vm_compute. reflexivity.
Qed.

Example C60_steps_ex :
  exists ys o, ad_forward_steps 1 2 [5] (ex_ad true 0 Zeros) obj_init (pin_frames 1 2 [5] 6 (ex_zd 60) (seq 0 6)) true true = Ok (Some ys, o) /\
    ys = [[Some (-6); Some 4; Some 10; Some 3]; [Some (-3); Some 7; Some (-4); Some 6]]%Z.
Proof. do 2 eexists. split; [vm_compute; reflexivity|]. reflexivity. Qed.

(** With temporal padding the clip of kernel_size frames gives more than one output:
    [forward] does not pad. *)
Theorem C60_padding_refuted :
  exists (c : adp) B C sp (X Y : list (option Z)) ys o,
    adp_ok sp {| a_out := a_out c; a_k := a_k c; a_s := a_s c; a_p := 0; a_fill := a_fill c |} /\ a_p c = 1 /\
    a_fill c = NegInf /\ length X = size (B :: C :: a_k c :: sp) /\
    ad_forward B C sp c (a_k c) X = Ok Y /\
    ad_forward_steps B C sp c obj_init (pin_frames B C sp (a_k c) X (seq 0 (a_k c))) true true = Ok (Some ys, o) /\
    stack2 B C (a_out c) ys <> Y.
Proof.
  exists (ex_ad true 1 NegInf), 1, 2, [5], (ex_zd 30). do 3 eexists.
  split; [apply (ex_ad_ok true)|]. split; [reflexivity|]. split; [reflexivity|]. split; [reflexivity|].
  split; [vm_compute; reflexivity|]. split; [vm_compute; reflexivity|]. vm_compute. discriminate.
Qed.
Print Assumptions C60_padding_refuted.
