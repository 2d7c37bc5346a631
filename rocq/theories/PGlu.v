(** C88: nn.GLU converted as it is. *)
From Coq Require Import List ZArith Bool Arith Lia.
From Verif Require Import Base Tensor TensorProof PTensor Axis AxisProof Glu GluProof.
Import ListNotations.
Open Scope nat_scope.

(** What the module computes, entry by entry, for a dimension of size 2 * n. *)
Theorem C88_entry :
  forall (K : Type) (SC : Scal K) h dim d sh (x : list K) ix n,
    dimension (length sh) dim = Ok d -> nth d sh 0 = 2 * n -> inr ix (upd d n sh) ->
    exists y, glu h dim sh x = Ok (upd d n sh, y) /\ length y = size (upd d n sh)
      /\ at_ (upd d n sh) y (map Z.of_nat ix)
         = h (at_ sh x (map Z.of_nat ix)) (at_ sh x (map Z.of_nat (firstn d ix ++ (nth d ix 0 + n) :: skipn (S d) ix))).
Proof. intros. apply glu_entry; assumption. Qed.
Print Assumptions C88_entry.

(** Along a dimension other than time: forward and forward_step both raise for odd sizes, and else the
    steps return the frames of forward, of half the size. *)
Theorem C88_other_dimensions :
  forall (K : Type) (SC : Scal K) B C T sp h dim d (X : list K) n,
    dimension (3 + length sp) dim = Ok d -> d <> 2 -> n = nth d (B :: C :: T :: sp) 0 ->
    if Nat.odd n then
      glu h dim (B :: C :: T :: sp) X = Err RuntimeError /\ forall x, glu h dim (B :: C :: 1 :: sp) x = Err RuntimeError
    else
      let '(B', C', sp') := sizes B C sp d (n / 2) in
      exists y, glu h dim (B :: C :: T :: sp) X = Ok (B' :: C' :: T :: sp', y)
        /\ forall t, t < T -> glu h dim (B :: C :: 1 :: sp) (slice2 B C T sp X t) = Ok (B' :: C' :: 1 :: sp', slice2 B' C' T sp' y t).
Proof. intros. apply glu_slice; assumption. Qed.
Print Assumptions C88_other_dimensions.

(** Along time, forward works on clips of even length and every step raises.  This is the default
    (dim=-1) on clips without space. *)
Theorem C88_time_refuted :
  forall (K : Type) (SC : Scal K) B C n sp h dim (X : list K),
    dimension (3 + length sp) dim = Ok 2 ->
    (exists y, glu h dim (B :: C :: 2 * n :: sp) X = Ok (B :: C :: n :: sp, y))
    /\ forall x, glu h dim (B :: C :: 1 :: sp) x = Err RuntimeError.
Proof.
  intros K SC B C n sp h dim X Hd. split; [|intros; apply glu_time; exact Hd].
  unfold glu. cbn [length]. cbn [plus] in Hd. rewrite Hd. cbn [bind nth].
  replace (Nat.odd (2 * n)) with false by (symmetry; rewrite Nat.odd_mul; reflexivity).
  replace (2 * n / 2) with n by (rewrite Nat.mul_comm, Nat.div_mul; lia). eexists. reflexivity.
Qed.
Print Assumptions C88_time_refuted.
Theorem C88_default_refuted :
  forall (K : Type) (SC : Scal K) B C n h (X x : list K),
    (exists y, glu h (-1) [B; C; 2 * n] X = Ok ([B; C; n], y)) /\ glu h (-1) [B; C; 1] x = Err RuntimeError.
Proof. intros K SC B C n h X x. destruct (C88_time_refuted K SC B C n [] h (-1)%Z X eq_refl) as [H1 H2]. split; [exact H1|apply H2]. Qed.
Print Assumptions C88_default_refuted.

(** Concrete instances, with a * (b + 1) for the product with the sigmoid. *)
Definition ex_h (a b : Z) : Z := (a * (b + 1))%Z.
Example C88_example :
  glu ex_h 1 [1; 2; 3] [1; 2; 3; 4; 5; 6]%Z = Ok ([1; 1; 3], [5; 12; 21]%Z)
  /\ glu ex_h 1 [1; 2; 1] (slice2 1 2 3 [] [1; 2; 3; 4; 5; 6]%Z 1) = Ok ([1; 1; 1], [12]%Z)
  /\ glu ex_h (-1) [1; 2; 2] [1; 2; 3; 4]%Z = Ok ([1; 2; 1], [3; 15]%Z)
  /\ glu ex_h (-1) [1; 2; 1] [1; 3]%Z = Err RuntimeError
  /\ glu ex_h (-1) [1; 1; 2; 4] [1; 2; 3; 4; 5; 6; 7; 8]%Z = Ok ([1; 1; 2; 2], [4; 10; 40; 54]%Z)
  /\ glu ex_h 4 [1; 2; 1] [1; 3]%Z = Err IndexError.
Proof. vm_compute. repeat split; reflexivity. Qed.
