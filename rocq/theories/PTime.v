(** Property C52: restarting a network in the middle of a stream. *)
From Coq Require Import List ZArith Bool Arith Lia.
From Verif Require Import Base Frames CoMod Leaf Rnn Net Spec LeafSpec NetSpec Calls NetDef.
From Verif Require Import NetThm NetShift ZFrames ZNets.
Import ListNotations.

(** C52.  Two copies of a new network see the same frames [b], after prefixes
    of any content whose lengths differ by a multiple of the stride.  From frame
    [receptive_field - 1] of [b] on their steps return the same. *)
Theorem C52_time_shift :
  forall (F : Type) (FA : Frames F) (FL : FrameLaws F) (sh : bool) (m : md F) (a a' b : list F) (q : nat),
    net sh m -> rnn_free m ->
    Z.of_nat (length a') = (Z.of_nat (length a) + Z.of_nat q * strd m)%Z ->
    exists us ys m1 us' ys' m1',
      feed (nstep true) m (a ++ b) = Ok (us ++ ys, m1) /\ length us = length a /\
      feed (nstep true) m (a' ++ b) = Ok (us' ++ ys', m1') /\ length us' = length a' /\
      skipn (Z.to_nat (rfield m - 1)) ys = skipn (Z.to_nat (rfield m - 1)) ys'.
Proof. exact @net_restart. Qed.
Print Assumptions C52_time_shift.

(** In particular clean_state after a multiple of the stride is forgotten after
    [receptive_field - 1] further frames. *)
Theorem C52_clean_mid_stream :
  forall (F : Type) (FA : Frames F) (FL : FrameLaws F) (sh : bool) (m : md F) (a b : list F) (q : nat),
    net sh m -> rnn_free m -> Z.of_nat (length a) = (Z.of_nat q * strd m)%Z ->
    exists us m1 ys m2 ys' m2',
      feed (nstep true) m a = Ok (us, m1) /\
      feed (nstep true) m1 b = Ok (ys, m2) /\ feed (nstep true) (clean m1) b = Ok (ys', m2') /\
      skipn (Z.to_nat (rfield m - 1)) ys = skipn (Z.to_nat (rfield m - 1)) ys'.
Proof. exact @net_clean_mid. Qed.
Print Assumptions C52_clean_mid_stream.

(** At any other moment the two never return a frame at the same step. *)
Theorem C52_phase :
  forall (F : Type) (FA : Frames F) (sh : bool) (m : md F) (a b : list F) us m1 ys m2 ys' m2' k y y',
    net sh m -> feed (nstep true) m a = Ok (us, m1) ->
    feed (nstep true) m1 b = Ok (ys, m2) -> feed (nstep true) (clean m1) b = Ok (ys', m2') ->
    nth_error ys k = Some (Some y) -> nth_error ys' k = Some (Some y') ->
    exists q, Z.of_nat (length a) = (Z.of_nat q * strd m)%Z.
Proof. exact @net_phase. Qed.
Print Assumptions C52_phase.

(** The bound is sharp, and recurrent modules never forget the restart. *)
Theorem C52_bound_sharp :
  exists (m : md Z) (a b : list Z) us m1 ys m2 ys' m2',
    net true m /\ rnn_free m /\ Z.of_nat (length a) = (3 * strd m)%Z /\
    feed (nstep true) m a = Ok (us, m1) /\
    feed (nstep true) m1 b = Ok (ys, m2) /\ feed (nstep true) (clean m1) b = Ok (ys', m2') /\
    skipn (Z.to_nat (rfield m - 2)) ys <> skipn (Z.to_nat (rfield m - 2)) ys'.
Proof.
  exists ex_net, [1; 2; 3; 4; 5; 6]%Z, [7; 8; 9; 9; 9; 9; 9; 9]%Z. do 6 eexists.
  split; [apply ex_net_net|]. split; [cbn; tauto|]. split; [reflexivity|].
  split; [runs|]. split; [runs|]. split; [runs|]. vm_compute. discriminate.
Qed.
Print Assumptions C52_bound_sharp.

Theorem C52_rnn_refuted :
  exists (m : md Z) (a b : list Z) us m1 ys m2 ys' m2',
    net true m /\ Z.of_nat (length a) = (1 * strd m)%Z /\
    feed (nstep true) m a = Ok (us, m1) /\
    feed (nstep true) m1 b = Ok (ys, m2) /\ feed (nstep true) (clean m1) b = Ok (ys', m2') /\
    skipn (Z.to_nat (rfield m - 1)) ys <> skipn (Z.to_nat (rfield m - 1)) ys'.
Proof.
  exists zrnn, [1]%Z, [3; 3; 3; 3]%Z. do 6 eexists.
  split; [constructor|]. split; [reflexivity|]. split; [runs|]. split; [runs|]. split; [runs|]. vm_compute. discriminate.
Qed.
Print Assumptions C52_rnn_refuted.

Example C52_example :
  net true ex_net /\ rnn_free ex_net /\ rfield ex_net = 8%Z /\ strd ex_net = 2%Z /\
  exists us m1 m2 m3,
    feed (nstep true) ex_net [1; 2]%Z = Ok (us, m1) /\
    feed (nstep true) m1 [3; 4; 5; 6; 7; 8; 9; 9; 9; 9]%Z =
      Ok ([None; None; Some 18669; None; Some 33750; None; Some 48534; None; Some 61385; None]%Z, m2) /\
    feed (nstep true) (clean m1) [3; 4; 5; 6; 7; 8; 9; 9; 9; 9]%Z =
      Ok ([None; None; None; None; Some 32537; None; Some 48532; None; Some 61385; None]%Z, m3).
Proof.
  split; [apply ex_net_net|]. split; [cbn; tauto|]. split; [reflexivity|]. split; [reflexivity|]. runs.
Qed.
