(** C69: Linear and Reshape on tensors of any rank. *)
From Coq Require Import List ZArith Bool Arith Lia.
From Verif Require Point.
From Verif Require Import Base Attn Frames Tensor TAttn TPoint TPointSpec TNet TNetSpec TPointThm PTensor.
Import ListNotations.

(** Linear(cin, cout, channel_dim=d), dimension [k] of the input being [d] counted from the
    front or from the end: raises unless that dimension has size cin, and otherwise replaces
    it by one of size cout. *)
Theorem C69_linear :
  forall (K : Type) (SC : Scal K) (d : Z) (k cin cout : nat) (w : list K) (b : option (list K)) (x : tens K) (f : tens K -> res (tens K)),
    f = tl_forward d cin cout w b \/ (exists upd, f = fun x => tl_forward_step d cin cout w b x upd) \/
    (exists pe upd, f = fun x => tl_forward_steps d cin cout w b x pe upd) ->
    k < length (sh x) -> (d = Z.of_nat k \/ d = Z.of_nat k - Z.of_nat (length (sh x)))%Z ->
    (nth k (sh x) 0 <> cin -> f x = Err RuntimeError) /\
    (nth k (sh x) 0 = cin -> exists Y, f x = Ok Y /\ sh Y = put k cout (sh x) /\ whole Y /\
       forall ix, Forall2 lt ix (sh Y) -> at_ (sh Y) (dat Y) (map Z.of_nat ix) = lin_at k cin cout w b x ix).
Proof. intros K SC d k cin cout w b x f [->|[[upd ->]|[pe [upd ->]]]]; exact (linear_entries d k cin cout w b x). Qed.
Print Assumptions C69_linear.
Theorem C69_linear_no_dimension :
  forall (K : Type) (SC : Scal K) (d : Z) (cin cout : nat) (w : list K) (b : option (list K)) (x : tens K) (f : tens K -> res (tens K)),
    f = tl_forward d cin cout w b \/ (exists upd, f = fun x => tl_forward_step d cin cout w b x upd) \/
    (exists pe upd, f = fun x => tl_forward_steps d cin cout w b x pe upd) ->
    1 <= length (sh x) -> (d < - Z.of_nat (length (sh x)) \/ Z.of_nat (length (sh x)) <= d)%Z ->
    f x = Err IndexError.
Proof. intros K SC d cin cout w b x f [->|[[upd ->]|[pe [upd ->]]]]; exact (linear_out_of_range d cin cout w b x). Qed.
Print Assumptions C69_linear_no_dimension.

(** The only values of channel_dim with which forward and forward_steps of Linear do to clips
    of [n] spatial dimensions what forward_step does to their frames: 0 and 1 (batch and
    channels), the spatial dimensions counted from the end, and those with which it always
    raises. *)
Theorem C69_linear_framewise :
  forall (K : Type) (SC : Scal K) (n : nat) (d : Z) (pe upd upd' : bool),
    (0 <= d < 2 \/ - Z.of_nat n <= d < 0 \/ d < - Z.of_nat (n + 3) \/ Z.of_nat (n + 3) <= d)%Z <->
    (forall (cin cout : nat) (w : list K) (b : option (list K)) (X : tens K) (B C t : nat) (sp : list nat),
       sh X = B :: C :: t :: sp -> length sp = n -> 1 <= t -> whole X ->
       framewise (tl_forward d cin cout w b) (fun x => tl_forward_step d cin cout w b x upd) X /\
       framewise (fun x => tl_forward_steps d cin cout w b x pe upd) (fun x => tl_forward_step d cin cout w b x upd') X).
Proof.
  intros K SC n d pe upd upd'. destruct (linear_framewise (K := K) n d) as [H1 H2]. split.
  - intros H cin cout w b X B C t sp E L T W. split; exact (H1 H cin cout w b X B C t sp E L T W).
  - intros H. apply H2. intros cin cout w b X B C t sp E L T W. exact (proj1 (H cin cout w b X B C t sp E L T W)).
Qed.
Print Assumptions C69_linear_framewise.

(** Reshape to two or more dimensions: forward on a clip gives the reshaped frames,
    exceptions included. *)
Theorem C69_reshape :
  forall (K : Type) (SC : Scal K) (shape : list Z) (X : tens K) (B C t : nat) (sp : list nat) (pe upd : bool),
    2 <= length shape -> sh X = B :: C :: t :: sp -> 1 <= t ->
    tr_forward_steps shape X pe upd = tr_forward shape X /\
    match tr_forward shape X with
    | Ok Y => mapM (fun x => tr_forward_step shape x upd) (frames_of X) = Ok (frames_of Y)
    | Err e => mapM (fun x => tr_forward_step shape x upd) (frames_of X) = Err e
    end.
Proof. intros. split; [reflexivity|]. eapply reshape_framewise; eassumption. Qed.
Print Assumptions C69_reshape.

(** Reshape to one dimension: a frame becomes a vector, a clip raises. *)
Theorem C69_reshape_one_dim :
  forall (K : Type) (SC : Scal K) (d : Z) (X : tens K) (B C t : nat) (sp : list nat),
    sh X = B :: C :: t :: sp -> 1 <= t -> (exists y, Point.resolve (Z.of_nat (size (B :: C :: sp))) [d] = Ok y) ->
    (forall x, In x (frames_of X) -> treshape [d] x = Ok (T [size (B :: C :: sp)] (dat x))) /\
    tr_forward [d] X = Err IndexError.
Proof. exact @reshape_short. Qed.
Print Assumptions C69_reshape_one_dim.

(* ------------------------------------------------------------------ *)
(** A clip of two channels, two steps and two spatial positions. *)
Definition lin_x : tens Z := T [1; 2; 2; 2] [1; 2; 3; 4; 10; 20; 30; 40]%Z.
Definition lin_w : list Z := [1; 1; 2; 0; 0; 3]%Z.
Definition lin_b : option (list Z) := Some [100; 200; 300]%Z.
Example C69_linear_ex :
  tl_forward 1 2 3 lin_w lin_b lin_x
  = Ok (T [1; 3; 2; 2] [111; 122; 133; 144; 202; 204; 206; 208; 330; 360; 390; 420]%Z) /\
  tl_forward (-3) 2 3 lin_w lin_b lin_x = tl_forward 1 2 3 lin_w lin_b lin_x /\
  tl_forward 3 2 3 lin_w lin_b lin_x
  = Ok (T [1; 2; 2; 3] [103; 202; 306; 107; 206; 312; 130; 220; 360; 170; 260; 420]%Z) /\
  tl_forward 0 2 3 lin_w lin_b lin_x = Err RuntimeError /\ tl_forward 4 2 3 lin_w lin_b lin_x = Err IndexError /\
  put 1 3 (sh lin_x) = [1; 3; 2; 2] /\ lin_at 1 2 3 lin_w lin_b lin_x [0; 2; 1; 0] = 390%Z.
Proof. vm_compute. repeat split. Qed.
Example C69_linear_framewise_ex :
  framewise (tl_forward 1 2 3 lin_w lin_b) (tl_forward 1 2 3 lin_w lin_b) lin_x /\ framewise (tl_forward (-1) 2 3 lin_w lin_b) (tl_forward (-1) 2 3 lin_w lin_b) lin_x /\
  ~ framewise (tl_forward 2 2 3 lin_w lin_b) (tl_forward 2 2 3 lin_w lin_b) lin_x /\ ~ framewise (tl_forward (-2) 2 3 lin_w lin_b) (tl_forward (-2) 2 3 lin_w lin_b) lin_x /\
  ~ framewise (tl_forward 3 2 3 lin_w lin_b) (tl_forward 3 2 3 lin_w lin_b) lin_x /\ ~ framewise (tl_forward (-3) 2 3 lin_w lin_b) (tl_forward (-3) 2 3 lin_w lin_b) lin_x.
Proof. vm_compute. repeat split; discriminate. Qed.
Example C69_reshape_ex :
  tr_forward [1; -1]%Z lin_x = Ok (T [1; 4; 2] [1; 3; 2; 4; 10; 30; 20; 40]%Z) /\
  frames_of lin_x = [T [1; 2; 2] [1; 2; 10; 20]%Z; T [1; 2; 2] [3; 4; 30; 40]%Z] /\
  tr_forward_step [1; -1]%Z (T [1; 2; 2] [3; 4; 30; 40]%Z) true = Ok (T [1; 4] [3; 4; 30; 40]%Z) /\
  tr_forward [3; 1]%Z lin_x = Err RuntimeError /\
  tr_forward [-1]%Z lin_x = Err IndexError /\ treshape [-1]%Z (T [1; 2; 2] [3; 4; 30; 40]%Z) = Ok (T [4] [3; 4; 30; 40]%Z).
Proof. vm_compute. repeat split. Qed.
