(** Property C41: logging once. *)
From Coq Require Import List Bool ZArith.
From Verif Require Import Base Logging LoggingSpec LoggingProof.
Import ListNotations.

(** Example: a hash without collisions on small numbers; negative "messages" cannot
    be hashed. *)
Definition ex_hash (m : Z) : option Z := if Z.ltb m 0 then None else Some (m * 3)%Z.

(** C41. In any history of a logger on rank zero: before the first
    getLogger(log_once=True) everything is forwarded, after it exactly those messages
    whose hash is new, no matter how often the logger is fetched again. *)
Theorem C41_once : forall (M : Type) (hash : M -> option Z) pre rest,
  no_once pre ->
  emitted hash 0 [] (pre ++ Get true :: rest) = logs pre ++ firsts hash (logs rest).
Proof. exact @logger_emits. Qed.
Print Assumptions C41_once.

Example C41_once_ex :
  no_once [Log 4%Z; Get false; Log 4%Z] /\
  emitted ex_hash 0 [] ([Log 4; Get false; Log 4] ++ Get true
     :: [Log 4; Log 5; Get true; Log 5; Log 4; Get false; Log 6; Log 6])%Z
  = [4; 4; 4; 5; 6]%Z.
Proof. split; [intros [H|[H|[H|H]]]; try discriminate; contradiction | reflexivity]. Qed.

(** C41. If different messages have different hashes, then each message is forwarded
    exactly once. *)
Theorem C41_each_exactly_once : forall (M : Type) (hash : M -> option Z) rest,
  (forall m, In m (logs rest) -> hash m <> None) ->
  (forall a b, In a (logs rest) -> In b (logs rest) -> hash a = hash b -> a = b) ->
  NoDup (emitted hash 0 [] (Get true :: rest)) /\
  forall m, In m (emitted hash 0 [] (Get true :: rest)) <-> In m (logs rest).
Proof. exact @logger_distinct. Qed.
Print Assumptions C41_each_exactly_once.

Example C41_each_exactly_once_ex :
  let rest := [Log 2; Log 7; Get true; Log 2; Log 2; Log 9; Get false; Log 7]%Z in
  (forall m, In m (logs rest) -> ex_hash m <> None) /\
  (forall a b, In a (logs rest) -> In b (logs rest) -> ex_hash a = ex_hash b -> a = b) /\
  emitted ex_hash 0 [] (Get true :: rest) = [2; 7; 9]%Z.
Proof.
  cbn. split; [|split; [|reflexivity]].
  - intros m H. repeat destruct H as [<-|H]; try discriminate. contradiction.
  - intros a b Ha Hb. repeat destruct Ha as [<-|Ha]; try contradiction;
      repeat destruct Hb as [<-|Hb]; try contradiction; try reflexivity; discriminate.
Qed.

(** C41. Messages with an argument that cannot be hashed raise; nothing else does. *)
Theorem C41_unhashable_raises : forall (M : Type) (hash : M -> option Z) rest,
  raised hash 0 (get_logger true []) rest = filter (fun m => negb (has_key hash m)) (logs rest).
Proof. exact @logger_raises. Qed.
Print Assumptions C41_unhashable_raises.

Example C41_unhashable_raises_ex :
  raised ex_hash 0 (get_logger true []) [Log 3; Log (-3); Log (-3); Log 3]%Z = [-3; -3]%Z.
Proof. reflexivity. Qed.

(** C41. On other ranks nothing is forwarded and nothing raises. *)
Theorem C41_other_ranks : forall (M : Type) (hash : M -> option Z) pre b rest r,
  r <> 0 -> no_get pre ->
  emitted hash r [] (pre ++ Get b :: rest) = logs pre /\
  raised hash r [] (pre ++ Get b :: rest) = [].
Proof. exact @logger_other_rank. Qed.
Print Assumptions C41_other_ranks.

Example C41_other_ranks_ex :
  emitted ex_hash 2 [] [Log 1; Get true; Log 2; Log (-3)]%Z = [1]%Z /\
  raised ex_hash 2 [] [Log 1; Get true; Log 2; Log (-3)]%Z = [] /\
  raised ex_hash 0 [] [Log 1; Get true; Log 2; Log (-3)]%Z = [-3]%Z.
Proof. repeat split. Qed.

(** C41, negative part. First occurrences are dropped when hashes collide, and with
    Python's hashes they do: a warning with argument -1 hides the same warning with
    argument -2, whatever function of the elements' hashes the tuple hash is. *)
Theorem C41_collision_refuted : forall th level msg pre post,
  emitted (log_hash th) 0 []
    [Get true; Log (level, msg, pre ++ (-1)%Z :: post); Log (level, msg, pre ++ (-2)%Z :: post)]
  = [(level, msg, pre ++ (-1)%Z :: post)].
Proof. exact minus_one_two. Qed.
Print Assumptions C41_collision_refuted.

Example C41_collision_refuted_ex :
  emitted (log_hash (fun l => fold_left (fun a h => a * 31 + h) l 7)%Z) 0 []
    [Get true; Log (30, 1, [-1]); Log (30, 1, [-2]); Log (30, 1, [-3])]%Z
  = [(30, 1, [-1]); (30, 1, [-3])]%Z.
Proof. reflexivity. Qed.
