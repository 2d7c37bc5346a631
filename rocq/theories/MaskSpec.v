(** Specification vocabulary for masked attention: a hidden key is not there. *)
From Coq Require Import List ZArith Bool Arith.
From Verif Require Import Base Attn AttnSpec Mask.
Import ListNotations.

(** The entries of a list at the positions that [p] selects. *)
Definition select {A} (p : nat -> bool) (l : list A) : list A :=
  map snd (filter (fun x => p (fst x)) (combine (seq 0 (length l)) l)).

Section Spec.
Context {K : Type} {NK : Num K}.
Notation vec := (vec K).

(** What the masks say about query [i] and key [j] in head [h]. *)
Definition entry (kpm : option (list bool)) (am : option (amask K)) (h i j : nat) : mentry K :=
  if match kpm with Some p => nth j p false | None => false end then Hide
  else match am with Some m => nth j (nth i (of_head m h) []) Keep | None => Keep end.
Definition shown (e : mentry K) : bool := match e with Hide => false | _ => true end.

(** Masks of the right shape. *)
Definition table_fits (L S : nat) (m : list (list (mentry K))) : Prop :=
  length m = L /\ Forall (fun r => length r = S) m.
Definition masks_fit (H L S : nat) (kpm : option (list bool)) (am : option (amask K)) : Prop :=
  match kpm with Some p => length p = S | None => True end /\
  match am with
  | Some (For_all m) => table_fits L S m
  | Some (For_each ms) => length ms = H /\ Forall (table_fits L S) ms
  | None => True
  end.

(** Entry [e] of the attention of query [q] over keys and values with what is added to
    their scores. *)
Definition score (E : nat) (q : vec) (m : mentry K) (k : vec) : K :=
  match m with Plus z => kexp (kadd z (dot E q k)) | _ => kexp (dot E q k) end.
Definition shown_mean (E : nat) (q : vec) (l : list (mentry K * vec * vec)) (e : nat) : K :=
  kdiv (ksum (map (fun '(m, k, v) => kmul (score E q m k) (at_ v e)) l))
       (ksum (map (fun '(m, k, _) => score E q m k) l)).

(** What query [i] sees in head [h]: the keys that are not hidden, and the extra ones. *)
Definition in_sight (c : cfg K) kpm am (h i : nat) (ks vs : list vec) : list (mentry K * vec * vec) :=
  map (fun j => (entry kpm am h i j, nth h (c_k c (nth j ks [])) [], nth h (c_v c (nth j vs [])) []))
      (filter (fun j => shown (entry kpm am h i j)) (seq 0 (length ks)))
  ++ map (fun '(k, v) => (Keep, k, v)) (combine (extras c fst h) (extras c snd h)).
Definition attended (c : cfg K) kpm am (i : nat) (q : vec) (ks vs : list vec) : vec :=
  c_o c (map (fun h => tab (c_E c) (shown_mean (c_E c) (map (c_scale c) (nth h (c_q c q) []))
                                     (in_sight c kpm am h i ks vs)))
             (seq 0 (c_H c))).

(** Masks that hide or keep, the same in all heads. *)
Definition hides_only (kpm : option (list bool)) (am : option (amask K)) : Prop :=
  forall h i j, (entry kpm am h i j = Hide \/ entry kpm am h i j = Keep)
                /\ entry kpm am h i j = entry kpm am 0 i j.

(** The mask under which query [i] sees the [N] keys up to key [i + d]; for [d = 0] and
    [N >= T] this is the causal mask. *)
Definition band (N d T : nat) : amask K :=
  For_all (map (fun i => map (fun j => if (i + d <? j + N) && (j <=? i + d) then Keep else Hide) (seq 0 T)) (seq 0 T)).
Definition causal (T : nat) : amask K :=
  For_all (map (fun i => map (fun j => if j <=? i then Keep else Hide) (seq 0 T)) (seq 0 T)).

(** [a] has an inverse. *)
Definition invertible (a : K) : Prop := kmul a (kdiv k1 a) = k1.
(** The sum of all scores of a query in a head. *)
Definition total (c : cfg K) kpm am (h i : nat) (q : vec) (ks vs : list vec) : K :=
  ksum (map (fun '(m, k, _) => score (c_E c) (map (c_scale c) (nth h (c_q c q) [])) m k) (in_sight c kpm am h i ks vs)).

(** Keywords that forward_step and forward_steps know. *)
Definition known (x : pname * arg K) : bool :=
  match fst x with Query | Key | Value | UpdateState => true | _ => false end.
End Spec.
