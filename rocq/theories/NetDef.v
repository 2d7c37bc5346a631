(** Networks built by the public constructors. *)
From Coq Require Import List ZArith Bool Arith.
From Verif Require Import Base Frames CoMod Leaf Rnn Net LeafSpec NetSpec.
Import ListNotations.

Section NetDef.
Context {F : Type} {FA : Frames F}.

(** The branches of a container agree on the number of output frames of
    [forward] for every clip. *)
Definition same_len (ms : list (md F)) : Prop :=
  forall m1 m2 xs y1 y2, In m1 ms -> In m2 ms ->
    nfwd m1 xs = Ok y1 -> nfwd m2 xs = Ok y2 -> length y1 = length y2.

Definition branches (m : md F) : list (md F) := match m with MBR ms _ => ms | _ => [] end.

(** The Sequential that spells out a BroadcastReduce. *)
Definition as_seq (m : md F) : md F :=
  match m with MBR ms r => MSeq [MBroadcast (Some (length ms)); MPar ms; MReduce r] | _ => m end.

(** Branches that are in step with each other: same reported delay, or automatic
    delays with stride 1. *)
Definition aligned (ms : list (md F)) (auto : bool) : Prop :=
  (forall m1 m2, In m1 ms -> In m2 ms -> del m1 = del m2) \/
  (auto = true /\ forall m, In m ms -> strd m = 1%Z).

(** Values of residual_shrink considered: no shrink or "leading" for all results;
    True and "lagging" only if [sh]; "centered" never.  The value is ignored by
    the code for equally padded modules (container.py:961-963). *)
Definition shrink_allowed (sh : bool) (m : md F) (rs : rshrink) : Prop :=
  (rfield m - padg m * 2)%Z = 1%Z \/ rs = RNo \/ rs = RLeading \/
  (sh = true /\ (rs = RTrue \/ rs = RLagging)).

(** [net sh m]: [m] was just built from well-formed leaves by Sequential,
    BroadcastReduce and Residual. *)
Inductive net (sh : bool) : md F -> Prop :=
| net_conv c : conv_ok c -> net sh (MConv c obj_init)
| net_pool c : pool_ok c -> 2 * pp c <= pk c -> net sh (MPool c obj_init)
| net_delay d f : net sh (MDelay d f ShNo obj_init)
| net_map g : net sh (MMap g)
| net_rnn c : net sh (MRnn c None)
| net_seq ms : (forall m, In m ms -> net sh m) -> net sh (mk_seq ms)
| net_br ms r auto m :
    (forall x, In x ms -> net sh x) -> aligned ms auto ->
    mk_br ms r auto = Ok m -> same_len (branches m) -> net sh m
| net_res m0 tf r rs m :
    net sh m0 -> shrink_allowed sh m0 rs ->
    residual m0 tf r rs = Ok m -> same_len (branches m) -> net sh m.

(** sum_i (prod_{j<i} stride_j) * f_i over the modules of a Sequential. *)
Definition weighted (f : md F -> Z) (ms : list (md F)) : Z :=
  fold_right Z.add 0%Z
    (map (fun i => (fold_right Z.mul 1 (map strd (firstn i ms)) * f (nth i ms (MSeq [])))%Z)
         (seq 0 (length ms))).

(** Chains of convolutions, poolings and pointwise modules. *)
Inductive chain : md F -> Prop :=
| chain_conv c : conv_ok c -> chain (MConv c obj_init)
| chain_pool c : pool_ok c -> chain (MPool c obj_init)
| chain_map g : chain (MMap g)
| chain_seq ms : (forall m, In m ms -> chain m) -> chain (MSeq ms).

(** Networks whose well-formedness can be read off the reported numbers: every
    condition is on receptive_field, padding, stride and delay. *)
Inductive regular (sh : bool) : md F -> Prop :=
| regular_conv c : conv_ok c -> regular sh (MConv c obj_init)
| regular_pool c : pool_ok c -> 2 * pp c <= pk c -> regular sh (MPool c obj_init)
| regular_map g : regular sh (MMap g)
| regular_rnn c : regular sh (MRnn c None)
| regular_seq ms : (forall m, In m ms -> regular sh m) -> regular sh (mk_seq ms)
| regular_br ms r auto m :
    (forall x, In x ms -> regular sh x) -> aligned ms auto ->
    (forall a b, In a ms -> In b ms -> (rfield a - 2 * padg a = rfield b - 2 * padg b)%Z) ->
    mk_br ms r auto = Ok m -> regular sh m
| regular_res m0 tf r rs m :
    regular sh m0 ->
    (rfield m0 - padg m0 * 2 = 1)%Z \/
    (padg m0 = 0%Z /\ (rs = RLeading \/ (sh = true /\ (rs = RTrue \/ rs = RLagging)))) ->
    residual m0 tf r rs = Ok m -> regular sh m.

(** Reduction of two optional frames: None as soon as one is missing. *)
Definition opt_op (r : red F) (a b : option F) : option F :=
  match a, b with Some x, Some y => Some (r_op r x y) | _, _ => None end.

(** Reduction of output [j] of every one of [zss], from left to right. *)
Definition combined (r : red F) (zss : list (list F)) (j : nat) : option F :=
  match map (fun z => nth_error z j) zss with [] => None | h :: t => fold_left (opt_op r) t h end.

(** Age of the frame that a Residual adds to the output of [m] at each step. *)
Definition res_offset (m : md F) (rs : rshrink) : nat :=
  let D := Z.to_nat (del m) in
  if Z.eqb (rfield m - padg m * 2) 1 then D
  else match rs with
       | RNo | RLagging => D
       | RTrue | RCentered => D / 2
       | RLeading => 0
       end.

(** Streams picked by an index (negative: from the end) and by a nested mapping
    of a ParallelDispatch. *)
Definition picks (l : list (val F)) (i : Z) (v : val F) : Prop :=
  ((0 <= i)%Z /\ nth_error l (Z.to_nat i) = Some v) \/
  ((- Z.of_nat (length l) <= i < 0)%Z /\ nth_error l (Z.to_nat (i + Z.of_nat (length l))) = Some v).
Inductive routed (l : list (val F)) : dmap -> val F -> Prop :=
| routed_i i v : picks l i v -> routed l (DI i) v
| routed_l ds vs : Forall2 (routed l) ds vs -> routed l (DL ds) (VL vs).

(** The mapping equivalent to [DL ds] followed by [d]. *)
Fixpoint compose_map (ds : list dmap) (d : dmap) : option dmap :=
  match d with
  | DI i => let j := if Z.ltb i 0 then (i + Z.of_nat (length ds))%Z else i in
            if Z.ltb j 0 then None else nth_error ds (Z.to_nat j)
  | DL l => match (fix go l := match l with
                    | [] => Some []
                    | e :: t => match compose_map ds e with
                                | Some e' => match go t with Some t' => Some (e' :: t') | None => None end
                                | None => None
                                end
                    end) l with
            | Some l' => Some (DL l')
            | None => None
            end
  end.

(** Results of two branches taken in turn, as selected. *)
Fixpoint interleave {A} (sel : list bool) (ya yb : list A) : list A :=
  match sel with
  | [] => []
  | true :: t => match ya with y :: u => y :: interleave t u yb | [] => [] end
  | false :: t => match yb with y :: u => y :: interleave t ya u | [] => [] end
  end.

(** No recurrent module. *)
Fixpoint rnn_free (m : md F) : Prop :=
  match m with
  | MRnn _ _ => False
  | MSeq ms | MPar ms | MBR ms _ => allP rnn_free ms
  | MCond _ _ _ a b => rnn_free a /\ match b with Some b0 => rnn_free b0 | None => True end
  | _ => True
  end.

End NetDef.
