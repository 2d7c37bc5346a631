(** Property C35: nested states through flat lists, as the ONNX export needs them. *)
From Coq Require Import List ZArith Bool Arith String Ascii.
From Verif Require Import Base Onnx OnnxSpec OnnxProof.
Import ListNotations.
Open Scope list_scope.

(** Example modules over Z: a delay by one frame with a frame counter, and a running
    sum that is the second kind of leaf (attention-like argument order). *)
Definition ex_delay : @leaf Z Z :=
  Leaf [true; false]
    (fun x s => match match s with Some s => s | None => [0%Z; 0%Z] end with
                | [b; i] => Ok (if Z.eqb i 0 then None else Some b, [x; (i + 1)%Z])
                | _ => Err ValueError end) true.
Definition ex_sum : @leaf Z Z :=
  Leaf [true]
    (fun x s => match match s with Some s => s | None => [0%Z] end with
                | [a] => Ok (Some (a + x)%Z, [(a + x)%Z]) | _ => Err ValueError end) false.
Definition ex_add (l : list (@oval Z)) : res oval :=
  Ok (OX (fold_right (fun v a => match v with OX x => (x + a)%Z | _ => a end) 0%Z l)).
Definition ex_double : @om Z Z :=
  OPure (fun v => match v with OX x => Ok (OX (2 * x)%Z) | _ => Err TypeError end).

(** A residual network with nesting two deep and a conditional with one branch. *)
Definition ex_net : @om Z Z :=
  OSeq [ OBR [OSeq [OLeaf ex_delay (Some [0%Z; 0%Z]); ex_double]; OLeaf ex_delay (Some [0%Z; 0%Z])] ex_add;
         OCond (fun v => match v with OX x => Z.ltb 5 x | _ => false end)
               (OLeaf ex_delay (Some [7%Z; 1%Z])) None;
         OLeaf ex_sum (Some [0%Z]) ].

Lemma ex_delay_steady : steady ex_delay.
Proof. intros x [|? [|? [|? ?]]] y s'; cbn; intros E; try discriminate; now injection 1 as _ <-. Qed.
Lemma ex_sum_steady : steady ex_sum.
Proof. intros x [|? [|? ?]] y s'; cbn; intros E; try discriminate; now injection 1 as _ <-. Qed.
Lemma ex_net_exportable : exportable false ex_net.
Proof.
  cbn. pose proof ex_delay_steady. pose proof ex_sum_steady. intuition.
Qed.

(** C35. For every nested shape, un-flattening a list with as many states and
    flattening it again gives back the list, with nothing left over. *)
Theorem C35_unflatten_flatten : forall (A : Type) s (lst : list A),
  List.length lst = size s ->
  exists p, shape_list lst s 0 = (p, size s) /\ fits s p /\ flat_pst p = map Some lst.
Proof. exact @shape_flat_round. Qed.
Print Assumptions C35_unflatten_flatten.

Example C35_unflatten_flatten_ex :
  shape_list [1; 2; 3; 4; 5; 6] (SList [SInt 3; SList [SInt 0; SList [SInt 1]; SInt 2]]) 0
  = (PList [PTup [1; 2; 3]; PList [PTup []; PList [PTup [4]]; PTup [5; 6]]], 6).
Proof. reflexivity. Qed.

(** C35. Conversely, flattening any nested state of the reported shape and
    un-flattening it gives back the state. *)
Theorem C35_flatten_unflatten : forall (A : Type) s (p : pst A),
  fits s p -> shape_list (drop_none (flat_pst p)) s 0 = (p, size s).
Proof. exact @flat_shape_round. Qed.
Print Assumptions C35_flatten_unflatten.

Example C35_flatten_unflatten_ex :
  fits (SList [SInt 2; SList [SInt 0; SInt 1]]) (PList [PTup [8; 9]; PList [PTup []; PTup [7]]])
  /\ flat_pst (PList [PTup [8; 9]; PList [PTup []; PTup [7]]]) = [Some 8; Some 9; Some 7].
Proof. repeat split. Qed.

(** C35. The exported function, fed its own states, gives in every stream the outputs
    of forward_step and the states that the object then holds; it raises when
    forward_step does. *)
Theorem C35_same_as_forward_step : forall (X A : Type) xs (m : @om X A),
  exportable false m -> full m ->
  wrun m (tensors m) xs =
  match orun m xs with
  | Ok (ys, m') => Ok (ys, tensors m')
  | Err e => Err e
  end.
Proof. exact @wrun_orun. Qed.
Print Assumptions C35_same_as_forward_step.

Example C35_same_as_forward_step_ex :
  exportable false ex_net /\ full ex_net /\
  tensors ex_net = [0; 0; 0; 0; 7; 1; 0]%Z /\
  wrun ex_net (tensors ex_net) [1; 2; 3; 4]%Z
  = Ok ([ONone; OX 3; OX 10; OX 16]%Z, [4; 4; 4; 4; 9; 3; 16]%Z).
Proof. split; [exact ex_net_exportable|]. repeat split. Qed.

(** C35. There are as many input names as state tensors, as many output names, and
    all of them differ. *)
Theorem C35_names : forall (X A : Type) (m : @om X A),
  full m ->
  List.length (state_input_names m) = List.length (tensors m) /\
  List.length (state_output_names m) = List.length (tensors m) /\
  NoDup (state_input_names m ++ state_output_names m).
Proof.
  intros X A m H. unfold state_output_names at 1. rewrite map_length, names_length, tensors_size by auto.
  split; [reflexivity|]. split; [reflexivity|]. exact (names_NoDup m).
Qed.
Print Assumptions C35_names.

Example C35_names_ex :
  full ex_net /\
  state_input_names ex_net = ["s0"; "s1"; "s2"; "s3"; "s4"; "s5"; "s6"]%string /\
  state_output_names ex_net = ["ns0"; "ns1"; "ns2"; "ns3"; "ns4"; "ns5"; "ns6"]%string.
Proof. repeat split. Qed.

(** C35. The flags of the dynamic axes line up with the states: un-flattened by the
    state shape they are each module's own flags, and exactly the names of flagged
    states are dynamic. *)
Theorem C35_dynamic_flags : forall (X A : Type) (m : @om X A),
  List.length (flags m) = list_sum (flat_shape (oshape m)) /\
  fst (shape_list (drop_none (flat_pst (odyn m))) (oshape m) 0) = odyn m /\
  forall s, In s (dynamic_inputs m) <->
    exists i, s = String "s"%char (nat_str i) /\ nth_error (flags m) i = Some true.
Proof.
  intros X A m. split; [now rewrite list_sum_flat_shape, flags_length|].
  split; [now rewrite (flat_shape_round _ _ (odyn_fits m))|]. exact (in_dynamic m).
Qed.
Print Assumptions C35_dynamic_flags.

Example C35_dynamic_flags_ex :
  dynamic_axes ex_net = ["s0"; "s2"; "s4"; "s6"; "ns0"; "ns2"; "ns4"; "ns6"]%string.
Proof. reflexivity. Qed.

(** C35. Surplus states are ignored without a message. *)
Theorem C35_surplus_ignored : forall (X A : Type) (m : @om X A) x extra,
  full m -> wrapper m x (tensors m ++ extra) = wrapper m x (tensors m).
Proof. exact @wrapper_surplus. Qed.
Print Assumptions C35_surplus_ignored.

Example C35_surplus_ignored_ex :
  wrapper ex_net 5%Z (tensors ex_net ++ [99%Z])
  = Ok (ONone, [Some 5; Some 1; Some 5; Some 1; Some 7; Some 1; Some 0]%Z).
Proof. reflexivity. Qed.

(** C35, negative part. A conditional with two branches returns only the states of
    the branch it takes, while the names are for both: the counts differ unless the
    other branch has no state. *)
Theorem C35_conditional_counts : forall (X A : Type) c (a b : @om X A) x y out,
  exportable false a -> exportable false b -> full a -> full b ->
  wrapper (OCond c a (Some b)) x (tensors (OCond c a (Some b))) = Ok (y, out) ->
  List.length out = size (oshape (if c (OX x) then a else b)) /\
  List.length (state_output_names (OCond c a (Some b)))
    = size (oshape a) + size (oshape b).
Proof. exact @cond_count. Qed.
Print Assumptions C35_conditional_counts.

Theorem C35_conditional_refuted : exists (m : @om Z Z) x y out,
  full m /\ wrapper m x (tensors m) = Ok (y, out) /\
  List.length out <> List.length (state_output_names m).
Proof.
  exists (OCond (fun _ => true) (OLeaf ex_delay (Some [3%Z; 1%Z])) (Some (OLeaf ex_delay (Some [4%Z; 1%Z])))),
    5%Z, (OX 3%Z), [Some 5%Z; Some 2%Z].
  split; [cbn; auto|]. split; [reflexivity|]. discriminate.
Qed.
Print Assumptions C35_conditional_refuted.

Example C35_conditional_counts_ex :
  let c := OCond (fun v => match v with OX x => Z.ltb 0 x | _ => true end)
             (OLeaf ex_delay (Some [3%Z; 1%Z])) (Some (OLeaf ex_delay (Some [4%Z; 1%Z]))) in
  wrapper c 5%Z (tensors c) = Ok (OX 3%Z, [Some 5; Some 2]%Z) /\
  wrapper c (-5)%Z (tensors c) = Ok (OX 4%Z, [Some (-5); Some 2]%Z) /\
  state_output_names c = ["ns0"; "ns1"; "ns2"; "ns3"]%string.
Proof. repeat split. Qed.

(** C35, negative part. A module whose second argument is not the state, such as
    multi-head attention, cannot be exported outside a container. *)
Theorem C35_bare_attention_raises : forall (X A : Type) (f : @leaf X A) st x states,
  l_pos f = false -> wrapper (OLeaf f st) x states = Err TypeError.
Proof. exact @wrapper_positional. Qed.
Print Assumptions C35_bare_attention_raises.

Example C35_bare_attention_raises_ex :
  wrapper (OLeaf ex_sum (Some [0%Z])) 4%Z [0%Z] = Err TypeError /\
  wrapper (OSeq [OLeaf ex_sum (Some [0%Z])]) 4%Z [0%Z] = Ok (OX 4, [Some 4])%Z.
Proof. split; reflexivity. Qed.
