(** Construction of containers (continual/container.py): the ordered dictionary of named
    children, the constructors, [append] and slices. *)
From Coq Require Import String Ascii Decimal DecimalString List ZArith Bool Arith.
From Verif Require Import Base Frames CoMod Leaf Rnn Net.
Import ListNotations.

(** Python's [str(n)] for a length or index. *)
Definition str (n : nat) : string := NilZero.string_of_uint (Nat.to_uint n).

(** ["." in name]. *)
Fixpoint has_dot (s : string) : bool :=
  match s with
  | EmptyString => false
  | String c t => Ascii.eqb c "."%char || has_dot t
  end.

Section Build.
Context {F : Type} {FA : Frames F}.

(** Names of attributes that the container object has besides its children
    ([hasattr(self, name)]: methods, properties, instance attributes). *)
Variable reserved : string -> bool.

(** [nn.Module._modules], an ordered dictionary. *)
Definition named := list (string * md F).

Definition has_key (d : named) (k : string) : bool := existsb (fun p => String.eqb (fst p) k) d.

(** Assignment [d[k] = m]: a key that exists keeps its position. *)
Fixpoint dict_set (d : named) (k : string) (m : md F) : named :=
  match d with
  | [] => [(k, m)]
  | (k', m') :: t => if String.eqb k' k then (k, m) :: t else (k', m') :: dict_set t k m
  end.

(** container.py:137-144 [co_add_module] for a module that is valid already (conversion
    is in [Convert.v]), and torch's [nn.Module.add_module]. *)
Definition add_module (d : named) (k : string) (m : md F) : res named :=
  if reserved k && negb (has_key d k) then Err KeyError
  else if has_dot k then Err KeyError
  else if String.eqb k "" then Err KeyError
  else Ok (dict_set d k m).

(** [for key, module in modules: self.add_module(key, module)]
    (container.py:290-291, 627-628, 828-829). *)
Fixpoint add_all (d : named) (l : named) : res named :=
  match l with
  | [] => Ok d
  | (k, m) :: t => d1 <- add_module d k m ;; add_all d1 t
  end.

(** Arguments of a constructor: modules, or one OrderedDict (whose keys are distinct). *)
Inductive args := APos (ms : list (md F)) | ADict (d : named).

(** container.py:266-269, 612-618, 801-804. *)
Definition items (a : args) : named :=
  match a with
  | APos ms => combine (map str (seq 0 (length ms))) ms
  | ADict d => d
  end.

(** Container objects.  [Parallel] and [BroadcastReduce] store their delay and
    receptive field when they are constructed. *)
Inductive cont :=
| CSeq (d : named)
| CPar (d : named) (dly rf : Z)
| CBR (d : named) (r : red F) (dly rf : Z).

Definition kids (c : cont) : named := match c with CSeq d => d | CPar d _ _ => d | CBR d _ _ _ => d end.
Definition with_kids (c : cont) (d : named) : cont :=
  match c with CSeq _ => CSeq d | CPar _ a b => CPar d a b | CBR _ r a b => CBR d r a b end.

(** The module that does the computing: the methods of the containers iterate over
    [self._modules.values()]. *)
Definition run_as (c : cont) : md F :=
  match c with
  | CSeq d => MSeq (map snd d)
  | CPar d _ _ => MPar (map snd d)
  | CBR d r _ _ => MBR (map snd d) r
  end.

(** container.py:349-355, 679-687, 899-905 and module.py:188-190: the properties
    [delay] and [receptive_field]. *)
Definition c_delay (c : cont) : Z := match c with CSeq d => del (MSeq (map snd d)) | CPar _ a _ => a | CBR _ _ a _ => a end.
Definition c_rf (c : cont) : Z := match c with CSeq d => rfield (MSeq (map snd d)) | CPar _ _ b => b | CBR _ _ _ b => b end.

Definition on_values (f : list (md F) -> list (md F)) (d : named) : named := combine (map fst d) (f (map snd d)).

(** container.py:609-628 [Sequential.__init__]. *)
Definition co_sequential (a : args) : res cont :=
  d <- add_all [] (on_values infer_streams (items a)) ;; Ok (CSeq d).

(** container.py:259-302 [Parallel.__init__]. *)
Definition co_parallel (a : args) (auto : bool) : res cont :=
  let d0 := items a in
  if auto && match d0 with [] => true | _ => false end then Err ValueError   (* max([]) *)
  else
    let d1 := if auto then on_values auto_delay d0 else d0 in
    if same_stride (map snd d1) then
      d <- add_all [] d1 ;;
      Ok (CPar d (zmax_list (map del (map snd d))) (zmax_list (map rfield (map snd d))))
    else Err AssertionError.

(** container.py:792-846 [BroadcastReduce.__init__]. *)
Definition co_br (a : args) (r : red F) (auto : bool) : res cont :=
  let d0 := items a in
  if Nat.leb (length d0) 1 then Err AssertionError
  else
    let d1 := if auto then on_values auto_delay d0 else d0 in
    if same_stride (map snd d1) then
      d <- add_all [] d1 ;;
      Ok (CBR d r (zmax_list (map del (map snd d))) (zmax_list (map rfield (map snd d))))
    else Err AssertionError.

(** container.py:719-726 [Sequential.append], inherited by BroadcastReduce; Parallel has
    torch's [nn.Sequential.append], which does the same. *)
Definition append (c : cont) (m : md F) : res cont :=
  d <- add_module (kids c) (str (length (kids c))) m ;; Ok (with_kids c d).

Fixpoint append_all (c : cont) (ms : list (md F)) : res cont :=
  match ms with [] => Ok c | m :: t => c1 <- append c m ;; append_all c1 t end.

(** container.py:62-64 and 790: the default reduction ["sum"]. *)
Definition sum_red : red F := {| r_op := fadd; r_bcast := true; r_min2 := true |}.

(** torch's [nn.Sequential.__getitem__] with a slice [c[a:b]], 0 <= a, b:
    [self.__class__(OrderedDict(list(self._modules.items())[a:b]))], so all other
    arguments of the constructor have their defaults.  Simplification: the modules of the
    slice are the same objects; here they are copies. *)
Definition getslice (c : cont) (a b : nat) : res cont :=
  let s := ADict (firstn (b - a) (skipn a (kids c))) in
  match c with
  | CSeq _ => co_sequential s
  | CPar _ _ _ => co_parallel s true
  | CBR _ _ _ _ => co_br s sum_red true
  end.

End Build.
Arguments args F : clear implicits.
Arguments cont F : clear implicits.
Arguments named F : clear implicits.
