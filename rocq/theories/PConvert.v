(** Property C42: conversion of torch modules by continual(). *)
From Coq Require Import List Bool Arith String ZArith.
From Verif Require Import Base Convert ConvertSpec ConvertProof.
Import ListNotations.
Open Scope list_scope.

(** Example functions: a tensor is a type tag with values over time. *)
Definition xt := (nat * list Z)%type.
Definition ex_cast (a b : nat) (w : Z) : Z := if Nat.eqb a b then w else (w / 4 * 4)%Z.
Definition ex_naive (i : nat) (x : xt) : res xt :=
  Ok (fst x, map (fun v => if Nat.eqb i 0 then Z.max 0 v else (v * Z.of_nat i)%Z) (snd x)).
Definition ex_conv (x : xt) (w : Z) (b : option Z) (s p d : list nat) (g dt : nat) : res xt :=
  if Nat.eqb (fst x) dt
  then Ok (dt, map (fun v => (v * w + match b with Some b => b | None => 0 end)%Z) (snd x))
  else Err RuntimeError.
Definition ex_pad (p : list nat) (mode : string) (x : xt) : xt := x.
Definition ex_pool (c : poolf) (x : xt) : res xt :=
  Ok (fst x, if pf_indices c then snd x ++ snd x else snd x).
Definition ex_lin (w : Z) (b : option Z) (dt : nat) (x : xt) : res xt :=
  Ok (fst x, map (Z.mul w) (snd x)).
Definition ex_each (f : xt -> res xt) (x : xt) : res xt := f x.
Definition ex_fwd := fwd ex_naive (fun _ x => Ok x) ex_conv ex_pad ex_pool ex_lin (fun x => x)
                         (fun x => x) ex_each.
Definition ex_cv (w : Z) (dt : nat) : @convf Z :=
  Cv 1 1 [3] [1] [1] [1] 1 (Some 1%Z) "zeros" w dt "zeros".
Definition ex_mod := @tmod xt Z.

(** nn.Sequential(conv, relu, nn.Sequential(linear, scale)). *)
Definition ex_tree : ex_mod :=
  TSeq [("conv", TConv (ex_cv 2 0)); ("act", TNaive 0);
        ("head", TSeq [("0", TLinear (Li 1 1 None 5%Z 0)); ("1", TNaive 3)])]%string.
Definition st0 : store := fun _ => fresh.

(** C42. continual() succeeds exactly on trees of supported modules; on others it
    raises. *)
Theorem C42_converts : forall (X W : Type) cast (m : @tmod X W) st,
  convertible m = true <-> exists m' st', continual cast m st = (Ok m', st').
Proof. exact @convertible_iff. Qed.
Print Assumptions C42_converts.

Example C42_converts_ex :
  convertible ex_tree = true
  /\ fst (continual ex_cast ex_tree st0)
     = Ok (CSeq [("conv", CConv (ex_cv 2 0)); ("act", TNaive 0);
                 ("head", CSeq [("0", CLinear (Li 1 1 None 5%Z 0)); ("1", TNaive 3)])])%string
  /\ convertible (TSeq [("0", TNaive 0); ("1", TOther 9)]%string : ex_mod) = false.
Proof. repeat split. Qed.

(** C42. The result satisfies the interface of continual modules, and is either a
    continual module or the very module that was given. *)
Theorem C42_valid : forall (X W : Type) cast (m : @tmod X W) st m' st',
  continual cast m st = (Ok m', st') ->
  is_valid st' m' = true /\ (is_co m' = true \/ m' = m) /\
  forall i, st' i = times (occ i m) forward_stepping (st i).
Proof. exact @continual_result. Qed.
Print Assumptions C42_valid.

Example C42_valid_ex :
  is_valid (snd (continual ex_cast ex_tree st0)) (TNaive 3 : ex_mod) = true
  /\ is_valid st0 (TNaive 3 : ex_mod) = false.
Proof. split; reflexivity. Qed.

(** C42. The converted network computes on clips what the original computes, and the
    original still computes it. *)
Theorem C42_forward_kept : forall (X W : Type) cast naive_fn other_fn F_conv F_pad F_pool
    F_linear unsq sq each_step,
  (forall d w, cast d d w = w) ->
  forall (m : @tmod X W) st m' st',
  faithful m -> continual cast m st = (Ok m', st') ->
  let fwd := fwd naive_fn other_fn F_conv F_pad F_pool F_linear unsq sq each_step in
  let plain := plain naive_fn other_fn F_conv F_pad F_pool F_linear each_step in
  exists N, forall fuel, N <= fuel -> forall x,
    fwd fuel st m x = plain m x /\ fwd fuel st' m' x = plain m x /\ fwd fuel st' m x = plain m x.
Proof. intros. eapply forward_kept; eauto. Qed.
Print Assumptions C42_forward_kept.

Example C42_forward_kept_ex :
  faithful ex_tree
  /\ let '(r, st') := continual ex_cast ex_tree st0 in
     match r with
     | Ok m' => ex_fwd 5 st' m' (0, [2; -3]%Z) = Ok (0, [75; 0]%Z)
                /\ ex_fwd 5 st0 ex_tree (0, [2; -3]%Z) = Ok (0, [75; 0]%Z)
     | Err _ => False
     end.
Proof. repeat split. Qed.

(** C42. Weights keep their values and their names in the state dict. *)
Theorem C42_weights_kept : forall (X W : Type) cast,
  (forall d w, cast d d w = w) ->
  forall m : @tmod X W, faithful m -> forall st m' st',
  continual cast m st = (Ok m', st') -> named m' = named m.
Proof. exact @named_kept. Qed.
Print Assumptions C42_weights_kept.

Example C42_weights_kept_ex :
  named ex_tree = [(["conv"; "weight"], 2%Z); (["conv"; "bias"], 1%Z);
                   (["head"; "0"; "weight"], 5%Z)]%string.
Proof. reflexivity. Qed.

(** C42. Converting again returns the very same module, and changes nothing if the
    module is continual; so every converted Sequential is left alone. *)
Theorem C42_again : forall (X W : Type) cast (m : @tmod X W) st m' st',
  continual cast m st = (Ok m', st') ->
  fst (continual cast m' st') = Ok m' /\
  (is_co m' = true -> snd (continual cast m' st') = st').
Proof. exact @continual_again. Qed.
Print Assumptions C42_again.

Example C42_again_ex :
  match continual ex_cast ex_tree st0 with
  | (Ok m', st') => is_co m' = true /\ continual ex_cast m' st' = (Ok m', st')
  | _ => False
  end.
Proof. split; reflexivity. Qed.

(** C42. After a conversion, a module without temporal operations steps as its
    function does on one frame if it occurred once; if it occurred more often (one
    activation used twice in an nn.Sequential) then stepping never ends. *)
Theorem C42_stepping : forall (X W : Type) cast naive_fn (unsq sq : X -> X) (m : @tmod X W) st m' st' i fuel x,
  continual cast m st = (Ok m', st') -> st i = fresh -> 1 <= occ i m -> 2 <= fuel ->
  let call := call naive_fn unsq sq in
  if Nat.eqb (occ i m) 1
  then call fuel st' i MStep x = (y <- naive_fn i (unsq x) ;; Ok (sq y)) /\
       call fuel st' i MSteps x = naive_fn i x
  else call fuel st' i MStep x = Err RecursionError /\
       call fuel st' i MSteps x = Err RecursionError.
Proof. intros. eapply stepping_after; eauto. Qed.
Print Assumptions C42_stepping.

(** nn.Sequential(relu, linear, relu) with one relu object. *)
Example C42_stepping_ex :
  let m : ex_mod := TSeq [("0", TNaive 0); ("1", TLinear (Li 1 1 None 5%Z 0)); ("2", TNaive 0)]%string in
  let '(r, st') := continual ex_cast m st0 in
  match r with
  | Ok (CSeq l) =>
      ex_fwd 9 st' (CSeq l) (0, [2; -3]%Z) = Ok (0, [10; 0]%Z) /\
      seq_step ex_naive ex_lin (fun x => x) (fun x => x) 900 st' l (0, [2%Z]) = Err RecursionError
  | _ => False
  end.
Proof. split; vm_compute; reflexivity. Qed.

(** C42, idempotence fails for modules that are changed in place: a second
    conversion returns the same module, but it can no longer be stepped. *)
Theorem C42_again_refuted : forall (X : Type) naive_fn (unsq sq : X -> X) i st fuel x,
  st i = fresh ->
  exists st1 st2,
    continual (fun _ _ w => w) (@TNaive X X i) st = (Ok (TNaive i), st1) /\
    continual (fun _ _ w => w) (@TNaive X X i) st1 = (Ok (TNaive i), st2) /\
    call naive_fn unsq sq (2 + fuel) st1 i MStep x = (y <- naive_fn i (unsq x) ;; Ok (sq y)) /\
    call naive_fn unsq sq (2 + fuel) st2 i MStep x = Err RecursionError.
Proof.
  intros X naive_fn unsq sq i st fuel x F.
  exists (upd st i (forward_stepping (st i))).
  exists (upd (upd st i (forward_stepping (st i))) i (forward_stepping (forward_stepping (st i)))).
  repeat split.
  - cbn [continual]. now rewrite (upd_spec st i i), Nat.eqb_refl.
  - apply once_modes; [now rewrite upd_spec, Nat.eqb_refl, F | apply Nat.le_add_r].
  - eapply twice_recurses. now rewrite upd_spec, Nat.eqb_refl.
Qed.
Print Assumptions C42_again_refuted.

Example C42_again_refuted_ex : st0 4 = fresh. Proof. reflexivity. Qed.

(** C42. co.Sequential(...) itself converts a plain module once, however often it
    occurs and whether or not it was converted before. *)
Theorem C42_sequential_converts_once : forall (X W : Type) cast (ks : list (string * nat)) st,
  exists st', co_sequential (X:=X) (W:=W) cast (map (fun ki => (fst ki, TNaive (snd ki))) ks) st
    = (Ok (CSeq (map (fun ki => (fst ki, TNaive (snd ki))) ks)), st') /\
  forall i, st' i = if existsb (fun ki => Nat.eqb (snd ki) i) ks
                    then match a_step (st i) with
                         | Some _ => st i | None => forward_stepping (st i) end
                    else st i.
Proof. exact @co_sequential_once. Qed.
Print Assumptions C42_sequential_converts_once.

Example C42_sequential_converts_once_ex :
  snd (co_sequential (X:=xt) ex_cast [("0", TNaive 7); ("1", TNaive 7)]%string st0) 7
  = forward_stepping fresh.
Proof. reflexivity. Qed.

(** C42. A conversion that fails has already changed the modules to the left. *)
Theorem C42_failure_keeps_changes : forall (X W : Type) cast (l1 : list (string * @tmod X W)) k bad l2 st e,
  forallb (fun km => convertible (snd km)) l1 = true ->
  (forall s, continual cast bad s = (Err e, s)) ->
  fst (continual cast (TSeq (l1 ++ (k, bad) :: l2)) st) = Err e /\
  forall i, snd (continual cast (TSeq (l1 ++ (k, bad) :: l2)) st) i
            = times (list_sum (map (fun km => occ i (snd km)) l1)) forward_stepping (st i).
Proof. exact @failing_prefix. Qed.
Print Assumptions C42_failure_keeps_changes.

Example C42_failure_keeps_changes_ex :
  let r := continual (X:=xt) ex_cast (TSeq [("0", TNaive 0); ("1", TOther 8)]%string) st0 in
  fst r = Err AssertionError /\ snd r 0 = forward_stepping fresh.
Proof. split; reflexivity. Qed.

(** C42, outside the supported attributes the forward function changes silently: a
    convolution of another type than the default, and a pool that returns indices. *)
Theorem C42_dtype_refuted : exists (m m' : ex_mod) st' x,
  continual ex_cast m st0 = (Ok m', st') /\
  ex_fwd 5 st0 m x = Ok (1, [15]%Z) /\ ex_fwd 5 st' m' x = Err RuntimeError.
Proof.
  exists (TConv (ex_cv 7 1)). eexists. exists st0, (1, [2]%Z). split; [reflexivity|].
  split; vm_compute; reflexivity.
Qed.
Print Assumptions C42_dtype_refuted.

Theorem C42_indices_refuted : exists (m m' : ex_mod) st' x y y',
  continual ex_cast m st0 = (Ok m', st') /\
  ex_fwd 5 st0 m x = Ok y /\ ex_fwd 5 st' m' x = Ok y' /\ y <> y'.
Proof.
  exists (TPool (Pf true [2] [2] [0] [1] false true None true)). do 2 eexists.
  exists (0, [2]%Z). do 2 eexists. split; [reflexivity|].
  split; [vm_compute; reflexivity|]. split; [vm_compute; reflexivity|]. discriminate.
Qed.
Print Assumptions C42_indices_refuted.
