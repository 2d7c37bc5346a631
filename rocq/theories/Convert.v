(** Automatic conversion of torch modules (continual/convert.py:38-246,
    container.py:135-142, 706-713 and the [build_from] methods of conv.py,
    pooling.py, linear.py, closure.py).

    Modules without temporal operations are not rebuilt but changed in place, so
    their identity matters: they are numbers, and the attributes that
    [forward_stepping] sets live in a store. Closures are kept as terms, because
    [forward_stepping] captures the forward of the module at that time.
    Simplifications: recurrent modules and transformer encoders are not covered by
    the forward functions (co.RNN has another layout than nn.RNN; TransformerEncoder
    needs an argument that [continual] does not give); global call mode contexts and
    hooks are left out here (see CallMode.v). *)
From Coq Require Import List Bool Arith String.
From Verif Require Import Base.
Import ListNotations.
Open Scope list_scope.

Inductive mode := MForward | MStep | MSteps.

(** A module's [forward] attribute: the class's own, or [forward_with_callmode]
    around what was there before. *)
Inductive clo := Native | WithMode (orig : clo).

(** The attributes of a module that [forward_stepping] touches. *)
Record attrs := At { a_fwd : clo; a_step : option clo; a_steps : option clo }.
Definition fresh : attrs := At Native None None.

(** convert.py:86-114. *)
Definition forward_stepping (a : attrs) : attrs :=
  At (WithMode (a_fwd a)) (Some (a_fwd a)) (Some (a_fwd a)).

Definition store := nat -> attrs.
Definition upd (st : store) (i : nat) (a : attrs) : store :=
  fun j => if Nat.eqb i j then a else st j.

Section Convert.
(** [X]: tensors. [W]: weights. *)
Context {X W : Type}.

(** Attributes of torch.nn.ConvNd. [cv_dtype] 0 is torch's default type. *)
Record convf := Cv {
  cv_in : nat; cv_out : nat; cv_k : list nat; cv_s : list nat; cv_p : list nat;
  cv_d : list nat; cv_g : nat; cv_bias : option W; cv_mode : string;
  cv_weight : W; cv_dtype : nat; cv_fill : string }.

(** Attributes of torch.nn pooling modules; [pf_max]: maximum or average. *)
Record poolf := Pf {
  pf_max : bool; pf_k : list nat; pf_s : list nat; pf_p : list nat; pf_d : list nat;
  pf_ceil : bool; pf_include : bool; pf_div : option nat; pf_indices : bool }.

(** Attributes of torch.nn.Linear. *)
Record linf := Li { li_in : nat; li_out : nat; li_bias : option W; li_weight : W; li_dtype : nat }.

Inductive tmod :=
| TNaive (id : nat)                         (* a type in NAIVE_MAPPING *)
| TNorm (id : nat) (affine track : bool)    (* instance norms *)
| TConv (c : convf)
| TPool (c : poolf)
| TLinear (c : linf)
| TFunc (f : X -> res X)                    (* a Python function over one step *)
| TNeedsArg                                 (* adaptive pools, TransformerEncoder *)
| TOther (id : nat)                         (* any other type *)
| TSeq (l : list (string * tmod))
| CConv (c : convf)
| CPool (c : poolf)
| CLinear (c : linf)
| CLambda (f : X -> res X)
| CSeq (l : list (string * tmod)).

(** isinstance(module, CoModule). *)
Definition is_co (m : tmod) : bool :=
  match m with CConv _ | CPool _ | CLinear _ | CLambda _ | CSeq _ => true | _ => false end.

(** module.py:125-165 [CoModule.is_valid]: the attributes are there. *)
Definition is_valid (st : store) (m : tmod) : bool :=
  is_co m ||
  match m with
  | TNaive i | TNorm i _ _ => match a_step (st i) with Some _ => true | None => false end
  | _ => false
  end.

(** [cast a b w]: weights of type [a] copied into a parameter of type [b]. *)
Variable cast : nat -> nat -> W -> W.

(** conv.py:404-429, 504-529, 604-629; asserts of conv.py:78-83. The parameters are
    created with the default type and copied into. *)
Definition conv_build (c : convf) : res convf :=
  if negb (Nat.eqb (hd 1 (cv_d c)) 1) then Err AssertionError else
  if negb (String.eqb (cv_mode c) "zeros" || String.eqb (cv_mode c) "replicate")
  then Err ValueError else
  Ok (Cv (cv_in c) (cv_out c) (cv_k c) (cv_s c) (cv_p c) (cv_d c) (cv_g c)
         (match cv_bias c with Some b => Some (cast (cv_dtype c) 0 b) | None => None end)
         (cv_mode c) (cast (cv_dtype c) 0 (cv_weight c)) 0 (cv_mode c)).

(** pooling.py:305-324, 426-447, 557-578, 660-678, 782-800, 906-922: a maximum pool
    never returns indices. *)
Definition pool_build (c : poolf) : res poolf :=
  if Nat.eqb (hd 1 (pf_k c)) 0 then Err AssertionError else
  Ok (Pf (pf_max c) (pf_k c) (pf_s c) (pf_p c) (pf_d c) (pf_ceil c) (pf_include c)
         (pf_div c) false).

(** linear.py:100-123. *)
Definition linear_build (c : linf) : linf :=
  Li (li_in c) (li_out c)
     (match li_bias c with Some b => Some (cast (li_dtype c) (li_dtype c) b) | None => None end)
     (cast (li_dtype c) (li_dtype c) (li_weight c)) (li_dtype c).

(** container.py:135-142 [co_add_module], for the children of a new Sequential. *)
Definition add_module (conv : tmod -> store -> res tmod * store) (m : tmod) (st : store)
  : res tmod * store :=
  if is_valid st m then (Ok m, st) else conv m st.

(** A list of named children, converted from left to right. *)
Section Children.
Variable conv : tmod -> store -> res tmod * store.
Fixpoint children (l : list (string * tmod)) (st : store)
  : res (list (string * tmod)) * store :=
  match l with
  | [] => (Ok [], st)
  | (k, m) :: l =>
      match conv m st with
      | (Err e, st) => (Err e, st)
      | (Ok m', st) =>
          match children l st with
          | (Err e, st) => (Err e, st)
          | (Ok l', st) => (Ok ((k, m') :: l'), st)
          end
      end
  end.
End Children.

(** convert.py:206-246 [continual]. *)
Fixpoint continual (m : tmod) (st : store) {struct m} : res tmod * store :=
  match m with
  | CConv _ | CPool _ | CLinear _ | CLambda _ | CSeq _ => (Ok m, st)
  | TNaive i => (Ok m, upd st i (forward_stepping (st i)))
  | TNorm i affine track =>
      if affine && track then (Ok m, upd st i (forward_stepping (st i)))
      else (Err AssertionError, st)
  | TOther _ => (Err AssertionError, st)
  | TConv c => (c <- conv_build c ;; Ok (CConv c), st)
  | TPool c => (c <- pool_build c ;; Ok (CPool c), st)
  | TLinear c => (Ok (CLinear (linear_build c)), st)
  | TFunc f => (Ok (CLambda f), st)
  | TNeedsArg => (Err TypeError, st)
  | TSeq l =>                               (* container.py:706-713 *)
      match children continual l st with
      | (Err e, st) => (Err e, st)
      | (Ok l', st) =>
          (* Sequential.__init__ adds them; invalid ones would be converted again *)
          if forallb (fun km => is_valid st (snd km)) l' then (Ok (CSeq l'), st)
          else (Err TypeError, st)
      end
  end.

(** co.Sequential(...) called by the user, container.py:607-632. *)
Definition co_sequential (l : list (string * tmod)) (st : store) : res tmod * store :=
  match children (add_module continual) l st with
  | (Err e, st) => (Err e, st)
  | (Ok l', st) => (Ok (CSeq l'), st)
  end.

(** *** Calling *)

(** Native forward functions of torch. *)
Variable naive_fn : nat -> X -> res X.
Variable other_fn : nat -> X -> res X.
(** F.convNd and F.pad: weight, bias, stride, padding, dilation, groups, dtype. *)
Variable F_conv : X -> W -> option W -> list nat -> list nat -> list nat -> nat -> nat -> res X.
Variable F_pad : list nat -> string -> X -> X.
Variable F_pool : poolf -> X -> res X.
Variable F_linear : W -> option W -> nat -> X -> res X.
Variable unsq sq : X -> X.
(** [Lambda.forward] with takes_time=False: the function on every time step. *)
Variable each_step : (X -> res X) -> X -> res X.

(** Calling a module that [forward_stepping] changed, while its call mode is [md];
    the fuel is Python's stack. convert.py:54-74, 102-112, module.py:346-352. *)
Fixpoint ev (fuel : nat) (i : nat) (a : attrs) (md : mode) (c : clo) (x : X) : res X :=
  match fuel with
  | 0 => Err RecursionError
  | S fuel =>
      match c with
      | Native => naive_fn i x
      | WithMode orig =>
          match md with
          | MForward => ev fuel i a md orig x
          | MStep =>
              match a_step a with
              | Some f => y <- ev fuel i a md f (unsq x) ;; Ok (sq y)
              | None => Err AttributeError
              end
          | MSteps =>
              match a_steps a with
              | Some f => ev fuel i a md f x
              | None => Err AttributeError
              end
          end
      end
  end.

(** [module(x)]. *)
Definition call (fuel : nat) (st : store) (i : nat) (md : mode) (x : X) : res X :=
  ev fuel i (st i) md (a_fwd (st i)) x.

(** [module.forward_step(x)], while the call mode is [md]. *)
Definition call_step (fuel : nat) (st : store) (i : nat) (md : mode) (x : X) : res X :=
  match a_step (st i) with
  | Some f => y <- ev fuel i (st i) md f (unsq x) ;; Ok (sq y)
  | None => Err AttributeError
  end.

(** torch.nn.ConvNd.forward, and conv.py:288-324, which are written alike. *)
Definition nn_conv_forward (c : convf) (x : X) : res X :=
  if negb (String.eqb (cv_mode c) "zeros")
  then F_conv (F_pad (cv_p c) (cv_mode c) x) (cv_weight c) (cv_bias c) (cv_s c)
              (map (fun _ => 0) (cv_p c)) (cv_d c) (cv_g c) (cv_dtype c)
  else F_conv x (cv_weight c) (cv_bias c) (cv_s c) (cv_p c) (cv_d c) (cv_g c) (cv_dtype c).
Definition co_conv_forward (c : convf) (x : X) : res X :=
  if String.eqb (cv_mode c) "zeros"
  then F_conv x (cv_weight c) (cv_bias c) (cv_s c) (cv_p c) (cv_d c) (cv_g c) (cv_dtype c)
  else F_conv (F_pad (cv_p c) (cv_mode c) x) (cv_weight c) (cv_bias c) (cv_s c)
              (map (fun _ => 0) (cv_p c)) (cv_d c) (cv_g c) (cv_dtype c).

(** Calling in the default call mode "forward"; container.py:634-637. *)
Section Chain.
Variable f : tmod -> X -> res X.
Fixpoint chain (l : list (string * tmod)) (x : X) : res X :=
  match l with
  | [] => Ok x
  | (_, m) :: l => y <- f m x ;; chain l y
  end.
End Chain.
Fixpoint fwd (fuel : nat) (st : store) (m : tmod) (x : X) {struct m} : res X :=
  match m with
  | TNaive i | TNorm i _ _ => call fuel st i MForward x
  | TConv c => nn_conv_forward c x
  | CConv c => co_conv_forward c x
  | TPool c | CPool c => F_pool c x
  | TLinear c | CLinear c => F_linear (li_weight c) (li_bias c) (li_dtype c) x
  | TFunc f | CLambda f => each_step f x
  | TNeedsArg => Err TypeError
  | TOther i => other_fn i x
  | TSeq l | CSeq l => chain (fwd fuel st) l x
  end.

(** [co.Sequential.forward_step] over modules without temporal operations and
    linear layers, container.py:639-648. *)
Definition step1 (fuel : nat) (st : store) (m : tmod) (x : X) : res X :=
  match m with
  | TNaive i | TNorm i _ _ => call fuel st i MStep x
  | CLinear c => F_linear (li_weight c) (li_bias c) (li_dtype c) x
  | CLambda f => f x
  | _ => Err TypeError
  end.
Definition seq_step (fuel : nat) (st : store) (l : list (string * tmod)) (x : X) : res X :=
  chain (step1 fuel st) l x.

End Convert.
