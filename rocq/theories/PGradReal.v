(** C80 over the real numbers: tangents are derivatives in the sense of analysis. *)
From Coq Require Import List ZArith Bool Arith Lia Reals Lra.
From Verif Require Import Base Frames CoMod Leaf Rnn Net Spec LeafSpec NetSpec Calls NetDef NetRel Batch.
From Verif Require Import Grad GradSpec GradProof GradReal.
Import ListNotations.

(** A frame is a family of real numbers.  The inputs are moved along lines, and the
    parameters along arbitrary curves: at [t = 0], every entry of every output of a
    stream of steps has as derivative the tangent that the network with tangents
    returns. *)
Theorem C80_real_step_gradients :
  forall (I : Type) (M : R -> md (I -> R)) (D : md (dual (I -> R))) (ps : list (dual (I -> R))) zs D1,
    moves deriv M D -> feed (nstep true) D ps = Ok (zs, D1) ->
    exists ys, Forall2 (rel_opt deriv) ys zs /\
      forall t, exists m1, feed (nstep true) (M t) (map (fun p => line p t) ps) = Ok (map (option_map (at_ t)) ys, m1).
Proof.
  intros I M D ps zs D1 HM E.
  assert (Hl : Forall2 deriv (map line ps) ps) by (clear; induction ps; simpl; constructor; auto; apply line_deriv).
  destruct (step_gradients deriv real_tangency 0%R M D _ ps zs D1 HM Hl E) as (ys & H1 & H2). exists ys. split; [exact H1|].
  intros t. destruct (H2 t) as [m1 H]. rewrite map_map in H. exists m1. exact H.
Qed.
Print Assumptions C80_real_step_gradients.

Theorem C80_real_forward_gradients :
  forall (I : Type) (M : R -> md (I -> R)) (D : md (dual (I -> R))) (ps : list (dual (I -> R))) zs,
    moves deriv M D -> nfwd D ps = Ok zs ->
    exists ys, Forall2 deriv ys zs /\ forall t, nfwd (M t) (map (fun p => line p t) ps) = Ok (map (at_ t) ys).
Proof.
  intros I M D ps zs HM E.
  assert (Hl : Forall2 deriv (map line ps) ps) by (clear; induction ps; simpl; constructor; auto; apply line_deriv).
  destruct (forward_gradients deriv real_tangency 0%R M D _ ps zs HM Hl E) as (ys & H1 & H2). exists ys. split; [exact H1|].
  intros t. specialize (H2 t). rewrite map_map in H2. exact H2.
Qed.
Print Assumptions C80_real_forward_gradients.

Theorem C80_real_derivative_unique :
  forall (I : Type) (g : R -> I -> R) p q, deriv g p -> deriv g q -> forall i, pri p i = pri q i /\ tan p i = tan q i.
Proof. exact @deriv_unique. Qed.
Print Assumptions C80_real_derivative_unique.

(** The rules by which layers get their tangents: convolutions, functions of every
    entry, linear layers, average pooling, sums and products of branches, and
    recurrent cells. *)
Theorem C80_conv_rule :
  forall (I : Type) k s p (L : nat -> I -> list I) (w : R -> nat -> I -> I -> R) dw (b : R -> I -> R) db mo fi,
    (forall i j l, derivable_pt_lim (fun t => w t i j l) 0 (dw i j l)) ->
    (forall j, derivable_pt_lim (fun t => b t j) 0 (db j)) ->
    moves_conv deriv (fun t => rconv k s p L (w t) (Some (b t)) mo fi)
      (dual_conv (rconv k s p L (w 0%R) (Some (b 0%R)) mo fi) (fun i => lin (L i) (dw i)) db).
Proof. exact @conv_deriv. Qed.
Print Assumptions C80_conv_rule.

Theorem C80_function_rule :
  forall (I : Type) (f f' : R -> R) (g : R -> I -> R) p, (forall x, derivable_pt_lim f x (f' x)) -> deriv g p ->
    deriv (fun t i => f (g t i)) (dual_map (fun x i => f (x i)) (fun x dx i => f' (x i) * dx i)%R p).
Proof. exact @act_deriv. Qed.
Print Assumptions C80_function_rule.

Theorem C80_linear_rule :
  forall (I : Type) (L : I -> list I) (w : R -> I -> I -> R) dw (b : R -> I -> R) db g p,
    (forall j l, derivable_pt_lim (fun t => w t j l) 0 (dw j l)) -> (forall j, derivable_pt_lim (fun t => b t j) 0 (db j)) -> deriv g p ->
    deriv (fun t => fadd (lin L (w t) (g t)) (b t))
      (Du (fadd (lin L (w 0%R) (pri p)) (b 0%R)) (fadd (fadd (lin L (w 0%R) (tan p)) (lin L dw (pri p))) db)).
Proof. exact @linear_deriv. Qed.
Print Assumptions C80_linear_rule.

Theorem C80_average_rule :
  forall (I : Type) k s p fi, moves_pool (F := I -> R) (P := R) deriv
    (fun _ => {| pk := k; ps := s; pp := p; pd := 1; psp := fun x => x; pagg := ravg k; pfill := fi; pmode := Zeros; pfdil := 1 |})
    (dual_pool {| pk := k; ps := s; pp := p; pd := 1; psp := fun x => x; pagg := ravg k; pfill := fi; pmode := Zeros; pfdil := 1 |}).
Proof. exact @avg_deriv. Qed.
Print Assumptions C80_average_rule.

(** Average pooling over time and space. *)
Theorem C80_spatial_average_rule :
  forall (I : Type) k s p (L : I -> list I) (w : I -> I -> R) fi, moves_pool (F := I -> R) (P := R) deriv
    (fun _ => {| pk := k; ps := s; pp := p; pd := 1; psp := lin L w; pagg := ravg k; pfill := fi; pmode := Zeros; pfdil := 1 |})
    (dual_pool {| pk := k; ps := s; pp := p; pd := 1; psp := lin L w; pagg := ravg k; pfill := fi; pmode := Zeros; pfdil := 1 |}).
Proof. exact @avg_deriv_spatial. Qed.
Print Assumptions C80_spatial_average_rule.

(** Windows of two positions: the tangent of the pooled frame is the average of the tangents. *)
Example C80_spatial_average_example :
  let c := {| pk := 2; ps := 1; pp := 0; pd := 1; psp := lin (fun j => [2 * j; 2 * j + 1]) (fun _ _ => / 2)%R; pagg := ravg 2;
              pfill := Zeros; pmode := Zeros; pfdil := 1 |} in
  tan (psp (dual_pool c) (Du (fun i => INR i) (fun i => INR (i * i)))) 1 = (13 / 2)%R.
Proof. cbn. unfold lin. cbn. field. Qed.

Theorem C80_reduction_rules :
  forall (I : Type), moves_red (F := I -> R) (P := R) deriv (fun _ => rsum_red) rsum_red' /\ moves_red (F := I -> R) (P := R) deriv (fun _ => rmul_red) rmul_red'.
Proof. intros I. split; [apply sum_deriv|apply mul_deriv]. Qed.
Print Assumptions C80_reduction_rules.

Theorem C80_cell_rule :
  forall (I : Type) (f f' : R -> R) (L : I -> list I) (w : R -> I -> I -> R) dw (L' : I -> list I) (u : R -> I -> I -> R) du (b : R -> I -> R) db,
    (forall x, derivable_pt_lim f x (f' x)) ->
    (forall j l, derivable_pt_lim (fun t => w t j l) 0 (dw j l)) -> (forall j l, derivable_pt_lim (fun t => u t j l) 0 (du j l)) ->
    (forall j, derivable_pt_lim (fun t => b t j) 0 (db j)) ->
    moves_cell deriv (fun t => rcell f L (w t) L' (u t) (b t)) (rcell' f f' L (w 0%R) dw L' (u 0%R) du (b 0%R) db).
Proof. exact @cell_deriv. Qed.
Print Assumptions C80_cell_rule.

(** A network on frames of two entries: a convolution whose first tap moves, the
    exponential function, and a residual product with an average pooling. *)
Definition ex_w (t : R) (i : nat) (j l : bool) : R := (INR i + 2 + t * (if j then 3 else 5))%R.
Definition ex_dw (i : nat) (j l : bool) : R := if j then 3%R else 5%R.
Definition ex_conv (t : R) : conv_cfg (bool -> R) :=
  rconv 2 1 1 (fun _ _ => [true; false]) (ex_w t) (Some (fun _ => (1 + t * 0)%R)) Zeros Zeros.
Definition ex_avg : pool_cfg (bool -> R) :=
  {| pk := 3; ps := 1; pp := 1; pd := 1; psp := fun x => x; pagg := ravg 3; pfill := Zeros; pmode := Zeros; pfdil := 1 |}.
Definition ex_M (t : R) : md (bool -> R) :=
  MSeq (map (fun M => M t)
    [(fun t => MConv (ex_conv t) obj_init); (fun _ => MMap (fun x i => exp (x i)));
     (fun t => MBR (map (fun M => M t) [(fun _ => MPool ex_avg obj_init); (fun _ => MDelay 1 Zeros ShNo obj_init)]) rmul_red)]).
Definition ex_D : md (dual (bool -> R)) :=
  MSeq [MConv (dual_conv (ex_conv 0) (fun i => lin (fun _ => [true; false]) (ex_dw i)) (fun _ => 0%R)) obj_init;
        MMap (dual_map (fun x i => exp (x i)) (fun x dx i => exp (x i) * dx i)%R);
        MBR [MPool (dual_pool ex_avg) obj_init; MDelay 1 Zeros ShNo obj_init] rmul_red'].

Lemma slope a c : derivable_pt_lim (fun t => a + t * c)%R 0 c.
Proof.
  intros e He. exists (mkposreal e He). intros h H0 _. replace ((a + (0 + h) * c - (a + 0 * c)) / h - c)%R with 0%R by (field; exact H0).
  now rewrite Rabs_R0.
Qed.

Example C80_real_example : moves deriv ex_M ex_D /\
  exists p0 p1 D1, feed (nstep true) ex_D [Du (fun _ => 1) (fun _ => 0); Du (fun _ => 2) (fun _ => 1); Du (fun _ => 3) (fun _ => 0)]%R
    = Ok ([None; Some p0; Some p1], D1).
Proof.
  split.
  - unfold ex_M, ex_D. apply mv_seq. constructor; [|constructor; [|constructor; [|constructor]]].
    + apply (mv_conv deriv ex_conv). unfold ex_conv.
      apply (conv_deriv 2 1 1 (fun _ _ => [true; false]) ex_w ex_dw (fun t _ => (1 + t * 0)%R) (fun _ => 0%R)).
      * intros i j l. unfold ex_w, ex_dw. destruct j; apply slope.
      * intros j. apply slope.
    + apply (mv_map deriv (fun _ x i => exp (x i))). intros g p Hg. apply (act_deriv exp exp); [apply derivable_pt_lim_exp|exact Hg].
    + apply (mv_br deriv [(fun _ => MPool ex_avg obj_init); (fun _ => MDelay 1 Zeros ShNo obj_init)] _ (fun _ => rmul_red)).
      * constructor; [|constructor; [|constructor]].
        -- apply (mv_pool deriv (fun _ => ex_avg)). apply avg_deriv.
        -- apply mv_delay. intros E. discriminate E.
      * apply mul_deriv.
  - do 3 eexists. unfold ex_D. cbn [feed]. unfold nstep. cbn. reflexivity.
Qed.
