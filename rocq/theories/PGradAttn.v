(** C81: gradients through attention. *)
From Coq Require Import List ZArith Bool Arith Lia Reals Lra.
From Verif Require Import Base Attn AttnSpec AttnThm AttnMore Grad GradAttn GradAttnSpec GradAttnProof.
Import ListNotations.

(** Numbers with tangents obey the laws of arithmetic whenever the numbers do.  So
    every theorem about attention that holds for numbers with these laws, among them
    C29 to C31, holds with gradients. *)
Theorem C81_numbers_with_tangents : forall (K : Type) (NK : Num K), NumLaws K -> NumLaws (dual K).
Proof. exact @dual_numlaws. Qed.
Print Assumptions C81_numbers_with_tangents.

(** Parameters and tokens that depend on a real number [t] along any differentiable
    curves; tokens and module with tangents [ps], [c'].  Differentiating through the
    retroactive steps gives at every step the derivative of what is returned, in
    every entry of every row.  It is also what differentiating forward on the window
    gives. *)
Theorem C81_retroactive_gradients :
  forall (c : R -> cfg R) (c' : cfg (dual R)) (gs : list (R -> tok R)) (ps : list (tok (dual R))) h,
    dcfg c c' -> supported c' -> (forall t, supported (c t)) -> 2 <= c_N c' -> Forall2 dtok gs ps ->
    exists zs o' h', m_run c' (re_sdpa c') None ps h = Ok (zs, o', h') /\
      (forall n d, n < length ps -> nth n zs d = if n + 1 <? c_N c' then None
         else Some (mha_forward c' (window (c_N c') n (qs_of ps)) (window (c_N c') n (ks_of ps)) (window (c_N c') n (vs_of ps)))) /\
      exists outs, (forall t, exists o1 h1, m_run (c t) (re_sdpa (c t)) None (map (fun g => g t) gs) h = Ok (outs t, o1, h1)) /\
        dlist (dopt (dlist dvec)) outs zs.
Proof. exact re_gradients. Qed.
Print Assumptions C81_retroactive_gradients.

(** The same for single-output attention, for every query index. *)
Theorem C81_single_output_gradients :
  forall (c : R -> cfg R) (c' : cfg (dual R)) query_index (gs : list (R -> tok R)) (ps : list (tok (dual R))) h,
    dcfg c c' -> supported c' -> (forall t, supported (c t)) -> 0 < c_N c' ->
    (- Z.of_nat (c_N c') <= query_index < Z.of_nat (c_N c'))%Z -> Forall2 dtok gs ps ->
    exists zs o' h', m_run c' (so_sdpa c' query_index) None ps h = Ok (zs, o', h') /\
      (forall n d, n < length ps -> if n + 1 <? c_N c' then nth n zs d = None
         else exists r, nth n zs d = Some r /\
           so_forward c' true query_index (window (c_N c') n (qs_of ps)) (window (c_N c') n (ks_of ps)) (window (c_N c') n (vs_of ps)) = Ok r) /\
      exists outs, (forall t, exists o1 h1, m_run (c t) (so_sdpa (c t) query_index) None (map (fun g => g t) gs) h = Ok (outs t, o1, h1)) /\
        dlist (dopt (dlist dvec)) outs zs.
Proof. exact so_gradients. Qed.
Print Assumptions C81_single_output_gradients.

(** Modules given by their parameters satisfy the hypotheses: every weight, every
    bias and every token may move. *)
Theorem C81_parameters_rule :
  forall N E (P : R -> params R) (P' : params (dual R)), dparams P P' -> dcfg (fun t => param_cfg N E (P t)) (param_cfg N E P').
Proof. exact param_moves. Qed.
Print Assumptions C81_parameters_rule.

(** There is one such derivative. *)
Theorem C81_derivative_unique : forall (g : R -> R) p q, dnum g p -> dnum g q -> p = q.
Proof.
  intros g [a b] [a' b'] [H1 H2] [H3 H4]. cbn in *. f_equal; [congruence|]. eapply uniqueness_limite; eauto.
Qed.
Print Assumptions C81_derivative_unique.

(** Two heads with one entry each.  The first weight of the queries moves, and so does
    the first token. *)
Definition ex_P (t : R) : params R :=
  {| wi j := [[([2 + t * 3; 1], INR j)]; [([1; INR j + t * 0], 0)]];
     wo := [([1; 2], 0); ([3; 1], 1 + t * 1)]; rt := 1 |}%R.
Definition ex_P' : params (dual R) :=
  {| wi j := [[([Du 2 3; Du 1 0], Du (INR j) 0)]; [([Du 1 0; Du (INR j) 0], Du 0 0)]];
     wo := [([Du 1 0; Du 2 0], Du 0 0); ([Du 3 0; Du 1 0], Du 1 1)]; rt := Du 1 0 |}%R.
Definition ex_tok (a b : R) (t : R) : tok R := ([a + t * b; 1]%R, [a + t * b; 1]%R, [a + t * b; 1]%R).
Definition ex_tok' (a b : R) : tok (dual R) := ([Du a b; Du 1 0]%R, [Du a b; Du 1 0]%R, [Du a b; Du 1 0]%R).

Lemma slope1 a b : dnum (fun t => a + t * b)%R (Du a b).
Proof.
  split; [cbn; ring|]. cbn. intros e He. exists (mkposreal e He). intros h H0 _.
  replace ((a + (0 + h) * b - (a + 0 * b)) / h - b)%R with 0%R by (field; exact H0). now rewrite Rabs_R0.
Qed.
Lemma cons1 {A B} (T : (R -> A) -> B -> Prop) x y g p : T x y -> dlist T g p -> dlist T (fun t => x t :: g t) (y :: p).
Proof. intros H (gs & E & F). exists (x :: gs). split; [intros t; cbn; now rewrite E|]. now constructor. Qed.

Example C81_example :
  dparams ex_P ex_P' /\ supported (param_cfg 2 1 ex_P') /\ (forall t, supported (param_cfg 2 1 (ex_P t))) /\
  Forall2 dtok [ex_tok 1 1; ex_tok 2 0; ex_tok 3 0] [ex_tok' 1 1; ex_tok' 2 0; ex_tok' 3 0].
Proof.
  pose proof (@cons1 R (dual R) dnum) as C1. pose proof (fun a => dn_const a) as C0.
  assert (S : forall a, dnum (fun t => a + t * 0)%R (Du a 0%R)) by (intros; apply slope1).
  split; [split|split; [|split]].
  - intros j. cbn [wi ex_P ex_P'].
    apply (cons1 (dlist drow) (fun t => [([2 + t * 3; 1], INR j)]%R)); [|apply (cons1 (dlist drow) (fun t => [([1; INR j + t * 0], 0)]%R)); [|apply dl_nil]].
    + apply (cons1 drow (fun t => ([2 + t * 3; 1], INR j)%R)); [|apply dl_nil]. split; cbn [fst snd]; [|apply C0].
      apply (C1 (fun t => 2 + t * 3)%R); [apply slope1|]. apply (C1 (fun t => 1)%R); [apply C0|apply dl_nil].
    + apply (cons1 drow (fun t => ([1; INR j + t * 0], 0)%R)); [|apply dl_nil]. split; cbn [fst snd]; [|apply C0].
      apply (C1 (fun t => 1)%R); [apply C0|]. apply (C1 (fun t => INR j + t * 0)%R); [apply S|apply dl_nil].
  - cbn [wo ex_P ex_P'].
    apply (cons1 drow (fun t => ([1; 2], 0)%R)); [|apply (cons1 drow (fun t => ([3; 1], 1 + t * 1)%R)); [|apply dl_nil]]; split; cbn [fst snd].
    + apply (C1 (fun t => 1)%R); [apply C0|]. apply (C1 (fun t => 2)%R); [apply C0|apply dl_nil].
    + apply C0.
    + apply (C1 (fun t => 3)%R); [apply C0|]. apply (C1 (fun t => 1)%R); [apply C0|apply dl_nil].
    + apply slope1.
  - cbn. split; [apply C0|lra].
  - unfold supported. cbn. repeat split; lia.
  - intros t. unfold supported. cbn. repeat split; lia.
  - assert (T : forall a b, dtok (ex_tok a b) (ex_tok' a b)).
    { intros a b. repeat split; cbn [fst snd ex_tok ex_tok'];
        (apply (C1 (fun t => a + t * b)%R); [apply slope1|]; apply (C1 (fun t => 1)%R); [apply C0|apply dl_nil]). }
    repeat constructor; apply T.
Qed.

(** Numbers to which [C81_numbers_with_tangents] applies and that can be computed: the
    integers, with a polynomial for the exponential function.  The tangent of an output
    of the steps is not zero. *)
#[local] Instance ex_num : Num Z :=
  {| k0 := 0; k1 := 1; kadd := Z.add; kopp := Z.opp; kmul := Z.mul; kdiv := Z.mul; kexp x := x * x + 1 |}%Z.
Lemma ex_laws : NumLaws Z.
Proof. split; intros; cbn [k0 k1 kadd kopp kmul kdiv ex_num]; ring. Qed.
Definition ex_Q : params (dual Z) :=
  {| wi j := [[([Du 2 3; Du 1 0], Du (Z.of_nat j) 0)]; [([Du 1 0; Du (Z.of_nat j) 0], Du 0 0)]];
     wo := [([Du 1 0; Du 2 0], Du 0 0); ([Du 3 0; Du 1 0], Du 1 1)]; rt := Du 1 0 |}%Z.
Definition ex_tz (a b : Z) : tok (dual Z) := ([Du a b; Du 1 0]%Z, [Du a b; Du 1 0]%Z, [Du a b; Du 1 0]%Z).
Example C81_numbers_example :
  match m_run (param_cfg 2 1 ex_Q) (re_sdpa (param_cfg 2 1 ex_Q)) None [ex_tz 1 1; ex_tz 2 0; ex_tz 3 0] [] with
  | Ok ([None; Some ((a :: _) :: _); Some _], _, _) => tan a <> 0%Z
  | _ => False
  end.
Proof. vm_compute. discriminate. Qed.
