(** The attention modules of [Attn.v] and [TAttn.v], with every arithmetic operation on
    numbers counted. Each definition repeats its counterpart, operation by operation;
    [CountProof.v] shows that the values are the same. *)
From Coq Require Import List ZArith Bool Arith.
From Verif Require Import Base Tensor TAttn Attn.
Import ListNotations.

(** Numbers of multiplications and divisions, of additions and subtractions, and of
    exponentials: the three kinds told apart by include_muls, include_adds and
    include_exps (mha_base.py 595-597). *)
Record cost := Cost { muls : nat; adds : nat; exps : nat }.
Definition free : cost := Cost 0 0 0.
Definition plus (a b : cost) : cost := Cost (muls a + muls b) (adds a + adds b) (exps a + exps b).

(** A computation and what it costs. *)
Definition cnt (A : Type) : Type := A * cost.
Definition ret {A} (a : A) : cnt A := (a, free).
Definition then_ {A B} (x : cnt A) (f : A -> cnt B) : cnt B :=
  let '(a, c) := x in let '(b, d) := f a in (b, plus c d).
Notation "x <~ e ;; f" := (then_ e (fun x => f)) (at level 61, e at next level, right associativity).
Fixpoint cseq {A} (l : list (cnt A)) : cnt (list A) :=
  match l with [] => ret [] | x :: l => a <~ x ;; r <~ cseq l ;; ret (a :: r) end.
Definition cmap {A B} (f : A -> cnt B) (l : list A) : cnt (list B) := cseq (map f l).
Definition cmap2 {A B C} (f : A -> B -> cnt C) (l : list A) (m : list B) : cnt (list C) := cseq (map2 f l m).
Definition cmap3 {A B C D} (f : A -> B -> C -> cnt D) (l : list A) (m : list B) (n : list C) : cnt (list D) := cseq (map3 f l m n).

Section Count.
Context {K : Type} {NK : Num K}.
Local Notation vec := (list K).

(** ** Operations on numbers *)
Definition one_mul : cost := Cost 1 0 0.
Definition one_add : cost := Cost 0 1 0.
Definition one_exp : cost := Cost 0 0 1.
Definition cadd (a b : K) : cnt K := (kadd a b, one_add).
Definition csub (a b : K) : cnt K := (ksub a b, one_add).
Definition cmul (a b : K) : cnt K := (kmul a b, one_mul).
Definition cdiv (a b : K) : cnt K := (kdiv a b, one_mul).
Definition cexp (a : K) : cnt K := (kexp a, one_exp).
(** Division by [math.sqrt(E)]. *)
Definition cscale (scale : K -> K) (a : K) : cnt K := (scale a, one_mul).
(** A sum of n numbers takes n - 1 additions. *)
Definition csum (l : list K) : cnt K := (ksum l, Cost 0 (length l - 1) 0).
Definition ctab (E : nat) (f : nat -> cnt K) : cnt vec := cmap f (seq 0 E).

(** ** One head: [dot], [wsum], [softmax], [so_step], [re_step] of Attn.v *)
Definition c_dot (E : nat) (q k : vec) : cnt K :=
  ps <~ ctab E (fun e => cmul (at_ q e) (at_ k e)) ;; csum ps.
Definition c_wsum (E : nat) (ws : list K) (vs : list vec) : cnt vec :=
  ctab E (fun e => ps <~ cmap2 (fun w v => cmul w (at_ v e)) ws vs ;; csum ps).
Definition c_softmax (x : list K) : cnt (list K) :=
  es <~ cmap cexp x ;; s <~ csum es ;; cmap (fun e => cdiv e s) es.

(** single_output_mha.py 46-117: the division at 87, bmm at 100, softmax at 101, bmm at
    107. [torch.roll] and the writes into memory compute nothing. *)
Definition c_so_step (E : nat) (scale : K -> K) (s : so_state) (q k v : vec) : res (cnt (list vec * so_state)) :=
  K_new <- roll_in (so_K s) k ;;
  V_new <- roll_in (so_V s) v ;;
  Ok (q <~ cmap (cscale scale) q ;;
      let q_sel := match so_Q s with q0 :: _ => q0 | [] => q end in
      attn <~ cmap (c_dot E q_sel) K_new ;;
      w <~ c_softmax attn ;;
      output <~ c_wsum E w V_new ;;
      let Q_new := match so_Q s with [] => [] | _ :: t => t ++ [q] end in
      ret ([output], SoS Q_new K_new V_new)).

(** retroactive_mha.py 47-144: the division at 86, A_left 95, A_right 98, A_bottom 108, d
    111-117, AV_sub, AV_add and AV_top 120-122, AV_bottom 129, output 134. *)
Definition c_re_step (E : nat) (scale : K -> K) (s : re_state) (q k v : vec) : res (cnt (list vec * re_state)) :=
  k_old <- first_row (re_K s) ;;
  Q_new' <- roll_in (re_Q s) q ;;
  K_new <- roll_in (re_K s) k ;;
  v_old <- first_row (re_V s) ;;
  V_new <- roll_in (re_V s) v ;;
  Ok (q <~ cmap (cscale scale) q ;;
      A_left <~ cmap (fun qm => d <~ c_dot E qm k_old ;; cexp d) (re_Q s) ;;
      A_right <~ cmap (fun qm => d <~ c_dot E qm k ;; cexp d) (re_Q s) ;;
      A_bottom <~ cmap (fun kk => d <~ c_dot E q kk ;; cexp d) K_new ;;
      d_top <~ cmap3 (fun d l r => x <~ csub d l ;; cadd x r) (re_d s) A_left A_right ;;
      d_last <~ csum A_bottom ;;
      let d := d_top ++ [d_last] in
      AV_sub <~ cmap (fun l => ctab E (fun e => cmul l (at_ v_old e))) A_left ;;
      AV_add <~ cmap (fun r => ctab E (fun e => cmul r (at_ v e))) A_right ;;
      AV_top <~ cmap3 (fun av l r => ctab E (fun e => x <~ csub (at_ av e) (at_ l e) ;; cadd x (at_ r e))) (re_AV s) AV_sub AV_add ;;
      AV_bottom <~ c_wsum E A_bottom V_new ;;
      let AV_new := AV_top ++ [AV_bottom] in
      output <~ cmap2 (fun av dd => ctab E (fun e => cdiv (at_ av e) dd)) AV_new d ;;
      ret (output, ReS (tl d) (tl AV_new) (tl (re_Q s) ++ [q]) K_new V_new)).

(** ** Projections: [linear], [in_proj] and [out_proj] of TAttn.v *)

(** [F.linear]: the bias, if there is one, takes one addition per entry. *)
Definition c_linear (R I O : nat) (w : list K) (b : option (list K)) (x : list K) : cnt (list K) :=
  cseq (Tensor.tab [R; O] (fun ix => match ix with
    | [r; o] =>
        ps <~ cmap (fun i => cmul (Tensor.at_ [R; I] x [Z.of_nat r; Z.of_nat i]) (Tensor.at_ [O; I] w [Z.of_nat o; Z.of_nat i])) (seq 0 I) ;;
        s <~ csum ps ;;
        match b with Some _ => cadd (bias_at b o) s | None => ret (kadd (bias_at b o) s) end
    | _ => ret k0
    end)).

Section Module.
Variable m : tattn K.
Local Notation E := (t_H m * t_D m).
Definition c_in_proj (i B : nat) (x : list K) : cnt (list K) :=
  c_linear B E E (chunk i (E * E) (t_win m)) (option_map (chunk i E) (t_bin m)) x.
Definition c_out_proj (B : nat) (hs : list (list K)) : cnt (list K) :=
  c_linear B E E (t_wout m) (t_bout m) (concat hs).

(** ** forward: [mha_forward] of Attn.v for [acfg m B]. Every token is projected once. *)
Definition c_attend (q : vec) (keys vals : list vec) : cnt vec :=
  attn <~ cmap (c_dot (t_D m) q) keys ;;
  w <~ c_softmax attn ;;
  c_wsum (t_D m) w vals.
Definition c_forward (B : nat) (qs ks vs : list vec) : cnt (list vec) :=
  qs <~ cmap (c_in_proj 0 B) qs ;;
  ks <~ cmap (c_in_proj 1 B) ks ;;
  vs <~ cmap (c_in_proj 2 B) vs ;;
  qs <~ cmap (fun q => cmap (cmap (cscale (t_scale m))) (heads m B q)) qs ;;
  cmap (fun q =>
    hs <~ cmap (fun h => c_attend (head h q) (map (fun k => head h (heads m B k)) ks)
                                  (map (fun v => head h (heads m B v)) vs)) (seq 0 (B * t_H m)) ;;
    c_out_proj B hs) qs.

(** ** Steps: [heads_step], [join_heads], [mh_forward_step], [m_fstep], [m_run] of Attn.v,
    for a subclass [p] whose step function is counted by [f]. *)
Section Steps.
Variables (p : sdpa K) (f : p_state p -> vec -> vec -> vec -> res (cnt (list vec * p_state p))).
Fixpoint c_heads (ss : list (p_state p)) (qs ks vs : list vec) : res (cnt (list (list vec) * list (p_state p))) :=
  match ss, qs, ks, vs with
  | [], [], [], [] => Ok (ret ([], []))
  | s :: ss, q :: qs, k :: ks, v :: vs =>
      x <- f s q k v ;;
      y <- c_heads ss qs ks vs ;;
      Ok (x <~ x ;; y <~ y ;; ret (fst x :: fst y, snd x :: snd y))
  | _, _, _, _ => Err RuntimeError
  end.
Definition c_join (B : nat) (os : list (list vec)) : cnt (list vec) :=
  let rows := match os with [] => 0 | o :: _ => length o end in
  cmap (fun i => c_out_proj B (map (fun o => nth i o []) os)) (seq 0 rows).
Definition c_mh_step (B : nat) (ss : list (p_state p)) (t : tok K) : res (cnt (list vec * list (p_state p))) :=
  let '(q, k, v) := t in
  let '(q, cq) := c_in_proj 0 B q in
  let '(k, ck) := c_in_proj 1 B k in
  let '(v, cv) := c_in_proj 2 B v in
  y <- c_heads ss (heads m B q) (heads m B k) (heads m B v) ;;
  Ok (u <~ (tt, plus cq (plus ck cv)) ;;
      y <~ y ;;
      rows <~ c_join B (fst y) ;;
      ret (rows, snd y)).
(** The counter of the start-up is bookkeeping and not counted. *)
Definition c_fstep (B : nat) (t : tok K) (prev : option (mstate p)) (h : cells)
  : res (cnt (option (list vec) * mstate p * cells)) :=
  let '((mem, r), h) :=
    match prev with
    | Some s => (s, h)
    | None => let '(r, h) := cell_new h (- Z.of_nat (t_N m)) in ((repeat (p_default p) (B * t_H m), r), h)
    end in
  y <- c_mh_step B mem t ;;
  let h := if Z.ltb (cell_get h r) 0 then set_nth h r (cell_get h r + 1)%Z else h in
  Ok (y <~ y ;; ret (if Z.ltb (cell_get h r) 0 then None else Some (fst y), (snd y, r), h)).
(** A stream fed with forward_step. *)
Fixpoint c_run (B : nat) (o : option (mstate p)) (ts : list (tok K)) (h : cells)
  : res (cnt (list (option (list vec)) * option (mstate p) * cells)) :=
  match ts with
  | [] => Ok (ret ([], o, h))
  | t :: ts =>
      x <- c_fstep B t o h ;;
      let '((out, s, h), c) := x in
      y <- c_run B (Some s) ts h ;;
      Ok (u <~ (tt, c) ;; y <~ y ;; ret (out :: fst (fst y), snd (fst y), snd y))
  end.
End Steps.

(** The two modules. *)
Definition c_single (query_index : Z) := c_run (ts_sdpa m query_index) (c_so_step (t_D m) (t_scale m)).
Definition c_retro := c_run (tr_sdpa m) (c_re_step (t_D m) (t_scale m)).
End Module.
End Count.

(** ** What the modules report *)

(** The call modes, module.py 42-48. [self.call_mode] of a module. *)
Inductive cmode := MForward | MStep | MSteps.
Local Open Scope Z_scope.

(** scaled_dot_prod_attn_flops, mha_base.py 595-610. Python's integers. *)
Definition f_forward (n d : Z) (include_muls include_adds include_exps : bool) : Z :=
  (if include_muls then 2 * n * n * d + 2 * n * d else 0)
  + (if include_adds then 2 * n * n - n * d - n else 0)
  + (if include_exps then n * n else 0).
(** single_output_scaled_dot_prod_attn_flops, single_output_mha.py 448-463. *)
Definition f_single (n d : Z) (include_muls include_adds include_exps : bool) : Z :=
  (if include_muls then 2 * n * d + 2 * d else 0)
  + (if include_adds then 2 * n * d - d - 1 else 0)
  + (if include_exps then n else 0).
(** retractive_scaled_dot_prod_attn_step_flops, retroactive_mha.py 419-434. *)
Definition f_retro (n d : Z) (include_muls include_adds include_exps : bool) : Z :=
  (if include_muls then 7 * n * d + 2 * n - 3 * d else 0)
  + (if include_adds then 6 * n * d + 3 * n - 6 * d - 3 else 0)
  + (if include_exps then 3 * n - 2 else 0).

(** The projections of [steps_taken] tokens, in_proj_bias or not: the same lines in both
    modules, retroactive_mha.py 385-399 and single_output_mha.py 412-425. *)
Definition f_in (steps E : Z) (bias include_adds : bool) : Z :=
  steps * E * E * 3
  + (if include_adds then 3 * steps * E * (E - 1) else 0)
  + (if bias then 3 * steps * E + (if include_adds then 3 * steps * E else 0) else 0).

(** RetroactiveMultiheadAttention.flops, retroactive_mha.py 376-416. The dicts at 380-383
    and 402-405 have no entry for forward_steps. *)
Definition re_flops (n E H : Z) (bias : bool) (mode : cmode) (include_muls include_adds include_exps : bool) : res Z :=
  '(steps, f) <- match mode with
                 | MForward => Ok (n, f_forward)
                 | MStep => Ok (1, f_retro)
                 | MSteps => Err KeyError
                 end ;;
  Ok (f_in steps E bias include_adds
      + H * f n (E / H) include_muls include_adds include_exps
      + n * E * (E + 1)).
(** SingleOutputMultiheadAttention.flops, single_output_mha.py 402-445. *)
Definition so_flops (n E H : Z) (bias single_output_forward : bool) (mode : cmode) (include_muls include_adds include_exps : bool) : res Z :=
  '(steps, f) <- match mode with
                 | MForward => Ok (if single_output_forward then (1, f_single) else (n, f_forward))
                 | MStep => Ok (1, f_single)
                 | MSteps => Err KeyError
                 end ;;
  Ok (f_in steps E bias include_adds
      + H * f n (E / H) include_muls include_adds include_exps
      + 1 * E * (E + 1)).

(** The counter that ptflops attaches (ptflops.py 48-52, 74-80) runs after a call. The call
    itself takes the mode of an active context, else the mode of the module (module.py
    347); [flops] looks at the mode of the module. *)
Definition mode_of_call (context : option cmode) (own : cmode) : cmode :=
  match context with Some c => c | None => own end.
Definition re_hook (n E H : Z) (bias : bool) (context : option cmode) (own : cmode) : res Z :=
  re_flops n E H bias own true false false.
Definition so_hook (n E H : Z) (bias single_output_forward : bool) (context : option cmode) (own : cmode) : res Z :=
  so_flops n E H bias single_output_forward own true false false.
