(** C76: the number of operations of continual attention, and what the modules report. *)
From Coq Require Import List ZArith QArith Qcanon Bool Arith Lia.
From Verif Require Import Base Tensor TAttn Attn AttnMemSpec Count CountSpec CountProof CountThm ZAttn.
Import ListNotations.
Close Scope Q_scope.
Close Scope Qc_scope.
Open Scope nat_scope.

(** Every step of the single-output module costs the same, whatever calls came before,
    and also during start-up when it returns None. The counted run returns what the run
    of C29 and C61 returns. *)
Theorem C76_single_steps :
  forall (K : Type) (NK : Num K) (m : tattn K) B query_index ts history h,
    0 < B * t_H m -> 0 < t_N m -> 0 < t_D m ->
    let o := fst (ahist (acfg m B) (ts_sdpa m query_index) None [] history) in
    c_single m query_index B o ts h
    = costing (m_run (acfg m B) (ts_sdpa m query_index) o ts h) (times (length ts) (single_step m B)).
Proof. exact @single_run. Qed.
Print Assumptions C76_single_steps.

(** The same for the retroactive module. *)
Theorem C76_retro_steps :
  forall (K : Type) (NK : Num K) (m : tattn K) B ts history h,
    0 < B * t_H m -> 0 < t_N m -> 0 < t_D m ->
    let o := fst (ahist (acfg m B) (tr_sdpa m) None [] history) in
    c_retro m B o ts h
    = costing (m_run (acfg m B) (tr_sdpa m) o ts h) (times (length ts) (retro_step m B)).
Proof. exact @retro_run. Qed.
Print Assumptions C76_retro_steps.

(** forward on a window, and with single_output_forward. *)
Theorem C76_forward :
  forall (K : Type) (NK : Num K) (m : tattn K) B qs ks vs,
    length qs = t_N m -> length ks = t_N m -> length vs = t_N m -> 0 < t_N m -> 0 < t_D m ->
    c_forward m B qs ks vs = (mha_forward (acfg m B) qs ks vs, full_forward m B).
Proof. exact @full_cost. Qed.
Print Assumptions C76_forward.
Theorem C76_single_output_forward :
  forall (K : Type) (NK : Num K) (m : tattn K) B q ks vs,
    length ks = t_N m -> length vs = t_N m -> 0 < t_N m -> 0 < t_D m ->
    c_forward m B [q] ks vs = (mha_forward (acfg m B) [q] ks vs, single_forward m B).
Proof. exact @one_cost. Qed.
Print Assumptions C76_single_output_forward.

(** Feeding a window of N tokens through single-output steps costs exactly as much as one
    ordinary forward on the window: a step costs one N-th of it. *)
Theorem C76_window :
  forall (K : Type) (m : tattn K) B, 0 < t_N m -> 0 < t_D m ->
    times (t_N m) (single_step m B) = full_forward m B.
Proof. exact @window_cost. Qed.
Print Assumptions C76_window.

(** A single-output step never costs more than a forward of either kind; a retroactive step
    never costs more than forward, for windows of at least three tokens; for two tokens it
    may take more additions. *)
Theorem C76_single_cheaper :
  forall (K : Type) (m : tattn K) B, 0 < t_N m -> 0 < t_D m ->
    cheaper (single_step m B) (single_forward m B) /\ cheaper (single_step m B) (full_forward m B).
Proof. exact @single_cheaper. Qed.
Print Assumptions C76_single_cheaper.
Theorem C76_retro_cheaper :
  forall (K : Type) (m : tattn K) B, 3 <= t_N m -> 0 < t_D m ->
    cheaper (single_step m B) (retro_step m B) /\ cheaper (retro_step m B) (full_forward m B).
Proof. intros K m B P Q. split; [apply single_below_retro; lia|exact (retro_cheaper m B P Q)]. Qed.
Print Assumptions C76_retro_cheaper.
Theorem C76_retro_two_tokens :
  forall (K : Type) (m : tattn K) B, 2 <= t_N m -> 0 < t_H m -> 0 < t_D m ->
    muls (retro_step m B) <= muls (full_forward m B) /\ exps (retro_step m B) <= exps (full_forward m B).
Proof. exact @retro_fewer_muls. Qed.
Print Assumptions C76_retro_two_tokens.
Definition sized (N H D : nat) (bias : bool) : tattn Z := {|
  t_N := N; t_H := H; t_D := D; t_scale := fun x => x; t_win := [];
  t_bin := if bias then Some [] else None; t_wout := []; t_bout := None; t_bf := false; t_eds := false |}.
Theorem C76_retro_two_tokens_adds_refuted :
  ~ forall (m : tattn Z) B, 2 <= t_N m -> 0 < t_H m -> 0 < t_D m -> adds (retro_step m B) <= adds (full_forward m B).
Proof.
  intros X. specialize (X (sized 2 1 1 false) 1). vm_compute in X.
  assert (Y : (6 <= 4)%nat) by (apply X; lia). lia.
Qed.
Print Assumptions C76_retro_two_tokens_adds_refuted.

(** What the functions of mha_base.py, single_output_mha.py and retroactive_mha.py report
    for one head: the exponentials are exact, and so are the additions of a single-output
    step; the other numbers are off. *)
Theorem C76_head_reports :
  forall n d : nat, 0 < n -> 0 < d -> (let zn := Z.of_nat n in let zd := Z.of_nat d in
  (f_single zn zd true false false = Z.of_nat (muls (single_head n d)) + zd - zn
   /\ f_single zn zd false true false = Z.of_nat (adds (single_head n d))
   /\ f_single zn zd false false true = Z.of_nat (exps (single_head n d)))
  /\ (f_retro zn zd true false false = Z.of_nat (muls (retro_head n d)) + 2 * zn
   /\ f_retro zn zd false true false = Z.of_nat (adds (retro_head n d)) + 3 * zn - zd - 2
   /\ f_retro zn zd false false true = Z.of_nat (exps (retro_head n d)))
  /\ (f_forward zn zd true false false = Z.of_nat (muls (full_head n d)) + zn * zd - zn * zn
   /\ f_forward zn zd false true false = Z.of_nat (adds (full_head n d)) - 2 * zn * zn * (zd - 1)
   /\ f_forward zn zd false false true = Z.of_nat (exps (full_head n d))))%Z.
Proof. exact head_reports. Qed.
Print Assumptions C76_head_reports.

(** What [flops()] reports for a call, next to the multiplications of one sample: the
    biases are counted as multiplications. *)
Theorem C76_module_reports :
  forall (K : Type) (m : tattn K), 0 < t_N m -> 0 < t_H m -> 0 < t_D m ->
  let n := Z.of_nat (t_N m) in let H := Z.of_nat (t_H m) in let E := (H * Z.of_nat (t_D m))%Z in
  let bias := if has (t_bin m) then 1%Z else 0%Z in
  (re_reports m MStep true false false = Ok (Z.of_nat (muls (retro_step m 1)) + 3 * E * bias + 2 * n * H + n * E)
   /\ re_reports m MForward true false false = Ok (Z.of_nat (muls (full_forward m 1)) + 3 * n * E * bias + 2 * n * E - n * n * H)
   /\ (forall s, so_reports m s MStep true false false = Ok (Z.of_nat (muls (single_step m 1)) + 3 * E * bias + 2 * E - n * H))
   /\ so_reports m true MForward true false false
      = Ok (Z.of_nat (muls (single_forward m 1)) + 3 * E * bias + 2 * E - n * H - 2 * (n - 1) * E * E))%Z.
Proof.
  intros K m P1 P2 P3. repeat apply conj.
  - exact (retro_report m P1 P2 P3).
  - exact (retro_forward_report m P1 P2 P3).
  - exact (single_report m P1 P2 P3).
  - exact (single_forward_report m P1 P2 P3).
Qed.
Print Assumptions C76_module_reports.

(** So the report for a retroactive step covers its multiplications. For the other calls it
    need not, nor for more than one sample. *)
Theorem C76_retro_report_covers :
  forall (K : Type) (m : tattn K), 0 < t_N m -> 0 < t_H m -> 0 < t_D m ->
    exists r, re_reports m MStep true false false = Ok r /\ (Z.of_nat (muls (retro_step m 1)) <= r)%Z.
Proof.
  intros K m P1 P2 P3. eexists. split; [exact (retro_report m P1 P2 P3)|]. destruct (has (t_bin m)); lia.
Qed.
Print Assumptions C76_retro_report_covers.
Theorem C76_reports_cover_refuted :
  (~ forall m : tattn Z, 0 < t_N m -> 0 < t_H m -> 0 < t_D m ->
     forall r, so_reports m true MStep true false false = Ok r -> (Z.of_nat (muls (single_step m 1)) <= r)%Z)
  /\ (~ forall m : tattn Z, 0 < t_N m -> 0 < t_H m -> 0 < t_D m ->
     forall r, re_reports m MForward true false false = Ok r -> (Z.of_nat (muls (full_forward m 1)) <= r)%Z)
  /\ (~ forall m : tattn Z, 0 < t_N m -> 0 < t_H m -> 0 < t_D m ->
     forall r, so_reports m true MForward true false false = Ok r -> (Z.of_nat (muls (single_forward m 1)) <= r)%Z)
  /\ (~ forall (m : tattn Z) B, 0 < t_N m -> 0 < t_H m -> 0 < t_D m ->
     forall r, re_reports m MStep true false false = Ok r -> (Z.of_nat (muls (retro_step m B)) <= r)%Z).
Proof.
  repeat apply conj; intros X.
  - specialize (X (sized 30 2 4 true) ltac:(cbn; lia) ltac:(cbn; lia) ltac:(cbn; lia) _ eq_refl). vm_compute in X. congruence.
  - specialize (X (sized 60 2 4 true) ltac:(cbn; lia) ltac:(cbn; lia) ltac:(cbn; lia) _ eq_refl). vm_compute in X. congruence.
  - specialize (X (sized 4 2 4 true) ltac:(cbn; lia) ltac:(cbn; lia) ltac:(cbn; lia) _ eq_refl). vm_compute in X. congruence.
  - specialize (X (sized 4 2 4 true) 2 ltac:(cbn; lia) ltac:(cbn; lia) ltac:(cbn; lia) _ eq_refl). vm_compute in X. congruence.
Qed.
Print Assumptions C76_reports_cover_refuted.

(** The number of additions reported for forward can be negative; with every flag off the
    projections are still reported; in the mode forward_steps the report raises. *)
Theorem C76_negative_refuted : ~ forall n d : nat, 0 < n -> 0 < d -> (0 <= f_forward (Z.of_nat n) (Z.of_nat d) false true false)%Z.
Proof. intros X. specialize (X 2 8 ltac:(lia) ltac:(lia)). vm_compute in X. congruence. Qed.
Print Assumptions C76_negative_refuted.
Theorem C76_flags_refuted :
  ~ forall (m : tattn Z) r, 0 < t_N m -> 0 < t_H m -> 0 < t_D m -> re_reports m MStep false false false = Ok r -> r = 0%Z.
Proof. intros X. specialize (X (sized 4 2 4 true) _ ltac:(cbn; lia) ltac:(cbn; lia) ltac:(cbn; lia) eq_refl). vm_compute in X. congruence. Qed.
Print Assumptions C76_flags_refuted.
Theorem C76_forward_steps_raises :
  forall (K : Type) (m : tattn K) s fm fa fe,
    re_reports m MSteps fm fa fe = Err KeyError /\ so_reports m s MSteps fm fa fe = Err KeyError.
Proof. intros. split; reflexivity. Qed.
Print Assumptions C76_forward_steps_raises.

(** Inside of a call-mode context the counter of ptflops reports the operations of the
    module's own mode, not of the call that was made. *)
Theorem C76_context_refuted :
  ~ forall (n E H : Z) bias ctx own, (0 < n -> 0 < E -> 0 < H ->
      re_hook n E H bias ctx own = re_flops n E H bias (mode_of_call ctx own) true false false)%Z.
Proof. intros X. specialize (X 4 8 2 true (Some MStep) MForward ltac:(lia) ltac:(lia) ltac:(lia))%Z. vm_compute in X. congruence. Qed.
Print Assumptions C76_context_refuted.

(* ------------------------------------------------------------------ *)

(** Two heads of dimension two, windows of three tokens, a batch of two, biases. *)
Definition ex_c : tattn Qc := {|
  t_N := 3; t_H := 2; t_D := 2; t_scale := fun x => (x * Q2Qc (1 # 2))%Qc;
  t_win := map (fun i => z (Z.of_nat (i mod 5) - 2)) (seq 0 48); t_bin := Some (map (fun i => z (Z.of_nat (i mod 3))) (seq 0 12));
  t_wout := map (fun i => z (Z.of_nat (i mod 4) - 1)) (seq 0 16); t_bout := None; t_bf := false; t_eds := false |}.
Definition ex_t (a : nat) : tok Qc := let x := map (fun i => z (Z.of_nat ((a * i) mod 5))) (seq 0 8) in (x, x, x).
Definition cost_of {A} (r : res (cnt A)) : res cost := match r with Ok (_, c) => Ok c | Err e => Err e end.

(** Counted by running the program: four steps, and forward on three tokens. *)
Example C76_ex_single : cost_of (c_single ex_c (-1) 2 None [ex_t 1; ex_t 2; ex_t 3; ex_t 4] [])
  = Ok (times 4 (Cost (2 * (3 * 16 + 2 * 17 + 16)) (2 * (3 * 16 + 2 * 9 + 12)) (2 * 2 * 3))).
Proof. vm_compute. reflexivity. Qed.
Example C76_ex_retro : cost_of (c_retro ex_c 2 None [ex_t 1; ex_t 2; ex_t 3; ex_t 4] [])
  = Ok (times 4 (Cost (2 * (3 * 16 + 2 * 36 + 3 * 16)) (2 * (3 * 16 + 2 * 25 + 3 * 12)) (2 * 2 * 7))).
Proof. vm_compute. reflexivity. Qed.
Example C76_ex_forward : snd (c_forward ex_c 2 (map (fun a => fst (fst (ex_t a))) [1; 2; 3]) (map (fun a => fst (fst (ex_t a))) [1; 2; 3]) (map (fun a => fst (fst (ex_t a))) [1; 2; 3]))
  = times 3 (single_step ex_c 2).
Proof. vm_compute. reflexivity. Qed.
Example C76_ex_report : re_reports ex_c MStep true false false = Ok 204%Z /\ muls (retro_step ex_c 1) = 168.
Proof. split; reflexivity. Qed.
(** After a clip with update_state=False, clean_state and one more step. *)
Example C76_ex_history :
  let o := fst (ahist (acfg ex_c 2) (tr_sdpa ex_c) None [] [AStep (ex_t 1) true; ASteps [ex_t 2; ex_t 3] false; AClean; AStep (ex_t 4) true]) in
  match o with Some _ => True | None => False end /\ cost_of (c_retro ex_c 2 o [ex_t 1] []) = Ok (retro_step ex_c 2).
Proof. split; vm_compute; [exact I|reflexivity]. Qed.
