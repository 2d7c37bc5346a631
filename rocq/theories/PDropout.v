(** C83: dropout in attention modules. *)
From Coq Require Import List ZArith Bool Arith Lia QArith Qcanon.
From Verif Require Import Base Attn AttnSpec AttnThm GradAttn Dropout DropoutProof.
Import ListNotations.
Open Scope nat_scope.

(** In evaluation mode, or with probability 0.0, all is as without dropout and nothing
    is drawn. *)
Theorem C83_evaluation_mode :
  forall (K : Type) (NK : Num K) coin (c : cfg K) training p query_index o u ts h pos qs ks vs,
    training = false \/ p = None ->
    m_run_d c training p (so_dsdpa coin c query_index) o ts h pos
      = ('(outs, o, h) <- m_run c (so_sdpa c query_index) o ts h ;; Ok (outs, o, h, pos))
    /\ m_run_d c training p (re_dsdpa c) u ts h pos
      = ('(outs, o, h) <- m_run c (re_sdpa c) u ts h ;; Ok (outs, o, h, pos))
    /\ mha_forward_d coin c training p pos qs ks vs = mha_forward c qs ks vs.
Proof.
  intros K NK coin c training p qi o u ts h pos qs ks vs Hd. split; [|split].
  - apply so_eval_run; exact Hd.
  - apply re_dropout_run.
  - apply forward_eval; exact Hd.
Qed.
Print Assumptions C83_evaluation_mode.

(** Single-output steps in training mode: the output of each step is what forward
    returns, with the same draws, for the window; every step makes new draws, one per
    head and entry of the window, also while it returns None. *)
Theorem C83_single_output_training :
  forall (K : Type) (NK : Num K) coin (c : cfg K), supported c ->
    forall query_index, 0 < c_N c -> (- Z.of_nat (c_N c) <= query_index < Z.of_nat (c_N c))%Z ->
    forall (training : bool) (p : option K) ts h pos,
    let per_step := c_H c * drawn (if training then p else None) (c_N c) in
    exists outs o' h',
      m_run_d c training p (so_dsdpa coin c query_index) None ts h pos = Ok (outs, o', h', pos + length ts * per_step)
      /\ length outs = length ts
      /\ (forall n d, n < length ts ->
          if n + 1 <? c_N c then nth n outs d = None
          else exists r, nth n outs d = Some r
            /\ so_forward_d coin c training p true query_index (pos + n * per_step)
                 (window (c_N c) n (qs_of ts)) (window (c_N c) n (ks_of ts)) (window (c_N c) n (vs_of ts)) = Ok r).
Proof. exact @so_dropout. Qed.
Print Assumptions C83_single_output_training.

(** No draw is ever stored: the memory is that of evaluation mode, from any state, and
    the same steps return None. *)
Theorem C83_no_draw_in_memory :
  forall (K : Type) (NK : Num K) coin (c : cfg K) query_index training p ts o h pos,
    match m_run c (so_sdpa c query_index) o ts h with
    | Ok (outs, o', h') => exists outs' pos',
        m_run_d c training p (so_dsdpa coin c query_index) o ts h pos = Ok (outs', o', h', pos')
        /\ Forall2 (fun a b => a = None <-> b = None) outs' outs
    | Err e => m_run_d c training p (so_dsdpa coin c query_index) o ts h pos = Err e
    end.
Proof. exact @so_run_mem. Qed.
Print Assumptions C83_no_draw_in_memory.

(** Retroactive steps ignore the probability, in training mode too. *)
Theorem C83_retroactive_steps_ignore_dropout :
  forall (K : Type) (NK : Num K) (c : cfg K) training p o ts h pos,
    m_run_d c training p (re_dsdpa c) o ts h pos
    = ('(outs, o, h) <- m_run c (re_sdpa c) o ts h ;; Ok (outs, o, h, pos)).
Proof. exact @re_dropout_run. Qed.
Print Assumptions C83_retroactive_steps_ignore_dropout.

(** In exact arithmetic the mean over all draws of each entry of forward, and of each
    single-output step, is the entry in evaluation mode. *)
Theorem C83_mean_of_forward :
  forall (K : Type) (NK : Num K) (NL : NumLaws K) (p : K), kmul (ksub k1 p) (kdiv k1 (ksub k1 p)) = k1 ->
    forall N E (P : params K) pos qs ks vs i e, length ks = N ->
    mean p (length (wi P 0) * length qs * N)
      (fun m => nth e (nth i (mha_forward_d (draws pos m) (param_cfg N E P) true (Some p) pos qs ks vs) []) k0)
    = nth e (nth i (mha_forward (param_cfg N E P) qs ks vs) []) k0.
Proof. exact @mean_forward. Qed.
Print Assumptions C83_mean_of_forward.

Theorem C83_mean_of_steps :
  forall (K : Type) (NK : Num K) (NL : NumLaws K) (p : K), kmul (ksub k1 p) (kdiv k1 (ksub k1 p)) = k1 ->
    forall N E (P : params K) query_index ts h pos n e,
    supported (param_cfg N E P) -> 0 < N -> (- Z.of_nat N <= query_index < Z.of_nat N)%Z -> n < length ts -> N <= n + 1 ->
    mean p (length (wi P 0) * N) (fun m =>
      match m_run_d (param_cfg N E P) true (Some p)
              (so_dsdpa (draws (pos + n * (length (wi P 0) * N)) m) (param_cfg N E P) query_index) None ts h pos with
      | Ok (outs, _, _, _) => entry outs n 0 e
      | Err _ => k0
      end)
    = match m_run (param_cfg N E P) (so_sdpa (param_cfg N E P) query_index) None ts h with
      | Ok (outs, _, _) => entry outs n 0 e
      | Err _ => k0
      end.
Proof. exact @mean_steps. Qed.
Print Assumptions C83_mean_of_steps.

(** *** Examples over the rationals, with a polynomial for the exponential *)
#[local] Instance ex_num : Num Qc :=
  {| k0 := 0%Qc; k1 := 1%Qc; kadd := Qcplus; kopp := Qcopp; kmul := Qcmult; kdiv := Qcdiv; kexp x := (x * x + 1)%Qc |}.
Lemma ex_laws : NumLaws Qc.
Proof. split; intros; cbn [k0 k1 kadd kopp kmul kdiv ex_num]; unfold Qcdiv; try ring. Qed.
Definition z (n : Z) : Qc := Q2Qc (inject_Z n).
Definition half : Qc := Q2Qc (1 # 2).
(** Two heads with one entry each, window 2. *)
Definition ex_P : params Qc :=
  {| wi j := [[([z 1; z 1], z 0)]; [([z 0; z 1], z (Z.of_nat j))]]; wo := [([z 1; z 2], z 0); ([z 0; z 1], z 3)]; rt := z 1 |}.
Definition ex_c : cfg Qc := param_cfg 2 1 ex_P.
Lemma ex_supported : supported ex_c.
Proof. unfold supported, ex_c. cbn. repeat split; lia. Qed.
Definition ex_t (n : Z) : tok Qc := ([z n; z 1], [z 1; z n], [z n; z 2]).
Definition ex_ts : list (tok Qc) := [ex_t 1; ex_t 2; ex_t 3].
(** Every third draw drops. *)
Definition ex_coin (i : nat) : bool := negb (i mod 3 =? 1).
Definition shown (outs : list (option (list (list Qc)))) := map (option_map (map (map this))) outs.

Example C83_example :
  supported ex_c /\ kmul (ksub k1 half) (kdiv k1 (ksub k1 half)) = k1 /\
  match m_run_d ex_c true (Some half) (so_dsdpa ex_coin ex_c (-1)) None ex_ts [] 5, m_run ex_c (so_sdpa ex_c (-1)) None ex_ts [],
        so_forward_d ex_coin ex_c true (Some half) true (-1) 9 (qs_of [ex_t 1; ex_t 2]) (ks_of [ex_t 1; ex_t 2]) (vs_of [ex_t 1; ex_t 2]) with
  | Ok ([None; Some a; Some b], _, _, pos), Ok ([None; Some a'; Some b'], _, _), Ok r =>
      pos = 17 /\ map (map this) a = map (map this) r /\ map (map this) a <> map (map this) a' /\ map (map this) b <> map (map this) b'
  | _, _, _ => False
  end.
Proof. split; [apply ex_supported|]. split; [apply Qc_is_canon; reflexivity|]. vm_compute. repeat split; discriminate. Qed.

(** A step of a retroactive module in training mode is not forward in training mode,
    from whichever draw on: here every draw drops. *)
Theorem C83_retroactive_training_refuted :
  exists (c : cfg Qc) (p : Qc) (coin : nat -> bool) (ts : list (tok Qc)) out,
    supported c /\ 2 <= c_N c /\ length ts = c_N c /\
    (exists outs o h, m_run_d c true (Some p) (re_dsdpa c) None ts [] 0 = Ok (outs, o, h, 0) /\ last outs None = Some out) /\
    forall pos, mha_forward_d coin c true (Some p) pos (qs_of ts) (ks_of ts) (vs_of ts) <> out.
Proof.
  pose (r := match m_run_d ex_c true (Some half) (re_dsdpa ex_c) None [ex_t 1; ex_t 2] [] 0 with
             | Ok (outs, _, _, _) => match last outs None with Some o => o | None => [] end | Err _ => [] end).
  exists ex_c, half, (fun _ => false), [ex_t 1; ex_t 2], r.
  split; [apply ex_supported|]. split; [cbn; lia|]. split; [reflexivity|]. split.
  - assert (A : match m_run_d ex_c true (Some half) (re_dsdpa ex_c) None [ex_t 1; ex_t 2] [] 0 with
                | Ok (outs, _, _, n) => (match last outs None with Some _ => true | None => false end && (n =? 0)) | Err _ => false end = true)
      by (vm_compute; reflexivity).
    subst r. destruct (m_run_d ex_c true (Some half) (re_dsdpa ex_c) None [ex_t 1; ex_t 2] [] 0) as [[[[outs o] h] n]|]; [|discriminate A].
    apply andb_prop in A as [A B]. apply Nat.eqb_eq in B as ->. exists outs, o, h. split; [reflexivity|]. destruct (last outs None); [reflexivity|discriminate A].
  - intros pos E. apply (f_equal (map (map this))) in E. subst r. vm_compute in E. discriminate E.
Qed.
Print Assumptions C83_retroactive_training_refuted.

Example C83_mean_example :
  NumLaws Qc /\ supported (param_cfg 2 1 ex_P) /\ 1 < length ex_ts /\
  this (mean half 4 (fun m =>
      match m_run_d (param_cfg 2 1 ex_P) true (Some half) (so_dsdpa (draws 4 m) (param_cfg 2 1 ex_P) (-1)) None ex_ts [] 0 with
      | Ok (outs, _, _, _) => entry outs 1 0 0
      | Err _ => k0
      end)) = this (match m_run (param_cfg 2 1 ex_P) (so_sdpa (param_cfg 2 1 ex_P) (-1)) None ex_ts [] with
      | Ok (outs, _, _) => entry outs 1 0 0
      | Err _ => k0
      end) /\
  this (match m_run (param_cfg 2 1 ex_P) (so_sdpa (param_cfg 2 1 ex_P) (-1)) None ex_ts [] with
      | Ok (outs, _, _) => entry outs 1 0 0
      | Err _ => k0
      end) <> this 0%Qc.
Proof. split; [apply ex_laws|]. split; [apply ex_supported|]. split; [cbn; lia|]. vm_compute. split; [reflexivity|discriminate]. Qed.
