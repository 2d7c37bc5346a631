(** Properties C29, C30, C31, C47 and C48: continual attention. *)
From Coq Require Import List ZArith Bool Arith QArith Qcanon.
From Verif Require Import Base Attn AttnSpec AttnThm AttnMore ZAttn.
Import ListNotations.
Close Scope Q_scope.
Close Scope Qc_scope.
Open Scope nat_scope.

(** C29.  Feeding any stream token by token to a fresh single-output module:
    steps before N-1 return None, and step n returns the attention of the
    selected query of the window over the last N keys and values. *)
Theorem C29_steps_are_window_attention :
  forall (K : Type) (NK : Num K) (NL : NumLaws K) (c : cfg K) query_index ts h,
    supported c -> 0 < c_N c ->
    (- Z.of_nat (c_N c) <= query_index < Z.of_nat (c_N c))%Z ->
    exists outs o' h',
      m_run c (so_sdpa c query_index) None ts h = Ok (outs, o', h')
      /\ length outs = length ts
      /\ (forall n d, n < length ts ->
          if n + 1 <? c_N c then nth n outs d = None
          else exists q,
            py_index (window (c_N c) n (qs_of ts)) query_index = Ok q
            /\ nth n outs d = Some [attention c q (window (c_N c) n (ks_of ts))
                                                 (window (c_N c) n (vs_of ts))]).
Proof. exact @so_stream. Qed.
Print Assumptions C29_steps_are_window_attention.

(** The same value is what forward returns for the window. *)
Theorem C29_step_equals_forward_on_window :
  forall (K : Type) (NK : Num K) (c : cfg K) query_index ts h,
    supported c -> 0 < c_N c ->
    (- Z.of_nat (c_N c) <= query_index < Z.of_nat (c_N c))%Z ->
    exists outs o' h',
      m_run c (so_sdpa c query_index) None ts h = Ok (outs, o', h')
      /\ length outs = length ts
      /\ (forall n d, n < length ts ->
          if n + 1 <? c_N c then nth n outs d = None
          else exists r, nth n outs d = Some r
            /\ so_forward c true query_index (window (c_N c) n (qs_of ts))
                 (window (c_N c) n (ks_of ts)) (window (c_N c) n (vs_of ts)) = Ok r).
Proof. exact @so_step_forward. Qed.
Print Assumptions C29_step_equals_forward_on_window.

(** Two heads, N = 3, second-last query of the window, six tokens. *)
Example C29_example :
  supported (ac 3)
  /\ shows (m_run (ac 3) (so_sdpa (ac 3) (-2)) None ex_ts [])
     = Ok [None; None; Some [[(26 # 7)%Q; (10 # 9)%Q]];
           Some [[(10 # 3)%Q; (101 # 39)%Q]]; Some [[(134 # 41)%Q; (5 # 17)%Q]];
           Some [[(10 # 3)%Q; (145 # 39)%Q]]].
Proof. split; [apply ac_supported|vm_compute; reflexivity]. Qed.

(** The constructor also accepts query_index < -N. Then forward on a window
    raises, while the steps silently use a query from before the window. *)
Theorem C29_query_index_below_window_refuted :
  exists (c : cfg Qc) (query_index : Z) (ts : list (tok Qc)),
    supported c /\ (query_index < Z.of_nat (c_N c))%Z
    /\ so_forward c true query_index (qs_of ts) (ks_of ts) (vs_of ts) = Err IndexError
    /\ length ts = c_N c
    /\ exists outs o' h' r, m_run c (so_sdpa c query_index) None ts [] = Ok (outs, o', h')
         /\ nth (c_N c - 1) outs None = Some r.
Proof.
  exists (ac 2), (-3)%Z, (firstn 2 ex_ts). split; [apply ac_supported|].
  split; [reflexivity|]. split; [reflexivity|]. split; [reflexivity|].
  destruct (m_run (ac 2) (so_sdpa (ac 2) (-3)) None (firstn 2 ex_ts) [])
    as [[[outs o'] h']|] eqn:E; [|vm_compute in E; discriminate].
  exists outs, o', h'. vm_compute in E. injection E as <- _ _.
  eexists. split; reflexivity.
Qed.
Print Assumptions C29_query_index_below_window_refuted.

(** C30.  Feeding any stream token by token to a fresh retroactive module with
    N >= 2: step n >= N-1 returns the attention of every query of the window
    over the window, exactly. *)
Theorem C30_steps_are_window_attention :
  forall (K : Type) (NK : Num K) (NL : NumLaws K) (c : cfg K) ts h,
    supported c -> 2 <= c_N c ->
    exists outs o' h',
      m_run c (re_sdpa c) None ts h = Ok (outs, o', h')
      /\ length outs = length ts
      /\ (forall n d, n < length ts ->
          nth n outs d =
          if n + 1 <? c_N c then None
          else Some (map (fun q => attention c q (window (c_N c) n (ks_of ts))
                                               (window (c_N c) n (vs_of ts)))
                         (window (c_N c) n (qs_of ts)))).
Proof. exact @re_stream. Qed.
Print Assumptions C30_steps_are_window_attention.

Theorem C30_step_equals_forward_on_window :
  forall (K : Type) (NK : Num K) (NL : NumLaws K) (c : cfg K) ts h,
    supported c -> 2 <= c_N c ->
    exists outs o' h',
      m_run c (re_sdpa c) None ts h = Ok (outs, o', h')
      /\ length outs = length ts
      /\ (forall n d, n < length ts ->
          nth n outs d =
          if n + 1 <? c_N c then None
          else Some (mha_forward c (window (c_N c) n (qs_of ts))
                 (window (c_N c) n (ks_of ts)) (window (c_N c) n (vs_of ts)))).
Proof. exact @re_step_forward. Qed.
Print Assumptions C30_step_equals_forward_on_window.

Example C30_example :
  supported (ac 3)
  /\ shows (m_run (ac 3) (re_sdpa (ac 3)) None (firstn 5 ex_ts) [])
     = Ok [None; None;
           Some [[(46 # 13)%Q; (7 # 3)%Q]; [(26 # 7)%Q; (10 # 9)%Q]; [3%Q; (80 # 31)%Q]];
           Some [[(1082 # 273)%Q; (23 # 17)%Q]; [(10 # 3)%Q; (101 # 39)%Q];
                 [(146 # 37)%Q; (71 # 29)%Q]];
           Some [[2%Q; (-13 # 27)%Q]; [(134 # 41)%Q; (5 # 17)%Q];
                 [(162 # 43)%Q; (25 # 33)%Q]]].
Proof. split; [apply ac_supported|vm_compute; reflexivity]. Qed.

(** With sequence_len = 1 every step of a fresh retroactive module raises. *)
Theorem C30_length_one_raises :
  forall (K : Type) (NK : Num K) (c : cfg K) t update_state h,
    supported c -> c_N c = 1 ->
    m_forward_step c (re_sdpa c) None t update_state h = Err IndexError.
Proof. exact @re_one_raises. Qed.
Print Assumptions C30_length_one_raises.

Example C30_length_one_example : supported (ac 1) /\ c_N (ac 1) = 1.
Proof. split; [apply ac_supported|reflexivity]. Qed.

(** C31.  Cutting a stream into non-empty clips for forward_steps returns the
    non-None outputs of stepping, in order, and ends in the same state; both
    fail together. For any module state. *)
Theorem C31_chunks :
  forall (K : Type) (c : cfg K) (p : sdpa K) chunks,
    Forall (fun ts => ts <> []) chunks -> forall o h,
    ('(outs, o', h') <- m_calls c p o (map (fun ts => MSteps ts true) chunks) h ;;
     Ok (concat outs, o', h'))
    = ('(outs, o', h') <- m_run c p o (concat chunks) h ;; Ok (somes outs, o', h')).
Proof. exact @m_chunks. Qed.
Print Assumptions C31_chunks.

(** forward_step and forward_steps with update_state=False on a module that has
    a state: same result as the updating call, same observable state as before. *)
Theorem C31_peek_step :
  forall (K : Type) (c : cfg K) (p : sdpa K) s t h,
    stored (Some s) h ->
    match m_forward_step c p (Some s) t false h, m_forward_step c p (Some s) t true h with
    | Ok (out1, o1, h1), Ok (out2, o2, h2) =>
        out1 = out2 /\ observe o1 h1 = observe (Some s) h /\ stored o1 h1
        /\ length h <= length h1
    | Err e1, Err e2 => e1 = e2
    | _, _ => False
    end.
Proof. exact @peek_step. Qed.
Print Assumptions C31_peek_step.

Theorem C31_peek_steps :
  forall (K : Type) (c : cfg K) (p : sdpa K) s ts h,
    stored (Some s) h ->
    match m_forward_steps c p (Some s) ts false h,
          m_forward_steps c p (Some s) ts true h with
    | Ok (out1, o1, h1), Ok (out2, o2, h2) =>
        out1 = out2 /\ observe o1 h1 = observe (Some s) h /\ stored o1 h1
        /\ length h <= length h1
    | Err e1, Err e2 => e1 = e2
    | _, _ => False
    end.
Proof. exact @peek_steps. Qed.
Print Assumptions C31_peek_steps.

(** In any history of a started module, erasing the peeking calls changes
    neither the other results nor the final state. *)
Theorem C31_peeks_can_be_erased :
  forall (K : Type) (c : cfg K) (p : sdpa K) ms o1 h1 o2 h2 outs o' h',
    observe o1 h1 = observe o2 h2 -> stored o1 h1 -> stored o2 h2 -> started o1 ->
    m_calls c p o1 ms h1 = Ok (outs, o', h') ->
    exists o2' h2', m_calls c p o2 (filter committed ms) h2
                    = Ok (keep_committed ms outs, o2', h2')
      /\ observe o' h' = observe o2' h2'.
Proof. exact @m_erase. Qed.
Print Assumptions C31_peeks_can_be_erased.

(** On a module without state both peeking calls raise, whatever the input. *)
Theorem C31_peek_step_without_state_raises :
  forall (K : Type) (c : cfg K) (p : sdpa K) t h,
    exists e, m_forward_step c p None t false h = Err e.
Proof. exact @fresh_peek_step. Qed.
Print Assumptions C31_peek_step_without_state_raises.

Theorem C31_peek_steps_without_state_raises :
  forall (K : Type) (c : cfg K) (p : sdpa K) ts h,
    exists e, m_forward_steps c p None ts false h = Err e.
Proof. exact @fresh_peek_steps. Qed.
Print Assumptions C31_peek_steps_without_state_raises.

(** So peeking is not harmless in general: the updating call succeeds here. *)
Theorem C31_peek_without_state_refuted :
  exists (c : cfg Qc) (t : tok Qc),
    supported c
    /\ m_forward_step c (so_sdpa c (-1)) None t false [] = Err UnboundLocalError
    /\ (exists r, m_forward_step c (so_sdpa c (-1)) None t true [] = Ok r).
Proof.
  exists (ac 3), (self (zv [1; 2]%Z)). split; [apply ac_supported|].
  split; [vm_compute; reflexivity|]. eexists. vm_compute. reflexivity.
Qed.
Print Assumptions C31_peek_without_state_refuted.

(** forward_steps on an empty clip raises. *)
Theorem C31_empty_clip_raises :
  forall (K : Type) (c : cfg K) (p : sdpa K) o update_state h,
    exists e, m_forward_steps c p o [] update_state h = Err e.
Proof. exact @empty_clip. Qed.
Print Assumptions C31_empty_clip_raises.

(** A module built with add_zero_attn, add_bias_kv or a kdim or vdim other than
    embed_dim can run forward but never a step. *)
Theorem C31_unsupported_options_raise :
  forall (K : Type) (c : cfg K) (p : sdpa K) o t update_state h,
    c_zero_attn c = true \/ c_packed c = false \/ c_bias c <> None ->
    exists e, m_forward_step c p o t update_state h = Err e.
Proof. exact @unsupported_step. Qed.
Print Assumptions C31_unsupported_options_raise.

(** What forward computes with these options: bias_k, bias_v and the zero token
    take part as one more key and value each. *)
Theorem C31_forward_with_options :
  forall (K : Type) (NK : Num K) (NL : NumLaws K) (c : cfg K) qs ks vs,
    mha_forward c qs ks vs = map (fun q => attention_ext c q ks vs) qs.
Proof. exact @mha_forward_ext. Qed.
Print Assumptions C31_forward_with_options.

Example C31_forward_with_options_ex :
  let c := Cfg 3 2 1 (c_scale (ac 3)) (c_q (ac 3)) (c_k (ac 3)) (c_v (ac 3)) (c_o (ac 3))
             (Some ([[z 1]; [z 2]], [[z 5]; [z 7]])) true true in
  let xs := qs_of (firstn 2 ex_ts) in
  map (map this) (mha_forward c xs xs xs) <> map (map this) (mha_forward (ac 3) xs xs xs)
  /\ extras c snd 1 = [[z 7]; [z 0]] /\ exists e, m_forward_step c (so_sdpa c (-1)) None (self (zv [1; 2]%Z)) true [] = Err e.
Proof.
  cbv zeta. split; [vm_compute; discriminate|]. split; [reflexivity|]. eexists. vm_compute. reflexivity.
Qed.

(** After clean_state the module answers every history of calls as a new one,
    whatever it and other modules have done before. *)
Theorem C31_clean_restarts :
  forall (K : Type) (c : cfg K) (p : sdpa K) ms o h,
    match m_calls c p (m_clean o) ms h, m_calls c p None ms [] with
    | Ok (outs, o1, h1), Ok (outs', o2, h2) => outs = outs' /\ observe o1 h1 = observe o2 h2
    | Err e, Err e' => e = e'
    | _, _ => False
    end.
Proof. exact @clean_restarts. Qed.
Print Assumptions C31_clean_restarts.

(** A started module, and a history with peeks of both kinds. *)
Definition ex_calls : list (mcall Qc) :=
  [MStep (self (zv [7; 7]%Z)) false; MSteps (skipn 2 ex_ts) true;
   MSteps (firstn 2 ex_ts) false; MStep (self (zv [1; 1]%Z)) true].

Example C31_example :
  let '(o, h) := after (p := re_sdpa (ac 3)) (ac 3) (firstn 2 ex_ts) in
  stored o h /\ started o
  /\ exists outs o' h', m_calls (ac 3) (re_sdpa (ac 3)) o ex_calls h = Ok (outs, o', h')
     /\ map (@length _) outs = [1; 4; 2; 1].
Proof.
  destruct (after (ac 3) (firstn 2 ex_ts)) as [o h] eqn:E.
  vm_compute in E. injection E as <- <-.
  split; [vm_compute; auto|]. split; [discriminate|].
  destruct (m_calls (ac 3) _ _ ex_calls _) as [[[outs o'] h']|] eqn:E;
    [|vm_compute in E; discriminate].
  exists outs, o', h'. split; [reflexivity|]. vm_compute in E. injection E as <- _ _.
  reflexivity.
Qed.

(** C47.  A snapshot taken with get_state once start-up is over stays what it
    was through any later calls, so set_state brings the module back. *)
Theorem C47_snapshot_after_start_up_restores :
  forall (K : Type) (c : cfg K) (p : sdpa K) (s : mstate p) h o ms outs o' h',
    stored (Some s) h -> (0 <= cell_get h (snd s))%Z ->
    m_calls c p o ms h = Ok (outs, o', h') ->
    observe (m_set s) h' = observe (m_set s) h.
Proof. exact @snapshot_kept. Qed.
Print Assumptions C47_snapshot_after_start_up_restores.

Example C47_example :
  let '(o, h) := after (p := so_sdpa (ac 2) (-1)) (ac 2) (firstn 3 ex_ts) in
  stored o h /\ exists s, m_get o = Some s /\ (0 <= cell_get h (snd s))%Z.
Proof.
  destruct (after (ac 2) (firstn 3 ex_ts)) as [o h] eqn:E.
  vm_compute in E. injection E as <- <-. split; [vm_compute; auto|].
  eexists. split; [reflexivity|]. vm_compute. discriminate.
Qed.

(** During start-up it does not: stepping advances the counter inside the
    snapshot. Here N = 3, a snapshot is taken after one token, one more token is
    fed, the snapshot is restored, and the next step already answers although
    only two tokens of the restored stream have been seen. *)
Theorem C47_snapshot_during_start_up_refuted :
  exists (c : cfg Qc) (x0 x1 x2 : tok Qc),
    supported c /\ c_N c = 3
    /\ exists r o h o' h',
         m_forward_step c (re_sdpa c) None x0 true [] = Ok (None, o, h)
         /\ m_forward_step c (re_sdpa c) o x1 true h = Ok (None, o', h')
         /\ exists s, m_get o = Some s
            /\ (exists o2 h2, m_forward_step c (re_sdpa c) (m_set s) x2 true h'
                              = Ok (Some r, o2, h2))
            /\ (exists o2 h2, m_forward_step c (re_sdpa c) (m_set s) x2 true h
                              = Ok (None, o2, h2)).
Proof.
  exists (ac 3), (self (zv [1; 2]%Z)), (self (zv [3; 4]%Z)), (self (zv [5; 6]%Z)).
  split; [apply ac_supported|]. split; [reflexivity|].
  do 5 eexists. split; [vm_compute; reflexivity|]. split; [vm_compute; reflexivity|].
  eexists. split; [reflexivity|].
  split; (do 2 eexists; vm_compute; reflexivity).
Qed.
Print Assumptions C47_snapshot_during_start_up_refuted.

(** C48.  Explicit-state stepping: after start-up _forward_step writes nothing,
    so the same state can be stepped again with the same result. *)
Theorem C48_explicit_state_is_pure_after_start_up :
  forall (K : Type) (c : cfg K) (p : sdpa K) (s : mstate p) t h out s' h',
    (0 <= cell_get h (snd s))%Z ->
    m_fstep c p t (Some s) h = Ok (out, s', h') -> h' = h.
Proof. exact @explicit_pure. Qed.
Print Assumptions C48_explicit_state_is_pure_after_start_up.

(** During start-up it writes the counter of the state it was given: stepping
    the same state with the same token twice gives None and then a value. *)
Theorem C48_explicit_state_reuse_refuted :
  exists (c : cfg Qc) (x0 x1 : tok Qc),
    supported c /\ c_N c = 3
    /\ exists s h1 s2 h2 s3 h3 r,
         m_fstep c (so_sdpa c (-1)) x0 None [] = Ok (None, s, h1)
         /\ m_fstep c (so_sdpa c (-1)) x1 (Some s) h1 = Ok (None, s2, h2)
         /\ m_fstep c (so_sdpa c (-1)) x1 (Some s) h2 = Ok (Some r, s3, h3).
Proof.
  exists (ac 3), (self (zv [1; 2]%Z)), (self (zv [3; 4]%Z)).
  split; [apply ac_supported|]. split; [reflexivity|].
  do 7 eexists. split; [vm_compute; reflexivity|].
  split; vm_compute; reflexivity.
Qed.
Print Assumptions C48_explicit_state_reuse_refuted.

(** Explicit stepping after start-up, from a state that has seen three tokens. *)
Example C48_example :
  let '(o, h) := after (p := so_sdpa (ac 2) (-2)) (ac 2) (firstn 3 ex_ts) in
  match o with
  | Some s => (0 <= cell_get h (snd s))%Z
      /\ show1 (m_fstep (ac 2) (so_sdpa (ac 2) (-2)) (self (zv [1; 1]%Z)) (Some s) h)
         = Ok (Some [[3%Q; (5 # 6)%Q]])
  | None => False
  end.
Proof.
  destruct (after (ac 2) (firstn 3 ex_ts)) as [o h] eqn:E.
  vm_compute in E. injection E as <- <-. split; [vm_compute; discriminate|].
  vm_compute. reflexivity.
Qed.
