(** C78: masks, attention weights, and the arguments of attention calls. *)
From Coq Require Import List ZArith Bool Arith QArith Qcanon.
From Verif Require Import Base Attn AttnSpec ZAttn Mask MaskSpec MaskThm MaskProof.
Import ListNotations.
Close Scope Q_scope.
Close Scope Qc_scope.
Open Scope nat_scope.

(** ** forward with masks *)

(** The output of every query is its attention over the keys that are not hidden. *)
Theorem C78_masked_attention :
  forall (K : Type) (NK : Num K) (NL : NumLaws K) (c : cfg K) kpm am need_weights qs ks vs,
    length vs = length ks -> masks_fit (c_H c) (length qs) (length ks) kpm am ->
    exists w, mha_masked c kpm am need_weights qs ks vs =
      Ok (map (fun i => attended c kpm am i (nth i qs []) ks vs) (seq 0 (length qs)), w).
Proof. intros. apply masked_ok; assumption. Qed.
Print Assumptions C78_masked_attention.

Theorem C78_wrong_shape_raises :
  forall (K : Type) (NK : Num K) (c : cfg K) kpm am need_weights qs ks vs,
    ~ masks_fit (c_H c) (length qs) (length ks) kpm am ->
    exists e, mha_masked c kpm am need_weights qs ks vs = Err e.
Proof. intros. apply masked_err; assumption. Qed.
Print Assumptions C78_wrong_shape_raises.

(** Masks that hide and keep: what is hidden from a query might as well be missing. *)
Theorem C78_hidden_is_missing :
  forall (K : Type) (NK : Num K) (NL : NumLaws K) (c : cfg K) kpm am need_weights qs ks vs,
    length vs = length ks -> masks_fit (c_H c) (length qs) (length ks) kpm am -> hides_only kpm am ->
    exists w, mha_masked c kpm am need_weights qs ks vs =
      Ok (map (fun i => attention_ext c (nth i qs []) (select (fun j => shown (entry kpm am 0 i j)) ks)
                                                     (select (fun j => shown (entry kpm am 0 i j)) vs)) (seq 0 (length qs)), w).
Proof. intros. apply masked_left; assumption. Qed.
Print Assumptions C78_hidden_is_missing.

(** key_padding_mask: forward without the padded keys. *)
Theorem C78_padding_is_missing :
  forall (K : Type) (NK : Num K) (NL : NumLaws K) (c : cfg K) p need_weights qs ks vs,
    length vs = length ks -> length p = length ks ->
    exists w, mha_masked c (Some p) None need_weights qs ks vs =
      Ok (mha_forward c qs (select (fun j => negb (nth j p false)) ks) (select (fun j => negb (nth j p false)) vs), w).
Proof. intros. apply masked_padding; assumption. Qed.
Print Assumptions C78_padding_is_missing.

(** A query from which nothing is hidden gets what forward gives without masks, rounding
    included. *)
Theorem C78_kept_rows :
  forall (K : Type) (NK : Num K) (c : cfg K) kpm am need_weights qs ks vs o w i,
    mha_masked c kpm am need_weights qs ks vs = Ok (o, w) -> i < length qs ->
    (forall h j, h < c_H c -> j < length ks -> entry kpm am h i j = Keep) ->
    nth i o [] = nth i (mha_forward c qs ks vs) [].
Proof. intros. eapply masked_kept_row; eassumption. Qed.
Print Assumptions C78_kept_rows.

Theorem C78_no_masks :
  forall (K : Type) (NK : Num K) (c : cfg K) need_weights qs ks vs,
    exists w, mha_masked c None None need_weights qs ks vs = Ok (mha_forward c qs ks vs, w).
Proof. intros. apply masked_nothing. Qed.
Print Assumptions C78_no_masks.

Definition ex_q := qs_of (firstn 4 ex_ts).
Definition ex_am : amask Qc := For_all [[Keep; Hide; Plus (z 2); Keep]; [Hide; Keep; Keep; Plus (z (-1))]]%Z.
Definition shown_rows (r : res (list (vec Qc) * option (list (list Qc)))) : res (list (list Q) * option (list (list Q))) :=
  '(o, w) <- r ;; Ok (map (map this) o, option_map (map (map this)) w).
Example C78_masked_ex :
  masks_fit 2 2 4 (Some [false; false; false; true]) (Some ex_am) /\
  hides_only (K := Qc) (Some [false; true; false; false]) (Some (causal 4)) /\
  shown_rows (mha_masked (ac 3) (Some [false; true; false; false]) (Some (causal 4)) true ex_q ex_q ex_q)
  = Ok ([[3%Q; 1%Q]; [3%Q; 1%Q]; [(7 # 2)%Q; (5 # 6)%Q]; [(87 # 23)%Q; (25 # 17)%Q]],
        Some [[1%Q; 0%Q; 0%Q; 0%Q]; [1%Q; 0%Q; 0%Q; 0%Q]; [(2 # 3)%Q; 0%Q; (1 # 3)%Q; 0%Q]; [(100 # 391)%Q; 0%Q; (267 # 782)%Q; (315 # 782)%Q]]).
Proof.
  split; [|split].
  - split; [reflexivity|]. split; [reflexivity|]. repeat constructor.
  - intros h i j. split; [|reflexivity]. unfold entry.
    do 4 (destruct j as [|j]; [do 4 (destruct i as [|i]; [cbn; auto|]); destruct i; cbn; auto|]);
    destruct j; do 4 (destruct i as [|i]; [cbn; auto|]); destruct i; cbn; auto.
  - vm_compute. reflexivity.
Qed.

(** ** Streams *)

(** The whole stream at once: forward with a banded mask, under which query [i] sees the
    [sequence_len] keys up to [i + delay]. *)
Theorem C78_stream_is_band :
  forall (K : Type) (NK : Num K) (NL : NumLaws K) (c : cfg K) query_index need_weights ts h,
    supported c -> 0 < c_N c -> (- Z.of_nat (c_N c) <= query_index < Z.of_nat (c_N c))%Z ->
    exists outs o' h' o w, m_run c (so_sdpa c query_index) None ts h = Ok (outs, o', h') /\ length outs = length ts /\
      so_masked c false query_index None (Some (band (c_N c) (so_delay (c_N c) query_index) (length ts))) need_weights
        (qs_of ts) (ks_of ts) (vs_of ts) = Ok (o, w) /\
      length o = length ts /\
      (forall n d, n < length ts ->
        nth n outs d = if n + 1 <? c_N c then None else Some [nth (n - so_delay (c_N c) query_index) o []]).
Proof. intros. apply so_band; assumption. Qed.
Print Assumptions C78_stream_is_band.

Example C78_band_ex :
  so_delay 3 (-2) = 1 /\
  band (K := Qc) 3 1 6 = For_all
    [[Keep; Keep; Hide; Hide; Hide; Hide]; [Keep; Keep; Keep; Hide; Hide; Hide]; [Hide; Keep; Keep; Keep; Hide; Hide];
     [Hide; Hide; Keep; Keep; Keep; Hide]; [Hide; Hide; Hide; Keep; Keep; Keep]; [Hide; Hide; Hide; Hide; Keep; Keep]] /\
  match shown_rows (so_masked (ac 3) false (-2) None (Some (band 3 1 6)) false (qs_of ex_ts) (ks_of ex_ts) (vs_of ex_ts)) with
  | Ok (o, None) => firstn 4 (skipn 1 o) = [[(26 # 7)%Q; (10 # 9)%Q]; [(10 # 3)%Q; (101 # 39)%Q]; [(134 # 41)%Q; (5 # 17)%Q]; [(10 # 3)%Q; (145 # 39)%Q]]
  | _ => False
  end.
Proof. repeat apply conj; vm_compute; reflexivity. Qed.

(** The causal mask hides nothing from the newest query, so with query_index = -1 a step is
    forward with the causal mask; no law is used. *)
Theorem C78_causal :
  forall (K : Type) (NK : Num K) (c : cfg K) need_weights ts h, supported c -> 0 < c_N c ->
    exists outs o' h', m_run c (so_sdpa c (-1)) None ts h = Ok (outs, o', h') /\ length outs = length ts /\
      (forall n d, n < length ts ->
        if n + 1 <? c_N c then nth n outs d = None
        else exists o w,
          so_masked c false (-1) None (Some (causal (c_N c))) need_weights (window (c_N c) n (qs_of ts))
            (window (c_N c) n (ks_of ts)) (window (c_N c) n (vs_of ts)) = Ok (o, w) /\
          nth n outs d = Some [nth (c_N c - 1) o []]).
Proof. intros. apply so_causal; assumption. Qed.
Print Assumptions C78_causal.

(** Of a retroactive step only the newest row is. *)
Theorem C78_retro_causal_newest :
  forall (K : Type) (NK : Num K) (NL : NumLaws K) (c : cfg K) need_weights ts h, supported c -> 2 <= c_N c ->
    exists outs o' h', m_run c (re_sdpa c) None ts h = Ok (outs, o', h') /\ length outs = length ts /\
      (forall n d, n < length ts ->
        if n + 1 <? c_N c then nth n outs d = None
        else exists rows o w, nth n outs d = Some rows /\
          mha_masked c None (Some (causal (c_N c))) need_weights (window (c_N c) n (qs_of ts))
            (window (c_N c) n (ks_of ts)) (window (c_N c) n (vs_of ts)) = Ok (o, w) /\
          nth (c_N c - 1) rows [] = nth (c_N c - 1) o []).
Proof. intros. apply re_causal; assumption. Qed.
Print Assumptions C78_retro_causal_newest.

Example C78_causal_ex : causal (K := Qc) 3 = For_all [[Keep; Hide; Hide]; [Keep; Keep; Hide]; [Keep; Keep; Keep]] /\ supported (ac 3) /\ length ex_ts = 6.
Proof. split; [reflexivity|]. split; [apply ac_supported|reflexivity]. Qed.

(** ** Attention weights *)

Theorem C78_weights_sum_to_one :
  forall (K : Type) (NK : Num K) (NL : NumLaws K) (c : cfg K) kpm am qs ks vs o ws i,
    mha_masked c kpm am true qs ks vs = Ok (o, Some ws) -> i < length qs ->
    (forall h, h < c_H c -> invertible (total c kpm am h i (nth i qs []) ks vs)) -> invertible (of_nat (c_H c)) ->
    ksum (nth i ws []) = k1.
Proof. intros. eapply weights_sum; eassumption. Qed.
Print Assumptions C78_weights_sum_to_one.

Theorem C78_hidden_weighs_nothing :
  forall (K : Type) (NK : Num K) (NL : NumLaws K) (c : cfg K) kpm am qs ks vs o ws i j,
    mha_masked c kpm am true qs ks vs = Ok (o, Some ws) -> i < length qs -> j < length ks ->
    (forall h, h < c_H c -> entry kpm am h i j = Hide) -> nth j (nth i ws []) k0 = k0.
Proof. intros. eapply weights_hidden; eassumption. Qed.
Print Assumptions C78_hidden_weighs_nothing.

Theorem C78_weights_explain_output :
  forall (K : Type) (NK : Num K) (NL : NumLaws K) (c : cfg K) kpm am qs ks vs o ws i,
    c_H c = 1 -> mha_masked c kpm am true qs ks vs = Ok (o, Some ws) -> i < length qs -> length vs = length ks ->
    invertible (K := K) (of_nat 1) ->
    nth i o [] = c_o c [wsum (c_E c) (nth i ws []) (map (fun v => nth 0 (c_v c v) []) vs ++ extras c snd 0)].
Proof. intros. eapply weights_output; eassumption. Qed.
Print Assumptions C78_weights_explain_output.

Example C78_weights_ex :
  invertible (of_nat (K := Qc) 2) /\ invertible (of_nat (K := Qc) 1) /\
  invertible (total (ac 3) (Some [false; true; false; false]) (Some (causal 4)) 0 2 (nth 2 ex_q []) ex_q ex_q) /\
  invertible (total (ac 3) (Some [false; true; false; false]) (Some (causal 4)) 1 2 (nth 2 ex_q []) ex_q ex_q).
Proof. repeat apply conj; vm_compute; apply Qc_is_canon; reflexivity. Qed.

(** ** Arguments *)

(** forward takes the masks, by name and by position. *)
Theorem C78_forward_arguments :
  forall (K : Type) (NK : Num K) (c : cfg K) k qs ks vs kpm am need,
    let r := match k with
             | Single sof qi => so_masked c sof qi kpm am need qs ks vs
             | Retro => mha_masked c kpm am need qs ks vs
             end in
    call_forward c k [AClip qs; AClip ks; AClip vs] [(KeyPaddingMask, opt_pad kpm); (NeedWeights, ABool need); (AttnMask, opt_mask am)] = r /\
    call_forward c k [AClip qs; AClip ks; AClip vs; opt_pad kpm; ABool need; opt_mask am] [] = r.
Proof. intros. apply forward_takes. Qed.
Print Assumptions C78_forward_arguments.

(** forward_step and forward_steps drop everything but query, key, value and update_state,
    without a word. *)
Theorem C78_steps_drop_arguments :
  forall (K : Type) (NK : Num K) (c : cfg K) p o pos kw h,
    call_step c p o pos kw h = call_step c p o (firstn 4 pos) (filter known kw) h /\
    call_steps c p o pos kw h = call_steps c p o (firstn 4 pos) (filter known kw) h.
Proof. intros. split; [apply step_drops|apply steps_drop]. Qed.
Print Assumptions C78_steps_drop_arguments.

(** A key_padding_mask given by position is taken for update_state: *)
Theorem C78_padding_as_update_state :
  forall (K : Type) (NK : Num K) (c : cfg K) p o q k v m h,
    call_step c p o [ATok q; ATok k; ATok v; APad m] [] h =
    match m with [b] => m_forward_step c p o (q, k, v) b h | _ => Err RuntimeError end.
Proof. intros. apply step_positional. Qed.
Print Assumptions C78_padding_as_update_state.

(** with the mask of an unpadded token the module does not move on. *)
Theorem C78_unpadded_token_is_forgotten :
  forall (K : Type) (NK : Num K) (c : cfg K) p s q k v h, stored (Some s) h ->
    match call_step c p (Some s) [ATok q; ATok k; ATok v; APad [false]] [] h with
    | Ok (_, o', h') => observe o' h' = observe (Some s) h
    | Err _ => True
    end.
Proof. intros. apply step_positional_false. assumption. Qed.
Print Assumptions C78_unpadded_token_is_forgotten.

Definition tok_args (t : tok Qc) : list (arg Qc) := let '(q, k, v) := t in [ATok q; ATok k; ATok v].
Definition clip_args (ts : list (tok Qc)) : list (arg Qc) := [AClip (qs_of ts); AClip (ks_of ts); AClip (vs_of ts)].

(** Padding: the oldest of three tokens is padded in forward and is not in the step. *)
Theorem C78_padding_refuted :
  exists (c : cfg Qc) ts kw, supported c /\ length ts = c_N c /\
    let '(o, h) := after (p := so_sdpa c (-1)) c (firstn 2 ts) in
    let t := nth 2 ts ([], [], []) in
    exists y w y' o' h', call_forward c (Single true (-1)) (clip_args ts) kw = Ok (y, w) /\
      call_step c (so_sdpa c (-1)) o (tok_args t) kw h = Ok (Some y', o', h') /\
      call_step c (so_sdpa c (-1)) o (tok_args t) [] h = Ok (Some y', o', h') /\ map (map this) y <> map (map this) y'.
Proof.
  exists (ac 3), (firstn 3 ex_ts), [(KeyPaddingMask, APad [true; false; false])].
  split; [apply ac_supported|]. split; [reflexivity|].
  destruct (after (ac 3) (firstn 2 (firstn 3 ex_ts))) as [o h] eqn:E. cbv zeta.
  set (t := nth 2 (firstn 3 ex_ts) ([], [], [])).
  destruct (call_step (ac 3) (so_sdpa (ac 3) (-1)) o (tok_args t) [] h) as [[[[y'|] o'] h']|e] eqn:E1.
  2,3: exfalso; vm_compute in E; injection E as <- <-; vm_compute in E1; discriminate.
  destruct (call_forward (ac 3) (Single true (-1)) (clip_args (firstn 3 ex_ts)) [(KeyPaddingMask, APad [true; false; false])]) as [[y w]|e] eqn:E2.
  2: exfalso; vm_compute in E2; discriminate.
  exists y, w, y', o', h'. split; [reflexivity|]. split; [rewrite step_drops; exact E1|]. split; [reflexivity|].
  vm_compute in E. injection E as <- <-. vm_compute in E1. injection E1 as <- _ _. vm_compute in E2. injection E2 as <- _.
  vm_compute. discriminate.
Qed.
Print Assumptions C78_padding_refuted.

(** The causal mask and a retroactive module: the older rows of a step see newer tokens. *)
Theorem C78_retro_causal_refuted :
  exists (c : cfg Qc) ts kw, supported c /\ length ts = c_N c /\
    let '(o, h) := after (p := re_sdpa c) c (firstn 2 ts) in
    let t := nth 2 ts ([], [], []) in
    exists y w y' o' h', call_forward c Retro (clip_args ts) kw = Ok (y, w) /\
      call_step c (re_sdpa c) o (tok_args t) kw h = Ok (Some y', o', h') /\
      map this (nth 0 y []) <> map this (nth 0 y' []) /\ map this (nth 2 y []) = map this (nth 2 y' []).
Proof.
  exists (ac 3), (firstn 3 ex_ts), [(AttnMask, AMask (causal 3))].
  split; [apply ac_supported|]. split; [reflexivity|].
  destruct (after (ac 3) (firstn 2 (firstn 3 ex_ts))) as [o h] eqn:E. cbv zeta.
  set (t := nth 2 (firstn 3 ex_ts) ([], [], [])).
  destruct (call_step (ac 3) (re_sdpa (ac 3)) o (tok_args t) [] h) as [[[[y'|] o'] h']|e] eqn:E1.
  2,3: exfalso; vm_compute in E; injection E as <- <-; vm_compute in E1; discriminate.
  destruct (call_forward (ac 3) Retro (clip_args (firstn 3 ex_ts)) [(AttnMask, AMask (causal 3))]) as [[y w]|e] eqn:E2.
  2: exfalso; vm_compute in E2; discriminate.
  exists y, w, y', o', h'. split; [reflexivity|]. split; [rewrite step_drops; exact E1|].
  vm_compute in E. injection E as <- <-. vm_compute in E1. injection E1 as <- _ _. vm_compute in E2. injection E2 as <- _.
  split; vm_compute; [discriminate|reflexivity].
Qed.
Print Assumptions C78_retro_causal_refuted.
