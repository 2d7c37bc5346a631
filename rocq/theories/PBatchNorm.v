(** C85: normalisation modules that are converted as they are. *)
From Coq Require Import List ZArith Bool Arith Lia QArith Qcanon.
From Verif Require Import Base BatchNorm BatchNormProof.
Import ListNotations.
Open Scope nat_scope.

(** Evaluation mode with running statistics: steps are forward, frame by frame, and nothing is
    stored. *)
Theorem C85_evaluation :
  forall nrm c s xs, b_track c = true ->
    bn_run nrm c false s xs = (s, snd (bn_call nrm c false s (map fst xs)))
    /\ fst (bn_call nrm c false s (map fst xs)) = s.
Proof. exact bn_eval. Qed.
Print Assumptions C85_evaluation.

(** Training mode with a momentum: steps normalise each frame by its own statistics, and the running
    statistics are exponential averages of those of the frames; forward counts the clip
    as one. *)
Theorem C85_training :
  forall nrm c f s xs, b_track c = true -> b_momentum c = Some f ->
    (forall x, In x (map fst xs) -> length x <> 1) -> length (concat (map fst xs)) <> 1 ->
    let clip := map fst xs in
    bn_run nrm c true s xs
      = ({| r_mean := exponential f (r_mean s) (map mean clip);
            r_var := exponential f (r_var s) (map unbiased clip); r_count := r_count s + length xs |},
         Ok (map (fun x => map (fun a => (a - mean x) * nrm (var x) * b_w c + b_b c)%Qc x) clip))
    /\ fst (bn_call nrm c true s clip)
      = {| r_mean := exponential f (r_mean s) [mean (concat clip)];
           r_var := exponential f (r_var s) [unbiased (concat clip)]; r_count := r_count s + 1 |}.
Proof.
  intros nrm c f s xs Ht Hf Hx Hc. cbv zeta. split.
  - rewrite bn_train_run, Ht, (running_exponential c f) by assumption. rewrite map_length. reflexivity.
  - unfold bn_call. apply Nat.eqb_neq in Hc. rewrite Hc, Ht. cbn [orb andb fst].
    change (running c s (concat (map fst xs))) with (fold_left (running c) [concat (map fst xs)] s).
    rewrite (running_exponential c f) by assumption. reflexivity.
Qed.
Print Assumptions C85_training.

(** With momentum=None and new statistics, steps and forward give the same running mean, that of
    all values, for frames of equal sizes. *)
Theorem C85_cumulative_mean :
  forall nrm c s xs n, b_track c = true -> b_momentum c = None -> r_count s = 0 -> 2 <= n -> xs <> [] ->
    (forall x, In x (map fst xs) -> length x = n) ->
    r_mean (fst (bn_run nrm c true s xs)) = mean (concat (map fst xs))
    /\ r_mean (fst (bn_call nrm c true s (map fst xs))) = mean (concat (map fst xs)).
Proof.
  intros nrm c s xs n Ht Hm Hs Hn Hne Hx.
  assert (Hne' : map fst xs <> []) by (destruct xs; [congruence|discriminate]).
  assert (HT : 0 < length (map fst xs)) by (destruct (map fst xs); [congruence|cbn; lia]).
  split.
  - rewrite bn_train_run by (intros x H; rewrite (Hx x H); lia). rewrite Ht. cbn [fst].
    destruct (running_cumulative c (map fst xs) Hm s) as (E1 & E2 & _). rewrite Hs in E1, E2. rewrite E1 in E2. cbn [Nat.add] in E2.
    rewrite (mean_concat n) by (try assumption; lia). change (qn 0) with 0%Qc in E2.
    pose proof (qn_pos _ HT) as N. set (q := qn (length (map fst xs))) in *. set (r := r_mean _) in *.
    transitivity ((q * r) / q)%Qc; [field; exact N|]. rewrite E2. field. exact N.
  - unfold bn_call. rewrite (concat_len n) by exact Hx.
    destruct (Nat.eqb_spec (length (map fst xs) * n) 1) as [E|_]; [nia|]. rewrite Ht. cbn [orb andb fst].
    unfold running, factor. rewrite Hm, Hs. cbn [r_mean]. change (qn 1) with 1%Qc. field. discriminate.
Qed.
Print Assumptions C85_cumulative_mean.

(** update_state=False does not keep the running statistics of a training module, nor does
    forward. *)
Theorem C85_update_state_refuted :
  forall nrm c s x, b_track c = true ->
    bn_step nrm c true s x false = bn_step nrm c true s x true
    /\ r_count (fst (bn_step nrm c true s x false)) = S (r_count s)
    /\ r_count (fst (bn_call nrm c true s [x])) = S (r_count s).
Proof.
  intros nrm c s x Ht. split; [reflexivity|]. unfold bn_step, bn_call. rewrite Ht. cbn [orb andb].
  destruct (Nat.eqb (length (concat [x])) 1); split; reflexivity.
Qed.
Print Assumptions C85_update_state_refuted.

(** In training mode frames with one value per channel (batch size 1, no space) raise in
    forward_step, while forward takes every longer clip of them. *)
Theorem C85_single_value_refuted :
  forall nrm c s x upd, length x = 1 ->
    snd (bn_step nrm c true s x upd) = Err ValueError
    /\ forall clip, 2 <= length clip -> (forall y, In y clip -> length y = 1) ->
         exists ys, snd (bn_call nrm c true s clip) = Ok ys /\ length ys = length clip.
Proof.
  intros nrm c s x upd Hx. split.
  - unfold bn_step, bn_call. cbn [orb concat]. rewrite app_nil_r, Hx. reflexivity.
  - intros clip Hc Hy. unfold bn_call. cbn [orb]. rewrite (concat_len 1) by exact Hy.
    destruct (Nat.eqb_spec (length clip * 1) 1) as [E|_]; [lia|]. eexists. split; [reflexivity|]. apply map_length.
Qed.
Print Assumptions C85_single_value_refuted.

(** In training mode a step does not see the level of its frame: adding a constant to all its
    values changes nothing. *)
Theorem C85_level_lost :
  forall nrm c s x upd k, 2 <= length x ->
    snd (bn_step nrm c true s (map (Qcplus k) x) upd) = snd (bn_step nrm c true s x upd).
Proof.
  intros nrm c s x upd k Hx. rewrite !bn_train_step by (rewrite ?map_length; lia). cbn [snd].
  rewrite affine_shift by (intros ->; cbn in Hx; lia). reflexivity.
Qed.
Print Assumptions C85_level_lost.

(** So steps and forward differ in training mode, and without running statistics also in
    evaluation mode. *)
Theorem C85_steps_refuted :
  forall nrm c s training, nrm 1%Qc <> 0%Qc -> b_w c <> 0%Qc -> training = true \/ b_track c = false ->
    exists clip ys zs, snd (bn_run nrm c training s (map (fun x => (x, true)) clip)) = Ok ys
      /\ snd (bn_call nrm c training s clip) = Ok zs /\ ys <> zs.
Proof.
  intros nrm c s training Hn Hw Hb.
  assert (B : training || negb (b_track c) = true) by (destruct Hb as [->| ->]; [reflexivity|apply orb_true_r]).
  set (a := Q2Qc 0). set (b := Q2Qc 2). exists [[a; a]; [b; b]].
  assert (M1 : mean [a; a] = a) by (apply Qc_is_canon; reflexivity).
  assert (M : mean [a; a; b; b] = 1%Qc) by (apply Qc_is_canon; reflexivity).
  assert (V : var [a; a; b; b] = 1%Qc) by (unfold var, dev2; rewrite M; apply Qc_is_canon; reflexivity).
  cbn [map bn_run]. unfold bn_step, bn_call. rewrite B. cbn [concat app length Nat.eqb map hd bind snd].
  do 2 eexists. split; [reflexivity|split; [reflexivity|]]. rewrite M1, M, V. intros E.
  assert (E0 : affine nrm (b_w c) (b_b c) a (var [a; a]) a = affine nrm (b_w c) (b_b c) 1%Qc 1%Qc a) by (exact (f_equal (fun l => hd 0%Qc (hd [] l)) E)).
  unfold affine in E0. assert (E1 : (nrm 1 * b_w c)%Qc = 0%Qc).
  { transitivity ((a - a) * nrm (var [a; a]) * b_w c + b_b c - ((a - 1) * nrm 1 * b_w c + b_b c))%Qc.
    - change a with 0%Qc. ring.
    - rewrite E0. ring. }
  apply Qcmult_integral in E1. tauto.
Qed.
Print Assumptions C85_steps_refuted.

(** Group normalisation has no running statistics: steps and forward agree on clips whose frames have the
    same mean and variance... *)
Theorem C85_group_norm :
  forall nrm w b n m v clip, 0 < n -> clip <> [] ->
    (forall x, In x clip -> length x = n /\ mean x = m /\ var x = v) ->
    gn_call nrm w b clip = map (gn_step nrm w b) clip.
Proof. intros nrm w b n m v clip. apply gn_same. Qed.
Print Assumptions C85_group_norm.

(** ... and not on others, in evaluation mode too. *)
Theorem C85_group_norm_refuted :
  forall nrm w b, nrm 1%Qc <> 0%Qc -> w <> 0%Qc ->
    exists clip, gn_call nrm w b clip <> map (gn_step nrm w b) clip.
Proof.
  intros nrm w b Hn Hw.
  set (a := Q2Qc 0). set (e := Q2Qc 2). exists [[a; a]; [e; e]].
  assert (M1 : mean [a; a] = a) by (apply Qc_is_canon; reflexivity).
  assert (M : mean [a; a; e; e] = 1%Qc) by (apply Qc_is_canon; reflexivity).
  assert (V : var [a; a; e; e] = 1%Qc) by (unfold var, dev2; rewrite M; apply Qc_is_canon; reflexivity).
  unfold gn_step, gn_call. cbn [concat app map hd]. rewrite M1, M, V. intros E.
  assert (E0 : affine nrm w b 1%Qc 1%Qc a = affine nrm w b a (var [a; a]) a) by (exact (f_equal (fun l => hd 0%Qc (hd [] l)) E)).
  unfold affine in E0. assert (E1 : (nrm 1 * w)%Qc = 0%Qc).
  { transitivity ((a - a) * nrm (var [a; a]) * w + b - ((a - 1) * nrm 1 * w + b))%Qc.
    - change a with 0%Qc. ring.
    - rewrite E0. ring. }
  apply Qcmult_integral in E1. tauto.
Qed.
Print Assumptions C85_group_norm_refuted.

(* ------------------------------------------------------------------ *)

Definition z (n : Z) : Qc := Q2Qc (inject_Z n).
Definition ex_bn (m : option Qc) : bn := {| b_track := true; b_momentum := m; b_w := z 2; b_b := z 1 |}.
Definition ex_frames : list (list Qc * bool) := [([z 1; z 3], true); ([z 5; z 9], false)].
Definition shown (r : stats * res (list (list Qc))) :=
  (this (r_mean (fst r)), this (r_var (fst r)), r_count (fst r),
   match snd r with Ok ys => map (map this) ys | Err _ => [] end).

(** Momentum 1/2, 1/sqrt(v + eps) replaced by v. *)
Example C85_ex_training :
  shown (bn_run (fun v => v) (ex_bn (Some (Q2Qc (1 # 2)))) true reset ex_frames)
    = ((4 # 1)%Q, (19 # 4)%Q, 2, [[-1; 3]; [-15; 17]]%Q)
  /\ this (exponential (Q2Qc (1 # 2)) 0%Qc [z 2; z 7]) = (4 # 1)%Q
  /\ shown (bn_call (fun v => v) (ex_bn (Some (Q2Qc (1 # 2)))) true reset (map fst ex_frames))
    = ((9 # 4)%Q, (19 # 3)%Q, 1, [[-241 # 4; -101 # 4]; [39 # 4; 319 # 4]]%Q).
Proof. repeat split; vm_compute; reflexivity. Qed.
Example C85_ex_cumulative :
  shown (bn_run (fun v => v) (ex_bn None) true reset ex_frames) = ((9 # 2)%Q, (5 # 1)%Q, 2, [[-1; 3]; [-15; 17]]%Q).
Proof. vm_compute. reflexivity. Qed.
Example C85_ex_evaluation :
  shown (bn_run (fun v => v) (ex_bn None) false {| r_mean := z 1; r_var := z 3; r_count := 7 |} ex_frames)
    = ((1 # 1)%Q, (3 # 1)%Q, 7, [[1; 13]; [25; 49]]%Q).
Proof. vm_compute. reflexivity. Qed.
(** Two frames with the same values in another order. *)
Example C85_ex_group_norm :
  (forall x, In x [[z 1; z 3]; [z 3; z 1]] -> length x = 2 /\ mean x = z 2 /\ var x = z 1)
  /\ map (map this) (gn_call (fun v => v) (z 2) (z 1) [[z 1; z 3]; [z 3; z 1]]) = [[-1; 3]; [3; -1]]%Q.
Proof.
  split; [|vm_compute; reflexivity].
  intros x [<-|[<-|[]]]; (split; [reflexivity|]; split; apply Qc_is_canon; reflexivity).
Qed.
