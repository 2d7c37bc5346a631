(** Proofs about the stateless modules, the recurrent modules and the positional
    encoding. *)
From Coq Require Import List ZArith Bool Arith Lia ZifyBool ZifyNat.
From Verif Require Import Base Frames CoMod Leaf Rnn Net Spec NetSpec NetOk Point PointSpec.
Import ListNotations.
Ltac Zify.zify_post_hook ::= Z.div_mod_to_equations.

(* ------------------------------------------------------------------ *)
Section Lambda.
Context {F : Type}.

Lemma mapM_frames (f : val F -> res (val F)) xs ys :
  (v <- mapM (fun x => f (VT x)) xs ;; all_frames v) = Ok ys <->
  mapM (fun x => v <- f (VT x) ;; match v with VT y => Ok y | _ => Err TypeError end) xs = Ok ys.
Proof.
  revert ys. induction xs as [|x xs IH]; intros ys; cbn [mapM bind all_frames]; [reflexivity|].
  destruct (f (VT x)) as [v|]; cbn [bind]; [|split; discriminate].
  destruct v as [|y|s|l]; cbn [bind].
  - destruct (mapM (fun x => f (VT x)) xs); cbn [bind all_frames]; split; discriminate.
  - split.
    + destruct (mapM (fun x => f (VT x)) xs) as [vs|] eqn:E; cbn [bind all_frames]; [|discriminate].
      destruct (all_frames vs) as [zs|] eqn:E2; cbn [bind]; [|discriminate]. intros [= <-].
      rewrite (proj1 (IH zs)) by (cbn [bind]; exact E2). reflexivity.
    + destruct (mapM (fun x => v <- f (VT x) ;; _) xs) as [zs|] eqn:E; cbn [bind]; [|discriminate]. intros [= <-].
      pose proof (proj2 (IH zs) eq_refl) as E2.
      destruct (mapM (fun x => f (VT x)) xs) as [vs|]; cbn [bind] in *; [|discriminate].
      cbn [all_frames]. rewrite E2. reflexivity.
  - destruct (mapM (fun x => f (VT x)) xs); cbn [bind all_frames]; split; discriminate.
  - destruct (mapM (fun x => f (VT x)) xs); cbn [bind all_frames]; split; discriminate.
Qed.

Lemma mapM_nonempty {A B} (f : A -> res B) xs vs : xs <> [] -> mapM f xs = Ok vs -> vs <> [].
Proof.
  destruct xs as [|x xs]; [congruence|]. intros _. cbn [mapM]. destruct (f x); [|discriminate]. cbn [bind].
  destruct (mapM f xs); [|discriminate]. cbn [bind]. intros [= <-]. discriminate.
Qed.

Theorem lam_frame_coherent (f : val F -> res (val F)) :
  let l := {| l_fn := Some f; l_fwd := None; l_step := None; l_steps := None; l_time := false |} in
  coherent (lam_forward l) (lam_forward_steps l) (lam_forward_step l).
Proof.
  cbv zeta. intros xs pe upd Hx. split; [reflexivity|]. intros ys.
  unfold lam_forward_steps, lam_clip, lam_forward_step, lam_fstep, stepwise. cbn [l_time l_fn l_step l_steps call_fn].
  pose proof (fun z => mapM_frames f xs z) as H.
  destruct (mapM (fun x => f (VT x)) xs) as [vs|] eqn:E; cbn [bind].
  - pose proof (mapM_nonempty _ _ _ Hx E) as Hv.
    assert (Es : stack vs = (zs <- all_frames vs ;; Ok (VS zs))) by (destruct vs; [congruence|reflexivity]).
    rewrite Es. cbn [bind] in H. split.
    + destruct (all_frames vs) as [zs|]; [|discriminate]. intros [= <-].
      rewrite (proj1 (H zs) eq_refl). reflexivity.
    + destruct (mapM (fun x => v <- f (VT x) ;; _) xs) as [zs|]; [|discriminate]. intros [= <-].
      rewrite (proj2 (H zs) eq_refl). reflexivity.
  - split; [discriminate|]. destruct (mapM (fun x => v <- f (VT x) ;; _) xs) as [zs|]; [|discriminate].
    intros _. discriminate (proj2 (H zs) eq_refl).
Qed.

(** [forward_stepping] of a function on clips. *)
Lemma fs_step_one (f : val F -> res (val F)) x upd : clip_fun f -> (exists y, f (VS [x]) = Ok (VS [y])) ->
  fs_forward_step f (VT x) upd = match f (VS [x]) with Ok (VS [y]) => Ok (VT y) | _ => Err TypeError end.
Proof. intros _ [y E]. unfold fs_forward_step. cbn [unsqueeze bind]. rewrite E. reflexivity. Qed.

Theorem fs_coherent (f : val F -> res (val F)) : clip_fun f ->
  (coherent f (fs_forward_steps f) (fs_forward_step f) <-> splits f).
Proof.
  intros Hf. unfold coherent, fs_forward_steps. split.
  - intros H.
    assert (H1 : forall x, exists y, f (VS [x]) = Ok (VS [y])).
    { intros x. destruct (Hf [x]) as [ys E]; [discriminate|].
      destruct (H [x] false true) as [_ H2]; [discriminate|]. pose proof (proj1 (H2 _) E) as H3.
      unfold stepwise, fs_forward_step in H3. cbn [mapM unsqueeze bind] in H3. rewrite E in H3. cbn [bind] in H3.
      destruct ys as [|y [|? ?]]; try discriminate. eauto. }
    split; [|exact H1].
    intros a b ya yb Ha Hb Ea Eb.
    assert (Hab : a ++ b <> []) by (destruct a; [congruence|discriminate]).
    apply (H _ false true Hab). apply (H _ false true Ha) in Ea. apply (H _ false true Hb) in Eb.
    unfold stepwise in *. clear -Ea Eb.
    match type of Ea with context [mapM ?g a] => set (g0 := g) in * end.
    destruct (mapM g0 a) as [la|] eqn:E1; [|discriminate]. destruct (mapM g0 b) as [lb|] eqn:E2; [|discriminate].
    injection Ea as <-. injection Eb as <-.
    assert (G : mapM g0 (a ++ b) = Ok (la ++ lb)).
    { revert la E1. induction a as [|x a IH]; intros la E1; cbn [mapM app] in *; [injection E1 as <-; exact E2|].
      destruct (g0 x); [|discriminate]. cbn [bind] in *. destruct (mapM g0 a); [|discriminate]. injection E1 as <-.
      rewrite (IH _ eq_refl). reflexivity. }
    rewrite G. reflexivity.
  - intros [H1 H2] xs pe upd Hx. split; [reflexivity|].
    assert (G : exists zs, f (VS xs) = Ok (VS zs) /\ stepwise (fun v => fs_forward_step f v upd) xs = Ok (VS zs)).
    { induction xs as [|x xs IH]; [congruence|]. destruct (H2 x) as [y Ey].
      unfold stepwise. cbn [mapM]. unfold fs_forward_step at 1. cbn [unsqueeze bind]. rewrite Ey. cbn [bind squeeze].
      destruct xs as [|x' xs]; [exists [y]; split; [exact Ey|reflexivity]|].
      destruct IH as (zs & Ez & Es); [discriminate|]. exists (y :: zs). split.
      - change (x :: x' :: xs) with ([x] ++ x' :: xs). change (y :: zs) with ([y] ++ zs).
        apply H1; auto; discriminate.
      - unfold stepwise in Es. destruct (mapM _ (x' :: xs)) as [ws|]; [|discriminate]. injection Es as ->. reflexivity. }
    destruct G as (zs & E1 & E2). intros ys. rewrite E1, E2. reflexivity.
Qed.

Theorem lam_time_coherent (f : val F -> res (val F)) : clip_fun f ->
  let l := {| l_fn := Some f; l_fwd := None; l_step := None; l_steps := None; l_time := true |} in
  (coherent (lam_forward l) (lam_forward_steps l) (lam_forward_step l) <-> splits f).
Proof. intros Hf l. exact (fs_coherent f Hf). Qed.

Lemma elementwise_clip (g : F -> F) : clip_fun (elementwise g).
Proof. intros xs _. eexists. reflexivity. Qed.
Lemma elementwise_splits (g : F -> F) : splits (elementwise g).
Proof. split; [intros a b ya yb _ _ [= <-] [= <-]; cbn; now rewrite map_app|]. intros x. eexists; reflexivity. Qed.

Theorem lam_elementwise_coherent (g : F -> F) :
  let l := lam_elementwise g in coherent (lam_forward l) (lam_forward_steps l) (lam_forward_step l).
Proof. apply lam_time_coherent; [apply elementwise_clip|apply elementwise_splits]. Qed.

(** A function that splits acts on each frame: the module [MMap] of networks. *)
Theorem splits_map (f : val F -> res (val F)) : clip_fun f -> splits f ->
  exists g : F -> F, forall xs, xs <> [] -> f (VS xs) = Ok (VS (map g xs)).
Proof.
  intros Hf [H1 H2].
  exists (fun x => match f (VS [x]) with Ok (VS [y]) => y | _ => x end).
  induction xs as [|x xs IH]; intros Hx; [congruence|]. destruct (H2 x) as [y Ey]. cbn [map]. rewrite Ey.
  destruct xs as [|x' xs]; [exact Ey|].
  change (x :: x' :: xs) with ([x] ++ x' :: xs). rewrite (H1 [x] (x' :: xs) [y] _) with (4 := IH ltac:(discriminate)); auto; discriminate.
Qed.

Context {FA : Frames F} {FL : FrameLaws F}.
Theorem lam_is_map (f : val F -> res (val F)) g : (forall xs, xs <> [] -> f (VS xs) = Ok (VS (map g xs))) ->
  let l := {| l_fn := Some f; l_fwd := None; l_step := None; l_steps := None; l_time := true |} in
  (forall xs, xs <> [] -> lam_forward l (VS xs) = fwd (MMap g) (VS xs)) /\
  (forall xs pe upd, xs <> [] -> bind (lam_forward_steps l (VS xs) pe upd) (fun v => Ok (v, MMap g)) = steps (MMap g) (VS xs) pe upd) /\
  (forall x upd, bind (lam_forward_step l (VT x) upd) (fun v => Ok (v, MMap g)) = step (MMap g) (VT x) upd).
Proof.
  intros H l. split; [|split]; intros.
  - cbn. now rewrite H.
  - cbn. now rewrite H.
  - cbn. rewrite H by discriminate. reflexivity.
Qed.

Theorem mk_lam_iff (l : lam F) : (exists l', mk_lam l = Ok l') <->
  (l_fn l <> None \/ (l_fwd l <> None /\ l_step l <> None /\ l_steps l <> None)).
Proof.
  unfold mk_lam. destruct (l_fn l), (l_fwd l), (l_step l), (l_steps l); split;
    try (intros _; eexists; reflexivity); intros H;
    try (left; congruence); try (right; repeat split; congruence);
    try (destruct H as [? H]; discriminate); destruct H as [H|[H1 [H2 H3]]]; congruence.
Qed.

Theorem lam_three (l : lam F) f g h : l_fwd l = Some f -> l_steps l = Some g -> l_step l = Some h ->
  (coherent (lam_forward l) (lam_forward_steps l) (lam_forward_step l)
   <-> coherent f (fun v _ _ => g v) (fun v _ => h v)).
Proof.
  intros Hf Hg Hh. unfold coherent, lam_forward, lam_forward_steps, lam_forward_step, lam_clip, lam_fstep.
  rewrite Hf, Hg, Hh. reflexivity.
Qed.
End Lambda.

(* ------------------------------------------------------------------ *)
Section Linear.
Context {R : Type}.
Variables (r0 : R) (radd rmul : R -> R -> R).

Lemma mapM_ok {A B} (f : A -> res B) (g : A -> B) xs : (forall x, In x xs -> f x = Ok (g x)) -> mapM f xs = Ok (map g xs).
Proof.
  induction xs as [|x xs IH]; intros H; [reflexivity|]. cbn [mapM map]. rewrite H by (left; auto). cbn [bind].
  rewrite IH by (intros; apply H; right; auto). reflexivity.
Qed.

Lemma nth_map_lt {A B} (g : A -> B) xs i d d' : i < length xs -> nth i (map g xs) d' = g (nth i xs d).
Proof. intros H. rewrite nth_indep with (d' := g d) by (now rewrite map_length). apply map_nth. Qed.

Theorem linear_channel c T x : lin_dim c = 1%Z -> length x = lin_in c -> length (lin_W c) = length (lin_b c) ->
  exists y, lin_clip r0 radd rmul c T x = Ok y /\ length y = length (lin_b c) /\
    (forall r, In r y -> length r = T) /\
    forall t, t < T -> lin_frame r0 radd rmul c (column r0 t x) = Ok (column r0 t y).
Proof.
  intros Hd Hl Hw. unfold lin_clip, lin_frame. rewrite Hd. cbn [Z.eqb orb Pos.eqb]. rewrite Hl, Nat.eqb_refl.
  set (L := fun v => map (fun p => radd (dot r0 radd rmul (fst p) v) (snd p)) (combine (lin_W c) (lin_b c))).
  assert (HL : forall v, length v = lin_in c -> lin_vec r0 radd rmul c v = Ok (L v)).
  { intros v Hv. unfold lin_vec. now rewrite Hv, Nat.eqb_refl. }
  assert (Hn : length (combine (lin_W c) (lin_b c)) = length (lin_b c)) by (rewrite combine_length; lia).
  rewrite (mapM_ok _ L).
  2:{ intros v Hv. unfold transpose in Hv. apply in_map_iff in Hv as (i & <- & _). apply HL. now rewrite map_length. }
  cbn [bind]. eexists. split; [reflexivity|]. rewrite Hn. split; [unfold transpose; now rewrite map_length, seq_length|].
  assert (Hcol : forall t, t < T -> nth t (map L (transpose r0 T x)) [] = L (column r0 t x)).
  { intros t Ht. unfold transpose. rewrite map_map.
    rewrite nth_map_lt with (d := 0) by (now rewrite seq_length). rewrite seq_nth by auto. reflexivity. }
  split.
  - intros r Hr. unfold transpose in Hr at 1. apply in_map_iff in Hr as (i & <- & _). rewrite map_length, map_length.
    unfold transpose. now rewrite map_length, seq_length.
  - intros t Ht. rewrite HL by (unfold column; now rewrite map_length). f_equal.
    set (M := map L (transpose r0 T x)) in *.
    assert (LM : length M = T) by (subst M; unfold transpose; now rewrite !map_length, seq_length).
    unfold column, transpose at 1. rewrite map_map.
    transitivity (map (fun i => nth i (nth t M []) r0) (seq 0 (length (lin_b c)))).
    + rewrite Hcol by auto.
      assert (LL : length (L (column r0 t x)) = length (lin_b c)) by (unfold L; now rewrite map_length).
      rewrite <- LL. unfold column. set (v := L _). clear. 
      apply nth_ext with (d := r0) (d' := r0); [now rewrite map_length, seq_length|].
      intros n Hn. rewrite nth_map_lt with (d := 0) by (now rewrite seq_length). now rewrite seq_nth.
    + apply map_ext. intros i. rewrite nth_map_lt with (d := []) by lia. reflexivity.
Qed.

(** channel_dim=-1 on a (B, C, T) input works along time. *)
Theorem linear_last c T x : lin_dim c = (-1)%Z -> T <> lin_in c -> lin_clip r0 radd rmul c T x = Err RuntimeError.
Proof.
  intros Hd HT. unfold lin_clip. rewrite Hd. cbn [Z.eqb orb Pos.eqb].
  destruct (Nat.eqb_spec T (lin_in c)); [contradiction|reflexivity].
Qed.
End Linear.

(* ------------------------------------------------------------------ *)
Section Reshape.
Context {R : Type}.

Lemma resolve_time T n shape : (0 < T)%Z -> (0 <= n)%Z ->
  resolve (T * n) (T :: shape) = (d <- resolve n shape ;; Ok (T :: d)).
Proof.
  intros HT Hn. unfold resolve. cbn [filter existsb length].
  replace (T =? -1)%Z with false by lia. cbn [negb]. replace (T <? -1)%Z with false by lia. cbn [orb length].
  destruct (existsb _ shape) eqn:Eb; [reflexivity|].
  set (known := filter (fun d => negb (d =? -1)%Z) shape).
  assert (Hz : zprod (T :: known) = (T * zprod known)%Z) by reflexivity. rewrite Hz.
  set (p := zprod known).
  assert (Hp : (0 <= p)%Z).
  { subst p known. clear -Eb. induction shape as [|d shape IH]; [cbn; lia|]. cbn [existsb] in Eb. apply orb_false_iff in Eb as [Hd Hs].
    cbn [filter]. destruct (Z.eqb_spec d (-1)); cbn [negb]; [auto|]. cbn [zprod fold_right]. fold (zprod (filter (fun d => negb (d =? -1)%Z) shape)).
    specialize (IH Hs). assert (0 <= d)%Z by lia. nia. }
  replace (S (length shape) - S (length known)) with (length shape - length known) by lia.
  destruct (length shape - length known) as [|[|?]]; [| |reflexivity].
  - assert (E : (T * p =? T * n)%Z = (p =? n)%Z).
    { destruct (Z.eqb_spec p n); destruct (Z.eqb_spec (T * p) (T * n)); try reflexivity; [subst; lia|].
      exfalso. apply n0. apply (Z.mul_reg_l _ _ T); lia. }
    rewrite E. destruct (p =? n)%Z; reflexivity.
  - destruct (Z.eqb_spec p 0) as [->|Hp0].
    + rewrite Z.mul_0_r. reflexivity.
    + assert (0 < p)%Z by lia. replace (T * p =? 0)%Z with false by (symmetry; apply Z.eqb_neq; nia).
      rewrite Z.mul_mod_distr_l by lia.
      assert (E : (T * (n mod p) =? 0)%Z = (n mod p =? 0)%Z).
      { destruct (Z.eqb_spec (n mod p) 0) as [->|Hne]; [now rewrite Z.mul_0_r|]. apply Z.eqb_neq.
        intros H0. apply Hne. apply Z.mul_eq_0 in H0. lia. }
      rewrite E. destruct (n mod p =? 0)%Z; [|reflexivity]. cbn [bind]. f_equal. cbn [map].
      replace (T =? -1)%Z with false by lia. f_equal.
      apply map_ext. intros d. destruct (d =? -1)%Z; [|reflexivity]. now rewrite Z.div_mul_cancel_l by lia.
Qed.

Lemma zprod_map_infer v shape : length shape - length (filter (fun d => negb (d =? -1)%Z) shape) = 1 ->
  zprod (map (fun d => if (d =? -1)%Z then v else d) shape) = (v * zprod (filter (fun d => negb (d =? -1)%Z) shape))%Z.
Proof.
  assert (G0 : forall l, length l - length (filter (fun d => negb (d =? -1)%Z) l) = 0 ->
    map (fun d => if (d =? -1)%Z then v else d) l = filter (fun d => negb (d =? -1)%Z) l).
  { induction l as [|d l IH]; [reflexivity|]. cbn [filter map length].
    assert (L : length (filter (fun d => negb (d =? -1)%Z) l) <= length l).
    { clear. induction l as [|a l IH]; [cbn; lia|]. cbn [filter]. destruct (negb (a =? -1)%Z); cbn [length]; lia. }
    destruct (Z.eqb_spec d (-1)); cbn [negb length]; intros H; [lia|]. rewrite IH by lia. reflexivity. }
  induction shape as [|d l IH]; [discriminate|]. cbn [filter map length].
  assert (L : length (filter (fun d => negb (d =? -1)%Z) l) <= length l).
  { clear. induction l as [|a l IH]; [cbn; lia|]. cbn [filter]. destruct (negb (a =? -1)%Z); cbn [length]; lia. }
  destruct (Z.eqb_spec d (-1)) as [->|Hd]; cbn [negb length]; intros H.
  - cbn [zprod fold_right]. fold (zprod (map (fun d => if (d =? -1)%Z then v else d) l)). rewrite G0 by lia. reflexivity.
  - cbn [zprod fold_right]. fold (zprod (map (fun d => if (d =? -1)%Z then v else d) l)).
    fold (zprod (filter (fun d => negb (d =? -1)%Z) l)). rewrite IH by lia. ring.
Qed.

Lemma resolve_prod n shape d : resolve n shape = Ok d -> zprod d = n.
Proof.
  unfold resolve. destruct (existsb _ _); [discriminate|].
  set (known := filter (fun d => negb (d =? -1)%Z) shape).
  destruct (length shape - length known) as [|[|?]] eqn:El; [| |discriminate].
  - destruct (Z.eqb_spec (zprod known) n) as [<-|]; [|discriminate]. intros [= <-].
    subst known. f_equal. clear -El.
    induction shape as [|a l IH]; [reflexivity|]. cbn [filter length] in *.
    assert (L : length (filter (fun d => negb (d =? -1)%Z) l) <= length l).
    { clear. induction l as [|b l IH]; [cbn; lia|]. cbn [filter]. destruct (negb (b =? -1)%Z); cbn [length]; lia. }
    destruct (negb (a =? -1)%Z); cbn [length] in *; [rewrite <- IH by lia; reflexivity|lia].
  - destruct (Z.eqb_spec (zprod known) 0); [discriminate|]. destruct (Z.eqb_spec (n mod zprod known) 0) as [Hm|]; [|discriminate].
    intros [= <-]. subst known. rewrite zprod_map_infer by auto. 
    set (p := zprod _) in *. pose proof (Z.div_mod n p ltac:(auto)). lia.
Qed.

Lemma blocks_concat n (xs : list (list R)) : (forall x, In x xs -> length x = n) -> blocks n (length xs) (concat xs) = xs.
Proof.
  induction xs as [|x xs IH]; intros H; [reflexivity|]. cbn [length blocks concat].
  rewrite firstn_app, skipn_app. rewrite (H x) by (left; auto). rewrite Nat.sub_diag. cbn [firstn skipn].
  rewrite <- (H x) by (left; auto). rewrite firstn_all, skipn_all, app_nil_r. cbn [app].
  rewrite (H x) by (left; auto). rewrite IH by (intros; apply H; right; auto). reflexivity.
Qed.

Lemma resolve_len n shape d : resolve n shape = Ok d -> length d = length shape.
Proof.
  unfold resolve. destruct existsb; [discriminate|]. destruct (length shape - _) as [|[|k]]; [| |discriminate].
  - destruct Z.eqb; [|discriminate]. intros [= <-]. reflexivity.
  - destruct (zprod _ =? 0)%Z; [discriminate|]. destruct Z.eqb; [|discriminate]. intros [= <-]. apply map_length.
Qed.

Theorem reshape_coherent shape n (xs : list (tensor R)) pe upd : 2 <= length shape -> xs <> [] ->
  (forall x, In x xs -> length (t_data x) = n) ->
  rs_forward shape xs = mapM (fun x => rs_forward_step shape x upd) xs /\
  rs_forward_steps shape xs pe upd = mapM (fun x => rs_forward_step shape x upd) xs.
Proof.
  intros H2 Hx Hn.
  assert (G : rs_forward shape xs = mapM (fun x => rs_forward_step shape x upd) xs); [|split; exact G].
  unfold rs_forward, rs_forward_step, reshape. cbn [t_data].
  assert (L : length (concat (map t_data xs)) = length xs * n).
  { clear -Hn. induction xs as [|x xs IH]; [reflexivity|]. cbn [map concat length]. rewrite app_length, (Hn x), IH; [lia| |left; auto].
    intros; apply Hn; right; auto. }
  rewrite L, Nat2Z.inj_mul, resolve_time by (destruct xs; [congruence|simpl; lia]).
  destruct (resolve (Z.of_nat n) shape) as [d|e] eqn:E; cbn [bind t_dims t_data].
  - pose proof (resolve_prod _ _ _ E) as Hp. pose proof (resolve_len _ _ _ E) as Hd.
    destruct d as [|d1 [|d2 d]]; [cbn in Hd; lia|cbn in Hd; lia|]. cbn [t_dims].
    set (dd := d1 :: d2 :: d) in *. clearbody dd. rewrite Hp, Nat2Z.id.
    rewrite <- (map_length t_data xs). rewrite blocks_concat.
    2:{ intros b Hb. apply in_map_iff in Hb as (x & <- & Hb). auto. }
    rewrite map_map. symmetry. apply mapM_ok. intros x Hi. rewrite (Hn x Hi), E. reflexivity.
  - destruct xs as [|x xs]; [congruence|]. cbn [mapM]. rewrite (Hn x) by (left; auto). rewrite E. reflexivity.
Qed.
Theorem reshape_one d n (xs : list (tensor R)) pe upd : xs <> [] ->
  (forall x, In x xs -> length (t_data x) = n) -> resolve (Z.of_nat n) [d] <> Err RuntimeError ->
  (forall x, In x xs -> exists y, rs_forward_step [d] x upd = Ok y) /\
  rs_forward [d] xs = Err IndexError /\ rs_forward_steps [d] xs pe upd = Err IndexError.
Proof.
  intros Hx Hn Hr.
  assert (E : exists r, resolve (Z.of_nat n) [d] = Ok r).
  { destruct (resolve (Z.of_nat n) [d]) as [r|e] eqn:E; [eauto|]. exfalso. apply Hr. f_equal. clear -E. revert E. unfold resolve.
    destruct existsb; [congruence|]. destruct (length [d] - _) as [|[|k]]; [| |congruence].
    - destruct Z.eqb; congruence.
    - destruct (zprod _ =? 0)%Z; [congruence|]. destruct Z.eqb; congruence. }
  destruct E as [r E]. split.
  - intros x Hi. unfold rs_forward_step, reshape. rewrite (Hn x Hi), E. eexists; reflexivity.
  - assert (G : rs_forward [d] xs = Err IndexError); [|split; exact G].
    unfold rs_forward, reshape. cbn [t_data].
    assert (L : length (concat (map t_data xs)) = length xs * n).
    { clear -Hn. induction xs as [|x xs IH]; [reflexivity|]. cbn [map concat length]. rewrite app_length, (Hn x), IH; [lia| |left; auto].
      intros; apply Hn; right; auto. }
    rewrite L, Nat2Z.inj_mul, resolve_time by (destruct xs; [congruence|simpl; lia]).
    rewrite E. cbn [bind t_dims]. pose proof (resolve_len _ _ _ E) as Hd. destruct r as [|? [|? ?]]; try discriminate. reflexivity.
Qed.
End Reshape.

(* ------------------------------------------------------------------ *)
Section RnnThm.
Context {F : Type} {FA : Frames F} {FL : FrameLaws F}.

Lemma torch_rnn_eq (c : rnn_cfg F) xs o : xs <> [] -> length (rnn_hs c o) = length (r_cells c) ->
  torch_rnn c xs o = Ok (rnn_layers (r_cells c) (rnn_hs c o) xs).
Proof.
  intros Hx Hl. unfold torch_rnn. fold (rnn_hs c o). destruct xs; [congruence|]. now rewrite Hl, Nat.eqb_refl.
Qed.
Lemma torch_rnn_hs (c : rnn_cfg F) xs o r : torch_rnn c xs o = Ok r -> xs <> [] /\ length (rnn_hs c o) = length (r_cells c).
Proof.
  unfold torch_rnn. fold (rnn_hs c o). destruct xs; [discriminate|]. destruct (Nat.eqb_spec (length (rnn_hs c o)) (length (r_cells c))); [|discriminate].
  split; [discriminate|auto].
Qed.

Lemma rnn_many_app (c : rnn_cfg F) o xs ys : xs <> [] -> ys <> [] ->
  torch_rnn c (xs ++ ys) o
  = ('(a, h) <- torch_rnn c xs o ;; '(b, h2) <- torch_rnn c ys (Some h) ;; Ok (a ++ b, h2)).
Proof.
  intros Hx Hy. destruct (Nat.eq_dec (length (rnn_hs c o)) (length (r_cells c))) as [Hl|Hl].
  - rewrite !torch_rnn_eq; auto; [|destruct xs; [congruence|discriminate]].
    rewrite rnn_layers_app by auto.
    destruct (rnn_layers (r_cells c) (rnn_hs c o) xs) as [a h] eqn:E. cbn [bind fst snd].
    pose proof (rnn_layers_len (r_cells c) (rnn_hs c o) xs Hl) as [_ L]. rewrite E in L. cbn [snd] in L.
    rewrite torch_rnn_eq by auto. cbn [rnn_hs]. destruct (rnn_layers (r_cells c) h ys). reflexivity.
  - unfold torch_rnn. fold (rnn_hs c o).
    destruct xs as [|x xs]; [congruence|]. cbn [app].
    destruct (Nat.eqb_spec (length (rnn_hs c o)) (length (r_cells c))); [contradiction|]. reflexivity.
Qed.

Lemma rnn_one_many (c : rnn_cfg F) o x : rnn_one c o x = ('(y, h) <- torch_rnn c [x] o ;; y0 <- getz y 0 ;; Ok (y0, Some h)).
Proof.
  unfold rnn_one, rnn_forward_step, rnn_fstep. destruct (torch_rnn c [x] o) as [[ys h]|]; cbn [bind]; [|reflexivity].
  destruct (getz ys 0); reflexivity.
Qed.
Lemma rnn_many_eq (c : rnn_cfg F) o xs : rnn_many c o xs = ('(y, h) <- torch_rnn c xs o ;; Ok (y, Some h)).
Proof. unfold rnn_many, rnn_forward_steps. destruct (torch_rnn c xs o) as [[ys h]|]; reflexivity. Qed.

Theorem rnn_pieces (c : rnn_cfg F) ps : (forall p, In p ps -> content p <> []) -> ps <> [] ->
  forall o ys h, torch_rnn c (concat (map content ps)) o = Ok (ys, h) ->
  run_pieces (rnn_one c) (rnn_many c) o ps = Ok (ys, Some h).
Proof.
  induction ps as [|p ps IH]; intros Hp Hne o ys h E; [congruence|]. cbn [map concat] in E.
  assert (Hc : content p <> []) by (apply Hp; left; auto).
  assert (D : exists a h1, torch_rnn c (content p) o = Ok (a, h1) /\
              ((ps = [] /\ ys = a /\ h = h1) \/
               (ps <> [] /\ exists b, torch_rnn c (concat (map content ps)) (Some h1) = Ok (b, h) /\ ys = a ++ b))).
  { destruct ps as [|q ps].
    - cbn [map concat] in E. rewrite app_nil_r in E. exists ys, h. split; [exact E|left; auto].
    - rewrite rnn_many_app in E; auto.
      2:{ cbn [map concat]. assert (content q <> []) by (apply Hp; right; left; auto). destruct (content q); [congruence|discriminate]. }
      destruct (torch_rnn c (content p) o) as [[a h1]|]; [|discriminate]. cbn [bind] in E.
      destruct (torch_rnn c (concat (map content (q :: ps))) (Some h1)) as [[b h2]|] eqn:E2; [|discriminate]. cbn [bind] in E.
      injection E as <- <-. exists a, h1. split; [reflexivity|]. right. split; [discriminate|]. exists b. auto. }
  destruct D as (a & h1 & Ea & D).
  assert (R : match p with One x => '(y, o1) <- rnn_one c o x ;; '(ys, o2) <- run_pieces (rnn_one c) (rnn_many c) o1 ps ;; Ok (y :: ys, o2)
              | Many xs => '(y, o1) <- rnn_many c o xs ;; '(ys, o2) <- run_pieces (rnn_one c) (rnn_many c) o1 ps ;; Ok (y ++ ys, o2) end
            = ('(zs, o2) <- run_pieces (rnn_one c) (rnn_many c) (Some h1) ps ;; Ok (a ++ zs, o2))).
  { destruct p as [x|xs]; cbn [content] in *.
    - rewrite rnn_one_many, Ea. cbn [bind].
      assert (La : length a = 1).
      { destruct (torch_rnn_hs _ _ _ _ Ea) as [_ Hl]. rewrite torch_rnn_eq in Ea by (auto; discriminate). injection Ea as Ea.
        destruct (rnn_layers_len (r_cells c) (rnn_hs c o) [x] Hl) as [L _]. rewrite Ea in L. exact L. }
      destruct a as [|y [|? ?]]; try discriminate. reflexivity.
    - rewrite rnn_many_eq, Ea. reflexivity. }
  cbn [run_pieces]. rewrite R. destruct D as [(-> & -> & ->)|(Hps & b & Eb & ->)].
  - cbn. now rewrite app_nil_r.
  - rewrite (IH (fun q Hq => Hp q (or_intror Hq)) Hps _ _ _ Eb). reflexivity.
Qed.

Theorem rnn_clean_accepts (c : rnn_cfg F) xs : xs <> [] -> exists ys h, torch_rnn c xs None = Ok (ys, h) /\ length ys = length xs.
Proof.
  intros Hx. rewrite torch_rnn_eq by (auto; apply repeat_length).
  destruct (rnn_layers _ _ xs) as [ys h] eqn:E. exists ys, h. split; [reflexivity|].
  destruct (rnn_layers_len (r_cells c) (rnn_hs c None) xs (repeat_length _ _)) as [L _]. rewrite E in L. exact L.
Qed.

Theorem rnn_peek (c : rnn_cfg F) o x xs pe y o1 zs o2 :
  rnn_forward_step c o x true = Ok (y, o1) -> rnn_forward_steps c o xs pe true = Ok (zs, o2) ->
  rnn_forward_step c o x false = Ok (y, o) /\ rnn_forward_steps c o xs pe false = Ok (zs, o).
Proof.
  unfold rnn_forward_step, rnn_forward_steps. destruct (rnn_fstep c x o) as [[? ?]|]; [|discriminate].
  destruct (torch_rnn c xs o) as [[? ?]|]; [|discriminate]. intros [= <- <-] [= <- <-]. split; reflexivity.
Qed.
End RnnThm.

(* ------------------------------------------------------------------ *)
Section RpeThm.
Context {F : Type} {FA : Frames F} {FL : FrameLaws F}.
Implicit Type c : rpe F.


Lemma rpe_step_ok c idx x upd : rpe_in c idx ->
  rpe_forward_step c idx x upd
  = Ok (fadd x (p_E c (Z.to_nat idx)), if upd then ((idx + 1) mod Z.of_nat (p_N c))%Z else idx).
Proof.
  unfold rpe_in. intros H. unfold rpe_forward_step, embed, tmod.
  replace (0 <=? idx)%Z with true by lia. replace (idx <? Z.of_nat (p_N c))%Z with true by lia. cbn [andb bind].
  replace (Z.of_nat (p_N c) =? 0)%Z with false by lia. destruct upd; reflexivity.
Qed.

Definition enc c (idx : Z) (n : nat) (x : F) : F := fadd x (p_E c (Z.to_nat ((idx + Z.of_nat n) mod Z.of_nat (p_N c)))).
Fixpoint encode c (idx : Z) (n : nat) (xs : list F) : list F :=
  match xs with [] => [] | x :: t => enc c idx n x :: encode c idx (S n) t end.

Lemma encode_app c idx n xs ys : encode c idx n (xs ++ ys) = encode c idx n xs ++ encode c idx (n + length xs) ys.
Proof.
  revert n. induction xs as [|x xs IH]; intros n; cbn [encode app length]; [now rewrite Nat.add_0_r|].
  rewrite IH. do 3 f_equal. lia.
Qed.
Lemma encode_shift c idx n xs k : rpe_in c idx ->
  encode c ((idx + Z.of_nat k) mod Z.of_nat (p_N c)) n xs = encode c idx (k + n) xs.
Proof.
  intros H. unfold rpe_in in H. revert n. induction xs as [|x xs IH]; intros n; cbn [encode]; [reflexivity|]. rewrite IH. f_equal; [|f_equal; lia].
  unfold enc. do 3 f_equal. rewrite Z.add_mod_idemp_l by lia. f_equal. lia.
Qed.

Lemma rpe_forward_ok c idx xs k : rpe_in c idx -> length xs <= p_N c ->
  rpe_forward c idx xs k = Ok (encode c idx 0 xs, ((idx + match k with None => p_upd c | Some k => k end) mod Z.of_nat (p_N c))%Z).
Proof.
  intros H HT. unfold rpe_in in H. unfold rpe_forward. replace (length xs <=? p_N c) with true by lia.
  rewrite (mapM_ok _ (fun t => ((Z.of_nat t + idx) mod Z.of_nat (p_N c))%Z)).
  2:{ intros t _. unfold tmod. now replace (Z.of_nat (p_N c) =? 0)%Z with false by lia. }
  cbn [bind]. unfold tmod. replace (Z.of_nat (p_N c) =? 0)%Z with false by lia. cbn [bind].
  rewrite (mapM_ok _ (fun i => p_E c (Z.to_nat i))).
  2:{ intros i Hi. apply in_map_iff in Hi as (t & <- & _). unfold embed.
      pose proof (Z.mod_pos_bound (Z.of_nat t + idx) (Z.of_nat (p_N c)) ltac:(lia)).
      replace (0 <=? _)%Z with true by lia. replace (_ <? Z.of_nat (p_N c))%Z with true by lia. reflexivity. }
  cbn [bind]. do 2 f_equal. rewrite map_map. clear HT.
  assert (G : forall n, map (fun p => fadd (fst p) (snd p))
    (combine xs (map (fun t => p_E c (Z.to_nat ((Z.of_nat t + idx) mod Z.of_nat (p_N c)))) (seq n (length xs)))) = encode c idx n xs).
  { induction xs as [|x xs IH]; intros n; [reflexivity|]. cbn [length seq map combine encode fst snd]. rewrite IH. f_equal.
    unfold enc. do 3 f_equal. f_equal. lia. }
  apply G.
Qed.

Lemma encode_encoded c idx xs : encode c idx 0 xs = encoded c idx xs.
Proof.
  unfold encoded. assert (G : forall n, encode c idx n xs = map (fun t => fadd (nth (t - n) xs f0) (p_E c (Z.to_nat ((idx + Z.of_nat t) mod Z.of_nat (p_N c))))) (seq n (length xs))).
  { induction xs as [|x xs IH]; intros n; [reflexivity|]. cbn [encode length seq map]. rewrite Nat.sub_diag. cbn [nth]. f_equal.
    rewrite IH. apply map_ext_in. intros t Ht. apply in_seq in Ht. replace (t - n) with (S (t - S n)) by lia. reflexivity. }
  rewrite G. apply map_ext. intros t. now rewrite Nat.sub_0_r.
Qed.

Lemma rpe_in_mod c idx k : rpe_in c idx -> rpe_in c ((idx + k) mod Z.of_nat (p_N c))%Z.
Proof. unfold rpe_in. intros H. apply Z.mod_pos_bound. lia. Qed.

Theorem rpe_pieces c ps : (forall p, In p ps -> length (content p) <= p_N c) -> forall idx, rpe_in c idx ->
  run_pieces (rpe_one c) (rpe_many c) idx ps
  = Ok (encode c idx 0 (concat (map content ps)),
        ((idx + Z.of_nat (length (concat (map content ps)))) mod Z.of_nat (p_N c))%Z).
Proof.
  induction ps as [|p ps IH]; intros Hp idx Hi; cbn [run_pieces map concat].
  - cbn [encode length]. unfold rpe_in in Hi. rewrite Z.add_0_r, Z.mod_small by lia. reflexivity.
  - assert (Hp' : forall q, In q ps -> length (content q) <= p_N c) by (intros; apply Hp; right; auto).
    assert (Hl : length (content p) <= p_N c) by (apply Hp; left; auto).
    assert (G : forall o1, o1 = ((idx + Z.of_nat (length (content p))) mod Z.of_nat (p_N c))%Z ->
       ('(ys, o2) <- run_pieces (rpe_one c) (rpe_many c) o1 ps ;; Ok (encode c idx 0 (content p) ++ ys, o2))
       = Ok (encode c idx 0 (content p ++ concat (map content ps)),
             ((idx + Z.of_nat (length (content p ++ concat (map content ps)))) mod Z.of_nat (p_N c))%Z)).
    { intros o1 ->. rewrite (IH Hp') by (apply rpe_in_mod; auto). cbn [bind]. rewrite encode_app, encode_shift by auto.
      do 2 f_equal; [do 2 f_equal; lia|]. rewrite app_length, Z.add_mod_idemp_l by (unfold rpe_in in Hi; lia). f_equal. lia. }
    destruct p as [x|xs]; cbn [content] in *.
    + unfold rpe_one at 1. rewrite rpe_step_ok by auto. cbn [bind].
      specialize (G ((idx + 1) mod Z.of_nat (p_N c))%Z eq_refl). rewrite <- G. cbn [encode].
      assert (E : fadd x (p_E c (Z.to_nat idx)) = enc c idx 0 x).
      { unfold enc. unfold rpe_in in Hi. rewrite Z.add_0_r, Z.mod_small by lia. reflexivity. }
      rewrite E. reflexivity.
    + unfold rpe_many at 1, rpe_forward_steps. rewrite rpe_forward_ok by auto. cbn [bind]. apply G. reflexivity.
Qed.

Theorem rpe_stream c ps idx : (forall p, In p ps -> length (content p) <= p_N c) -> rpe_in c idx ->
  run_pieces (rpe_one c) (rpe_many c) idx ps
  = Ok (encoded c idx (concat (map content ps)),
        ((idx + Z.of_nat (length (concat (map content ps)))) mod Z.of_nat (p_N c))%Z).
Proof. intros. rewrite rpe_pieces by auto. now rewrite encode_encoded. Qed.

Theorem rpe_forward_value c idx xs k : rpe_in c idx -> length xs <= p_N c ->
  rpe_forward c idx xs k = Ok (encoded c idx xs, ((idx + match k with None => p_upd c | Some k => k end) mod Z.of_nat (p_N c))%Z).
Proof. intros. rewrite rpe_forward_ok by auto. now rewrite encode_encoded. Qed.

Theorem rpe_too_long c idx xs k : p_N c < length xs -> rpe_forward c idx xs k = Err AssertionError.
Proof. intros H. unfold rpe_forward. now replace (length xs <=? p_N c) with false by lia. Qed.

Theorem rpe_peek c idx x xs pe : rpe_in c idx -> length xs <= p_N c ->
  (exists y o, rpe_forward_step c idx x true = Ok (y, o) /\ rpe_forward_step c idx x false = Ok (y, idx)) /\
  (exists ys o, rpe_forward_steps c idx xs pe true = Ok (ys, o) /\ rpe_forward_steps c idx xs pe false = Ok (ys, idx)).
Proof.
  intros Hi Hl. split.
  - rewrite !rpe_step_ok by auto. do 2 eexists. split; reflexivity.
  - unfold rpe_forward_steps. rewrite !rpe_forward_ok by auto. do 2 eexists. split; [reflexivity|]. 
    unfold rpe_in in Hi. rewrite Z.add_0_r, Z.mod_small by lia. reflexivity.
Qed.

Theorem rpe_forward_pure c idx xs : rpe_in c idx -> length xs <= p_N c -> p_upd c = 0%Z ->
  exists ys, rpe_forward c idx xs None = Ok (ys, idx).
Proof.
  intros Hi Hl H0. rewrite rpe_forward_ok by auto. eexists. rewrite H0. unfold rpe_in in Hi. rewrite Z.add_0_r, Z.mod_small by lia. reflexivity.
Qed.
End RpeThm.

(* ------------------------------------------------------------------ *)
(** When Lambda and Linear succeed. *)
Lemma mapM_iff {A B} (f : A -> res B) xs ys : mapM f xs = Ok ys <-> Forall2 (fun x y => f x = Ok y) xs ys.
Proof.
  revert ys. induction xs as [|x xs IH]; intros ys; cbn [mapM].
  - split; [intros [= <-]; constructor|]. intros H; inversion H; reflexivity.
  - destruct (f x) as [y|e] eqn:E; cbn [bind].
    + destruct (mapM f xs) as [zs|e] eqn:E2; cbn [bind].
      * split; [intros [= <-]; constructor; [exact E|now apply IH]|].
        intros H; inversion H as [|? y' ? zs' Hy Hz]; subst. apply IH in Hz. rewrite E in Hy. congruence.
      * split; [discriminate|]. intros H; inversion H as [|? y' ? zs' Hy Hz]; subst. apply IH in Hz. discriminate.
    + split; [discriminate|]. intros H; inversion H as [|? y' ? zs' Hy Hz]; subst. congruence.
Qed.

Lemma all_frames_iff {F} (l : list (val F)) ys : all_frames l = Ok ys <-> l = map VT ys.
Proof.
  revert ys. induction l as [|v l IH]; intros ys; cbn [all_frames].
  - split; [intros [= <-]; reflexivity|]. destruct ys; [reflexivity|discriminate].
  - destruct v as [|x|s|s]; try (split; [discriminate|]; destruct ys; discriminate).
    destruct (all_frames l) as [zs|e] eqn:E; cbn [bind].
    + split; [intros [= <-]; cbn [map]; f_equal; now apply IH|].
      destruct ys as [|y ys]; [discriminate|]. cbn [map]. intros [= <- H]. apply IH in H. congruence.
    + split; [discriminate|]. destruct ys as [|y ys]; [discriminate|]. cbn [map]. intros [= <- H]. apply IH in H. discriminate.
Qed.

Lemma lam_clip_iff {F} (l : lam F) f xs ys : l_fn l = Some f -> l_time l = false ->
  (lam_clip None l (VS xs) = Ok (VS ys) <-> xs <> [] /\ Forall2 (fun x y => f (VT x) = Ok (VT y)) xs ys).
Proof.
  intros Hf Ht. unfold lam_clip. rewrite Hf, Ht. cbn [call_fn].
  assert (A : forall vs, Forall2 (fun x v => f (VT x) = Ok v) xs vs -> (vs = map VT ys <-> Forall2 (fun x y => f (VT x) = Ok (VT y)) xs ys)).
  { intros vs H. revert ys. induction H as [|x v xs vs Hx H IH]; intros ys.
    - destruct ys; cbn [map]; split; intros; try constructor; try discriminate; try inversion H. 
    - destruct ys as [|y ys]; cbn [map]; [split; [discriminate|intros Q; inversion Q]|]. split.
      + intros [= -> E]. constructor; [exact Hx|now apply IH].
      + intros Q; inversion Q as [|? ? ? ? Q1 Q2]; subst. apply IH in Q2. congruence. }
  destruct (mapM (fun x => f (VT x)) xs) as [vs|e] eqn:E; cbn [bind].
  - apply mapM_iff in E. rewrite <- (A _ E). destruct vs as [|v vs].
    + inversion E; subst. split; [discriminate|]. intros [[] _]; reflexivity.
    + assert (xs <> []) by (inversion E; discriminate).
      rewrite <- all_frames_iff. cbn [stack].
      destruct (all_frames (v :: vs)) as [zs|e]; cbn [bind]; [|split; [discriminate|intros [_ ?]; discriminate]].
      split; [intros [= <-]; auto|intros [_ [= <-]]; reflexivity].
  - split; [discriminate|]. intros [_ H]. exfalso.
    assert (B : Forall2 (fun x v => f (VT x) = Ok v) xs (map VT ys)).
    { clear -H. induction H; cbn [map]; constructor; auto. }
    apply mapM_iff in B. congruence.
Qed.

Section LinIff.
Context {R : Type} (r0 : R) (radd rmul : R -> R -> R).
Lemma lin_vec_iff (c : linear_cfg R) v : (exists y, lin_vec r0 radd rmul c v = Ok y) <-> length v = lin_in c.
Proof.
  unfold lin_vec. destruct (Nat.eqb_spec (length v) (lin_in c)); split; eauto; [|tauto].
  intros [y H]; discriminate.
Qed.
Theorem lin_step_iff (c : linear_cfg R) v upd :
  (exists y, lin_forward_step r0 radd rmul c v upd = Ok y) <->
  (lin_dim c = (-1)%Z \/ lin_dim c = 1%Z) /\ length v = lin_in c.
Proof.
  unfold lin_forward_step, lin_frame. destruct (Z.eqb_spec (lin_dim c) (-1)); cbn [orb].
  - rewrite lin_vec_iff. tauto.
  - destruct (Z.eqb_spec (lin_dim c) 1); cbn [orb]; [rewrite lin_vec_iff; tauto|].
    split; [intros [y H]; discriminate|tauto].
Qed.
Lemma mapM_lin_iff (c : linear_cfg R) l : (exists y, mapM (lin_vec r0 radd rmul c) l = Ok y) <-> Forall (fun r => length r = lin_in c) l.
Proof.
  split.
  - intros [y H]. apply mapM_iff in H. induction H as [|x z xs zs Hx H IH]; constructor; auto. apply lin_vec_iff; eauto.
  - induction 1 as [|r l Hr H IH]; cbn [mapM]; eauto. apply lin_vec_iff in Hr as [y ->]. destruct IH as [z ->]. cbn [bind]. eauto.
Qed.
Theorem lin_steps_iff (c : linear_cfg R) T x pe upd :
  (forall r, In r x -> length r = T) -> x <> [] -> T <> 0 ->
  ((exists y, lin_forward_steps r0 radd rmul c T x pe upd = Ok y) <->
   (lin_dim c = 1%Z /\ length x = lin_in c) \/ ((lin_dim c = (-1)%Z \/ lin_dim c = 2%Z) /\ T = lin_in c)).
Proof.
  intros Hx Hn HT. unfold lin_forward_steps, lin_clip.
  destruct (Z.eqb_spec (lin_dim c) 1) as [E|E]; cbn [orb].
  - rewrite orb_true_r. cbn [orb]. destruct (Nat.eqb_spec (length x) (lin_in c)) as [E2|E2].
    + split; [tauto|]. intros _.
      destruct (proj2 (mapM_lin_iff c (transpose r0 T x))) as [y ->].
      * unfold transpose. apply Forall_forall. intros r Hr. apply in_map_iff in Hr as [i [<- _]]. now rewrite map_length.
      * cbn [bind]. eauto.
    + split; [intros [y H]; discriminate|]. intros [H|[[H|H] _]]; [tauto|lia|lia].
  - destruct (orb (Z.eqb (lin_dim c) (-1) || false) (Z.eqb (lin_dim c) 2)) eqn:D.
    + destruct (Nat.eqb_spec T (lin_in c)) as [E2|E2].
      * split; [intros _; right; lia|]. intros _.
        destruct (proj2 (mapM_lin_iff c x)) as [y ->]; [apply Forall_forall; intros r Hr; rewrite (Hx r Hr); auto|].
        cbn [bind]. eauto.
      * split; [intros [y H]; discriminate|]. intros [H|[_ H]]; [tauto|lia].
    + split; [intros [y H]; discriminate|]. intros [H|[H _]]; [tauto|lia].
Qed.
End LinIff.
