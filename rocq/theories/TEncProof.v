(** Lemmas for the transformer encoders on whole tensors: reading tensors, modules without
    memory. *)
From Coq Require Import List ZArith Bool Arith Lia ZifyBool ZifyNat.
From Verif Require Import Base Frames CoMod Leaf Attn AttnSpec Trans CallMode Tensor TensorProof TConvProof TAttn TAttnSpec TAttnProof
  TPoint TPointSpec TPointProof TPointThm TEnc TEncSpec.
Import ListNotations.

Section P.
Context {K : Type} {NK : Num K}.

(** *** Tensors of shape (B, n, *sp) that hold tokens *)

Definition th (n B : nat) (sp : list nat) (x : tens K) (f : nat -> list nat -> list K) : Prop :=
  sh x = B :: n :: sp /\ forall b q, b < B -> inr q sp ->
    length (f b q) = n /\ forall e, e < n -> get x (b :: e :: q) = nth e (f b q) k0.

Lemma th_clip n B L x f : clip_holds n B L x f <-> th n B [L] x (fun b q => f b (hd 0 q)).
Proof.
  split; intros [Hs H]; (split; [exact Hs|]).
  - intros b q Hb Hq. inversion Hq as [|t ? q' ? Ht Hq']; subst. inversion Hq'; subst. cbn [hd]. apply H; assumption.
  - intros b t Hb Ht. apply (H b [t] Hb). repeat constructor. exact Ht.
Qed.
Lemma th_frame n B x f : frame_holds n B x f <-> th n B [] x (fun b _ => f b).
Proof.
  split; intros [Hs H]; (split; [exact Hs|]).
  - intros b q Hb Hq. inversion Hq; subst. apply H; assumption.
  - intros b Hb. apply (H b []); [assumption|constructor].
Qed.
Lemma th_ext n B sp x f g : (forall b q, b < B -> inr q sp -> f b q = g b q) -> th n B sp x f -> th n B sp x g.
Proof. intros H [Hs Hx]. split; [exact Hs|]. intros b q Hb Hq. rewrite <- H by assumption. apply Hx; assumption. Qed.

Lemma same_refl s : same_shape s s = true.
Proof. unfold same_shape. destruct (list_eq_dec _ _ _); congruence. Qed.
Lemma same_iff a b : same_shape a b = true <-> a = b.
Proof. unfold same_shape. destruct (list_eq_dec _ _ _); split; congruence. Qed.

Lemma plus_len (u v : list K) n : length u = n -> length v = n -> length (plus u v) = n.
Proof. intros Hu Hv. unfold plus. rewrite map_length, combine_length. lia. Qed.
Lemma plus_nth (u v : list K) n e : length u = n -> length v = n -> e < n -> nth e (plus u v) k0 = kadd (nth e u k0) (nth e v k0).
Proof.
  intros Hu Hv He. unfold plus. rewrite (nth_indep _ k0 (kadd (fst (k0, k0)) (snd (k0, k0)))) by (rewrite map_length, combine_length; lia).
  rewrite (map_nth (fun q : K * K => kadd (fst q) (snd q))), combine_nth by lia. reflexivity.
Qed.

Lemma th_add n B sp x y f g : th n B sp x f -> th n B sp y g ->
  exists z, t_add x y = Ok z /\ th n B sp z (fun b q => plus (f b q) (g b q)).
Proof.
  intros [Sx Hx] [Sy Hy]. unfold t_add. rewrite Sx, Sy, same_refl. eexists. split; [reflexivity|]. split; [reflexivity|].
  intros b q Hb Hq. destruct (Hx b q Hb Hq) as [Lx Vx], (Hy b q Hb Hq) as [Ly Vy]. split; [apply plus_len; assumption|].
  intros e He. rewrite get_mk by (repeat constructor; assumption). rewrite Vx, Vy by assumption. symmetry. apply plus_nth with n; assumption.
Qed.
Lemma th_map n B sp x f (a : K -> K) : th n B sp x f -> th n B sp (t_map a x) (fun b q => map a (f b q)).
Proof.
  intros [Sx Hx]. split; [exact Sx|]. intros b q Hb Hq. destruct (Hx b q Hb Hq) as [Lx Vx]. split; [rewrite map_length; exact Lx|].
  intros e He. unfold t_map. rewrite Sx. rewrite get_mk by (repeat constructor; assumption). rewrite Vx by exact He.
  rewrite (nth_indep (map a _) k0 (a k0)) by (rewrite map_length; lia). rewrite map_nth. reflexivity.
Qed.
Lemma th_norm n B x f (g : list K -> list K) : (forall v, length v = n -> length (g v) = n) -> th n B [] x f ->
  exists y, t_norm n g x = Ok y /\ th n B [] y (fun b q => g (f b q)).
Proof.
  intros Hg [Sx Hx]. unfold t_norm. rewrite Sx. cbn [length Nat.eqb negb andb last]. rewrite Nat.eqb_refl.
  eexists. split; [reflexivity|]. split; [reflexivity|]. intros b q Hb Hq. inversion Hq; subst.
  destruct (Hx b [] Hb Hq) as [Lx Vx]. split; [apply Hg; exact Lx|].
  intros e He. rewrite get_mk by (repeat constructor; assumption). cbn [last removelast app]. f_equal. f_equal.
  rewrite (list_nth_seq (f b []) k0), Lx. apply map_ext_in. intros i Hi. apply in_seq in Hi. apply Vx. lia.
Qed.

Lemma affine_len cin cout w b (v : list K) : length (affine cin cout w b v) = cout.
Proof. unfold affine. rewrite map_length, seq_length. reflexivity. Qed.
Lemma affine_nth cin cout w b (v : list K) o : o < cout ->
  nth o (affine cin cout w b v) k0 = kadd (bias_of b o) (Attn.ksum (map (fun i => kmul (nth (o * cin + i) w k0) (nth i v k0)) (seq 0 cin))).
Proof. intros Ho. unfold affine. rewrite nth_map_seq by exact Ho. reflexivity. Qed.

(** Linear with channel_dim 1, and with channel_dim -1 on frames. *)
Lemma put_1 (v a c : nat) q : put 1 v (a :: c :: q) = a :: v :: q.
Proof. reflexivity. Qed.
Lemma th_lin d cin cout w bi B sp x f : (d = 1%Z \/ (d = (-1)%Z /\ sp = [])) -> th cin B sp x f ->
  exists y, tl_forward d cin cout w bi x = Ok y /\ th cout B sp y (fun b q => affine cin cout w bi (f b q)).
Proof.
  intros Hd [Sx Hx]. destruct (linear_entries d 1 cin cout w bi x) as [_ H].
  - rewrite Sx. cbn. lia.
  - rewrite Sx. cbn [length]. destruct Hd as [-> | [-> ->]]; [left|right]; cbn; lia.
  - destruct H as (y & Ey & Sy & _ & Vy); [rewrite Sx; reflexivity|]. exists y. split; [exact Ey|].
    rewrite Sx, put_1 in Sy. split; [exact Sy|]. intros b q Hb Hq. destruct (Hx b q Hb Hq) as [Lx Vx].
    split; [apply affine_len|]. intros e He. unfold get. rewrite Vy by (rewrite Sy; repeat constructor; assumption).
    rewrite affine_nth by exact He. unfold lin_at. cbn [nth]. change bias_at with bias_of. unfold sadd, smul. cbn [num_scal]. f_equal.
    change (@ksum K _) with (@Attn.ksum K NK). apply (f_equal Attn.ksum). apply map_ext_in. intros i Hi. apply in_seq in Hi. rewrite put_1. f_equal.
    + cbn [map]. rewrite (at2 cout cin w e i) by lia. reflexivity.
    + change (get x (b :: i :: q) = nth i (f b q) k0). apply Vx. lia.
Qed.

(** Time: dimension 2. *)
Lemma th_select n B L sp x f t : t < L -> th n B (L :: sp) x f -> th n B sp (select 2 t x) (fun b q => f b (t :: q)).
Proof.
  intros Ht [Sx Hx]. unfold select. rewrite Sx. split; [reflexivity|]. intros b q Hb Hq.
  destruct (Hx b (t :: q) Hb) as [Lx Vx]; [constructor; assumption|]. split; [exact Lx|]. intros e He.
  rewrite get_mk by (repeat constructor; assumption). cbn [insert_at firstn skipn app]. apply Vx; exact He.
Qed.
Lemma nth_error_nth_ {A} (l : list A) n d : n < length l -> nth_error l n = Some (nth n l d).
Proof. intros H. apply nth_error_nth'. exact H. Qed.
Lemma th_stack n B sp (xs : list (tens K)) f L : length xs = L -> 0 < L ->
  (forall t x, nth_error xs t = Some x -> th n B sp x (fun b q => f b (t :: q))) ->
  t_stack xs = Ok (stack 2 xs) /\ th n B (L :: sp) (stack 2 xs) f.
Proof.
  intros <- HL H. assert (Hs : forall x, In x xs -> sh x = B :: n :: sp).
  { intros x Hx. apply In_nth_error in Hx as [t Ht]. apply (H t x Ht). }
  destruct xs as [|x0 l] eqn:Ex; [cbn in HL; lia|].
  assert (S0 : sh x0 = B :: n :: sp) by (apply Hs; left; reflexivity).
  split.
  - unfold t_stack. rewrite S0. rewrite (proj2 (forallb_forall _ _)); [reflexivity|].
    intros y Hy. apply same_iff. symmetry. apply Hs. exact Hy.
  - unfold stack. rewrite S0. rewrite <- Ex in *. split; [reflexivity|]. intros b q Hb Hq.
    inversion Hq as [|t ? q' ? Ht Hq']; subst q. destruct (H t (nth t xs x0) (nth_error_nth_ xs t x0 Ht)) as [_ Hx].
    destruct (Hx b q' Hb Hq') as [Lx Vx]. split; [exact Lx|]. intros e He.
    rewrite get_mk by (repeat constructor; assumption). cbn [nth remove_at firstn skipn app]. apply Vx. exact He.
Qed.
Lemma th_frames n B L sp x f : th n B (L :: sp) x f -> t_frames x = Ok (map (fun i => select 2 i x) (seq 0 L)).
Proof. intros [Sx _]. unfold t_frames. rewrite Sx. reflexivity. Qed.

(** Dimensions of size one. *)
Lemma size_1 s : size (1 :: s) = size s.
Proof. unfold size. cbn [fold_right]. lia. Qed.
Lemma offset_ins (a c : nat) sp (ia ic : Z) q : offset (a :: c :: 1 :: sp) (ia :: ic :: 0%Z :: q) = offset (a :: c :: sp) (ia :: ic :: q).
Proof.
  cbn [offset]. change (Z.leb 0 0 && Z.ltb 0 (Z.of_nat 1))%Z with true. cbv iota. replace (size (c :: 1 :: sp)) with (size (c :: sp)) by (unfold size; cbn [fold_right]; lia).
  rewrite size_1. destruct (offset sp q); reflexivity.
Qed.
Lemma get_ins s a c sp (dt : list K) b e q : s = a :: c :: sp ->
  get (T (a :: c :: 1 :: sp) dt) (b :: e :: 0 :: q) = get (T s dt) (b :: e :: q).
Proof. intros ->. unfold get, at_. cbn [sh dat map]. change (Z.of_nat 0) with 0%Z. rewrite offset_ins. reflexivity. Qed.
Lemma th_unsqueeze n B sp x f : th n B sp x f -> t_unsqueeze x = Ok (unsqueeze 2 x) /\ th n B (1 :: sp) (unsqueeze 2 x) (fun b q => f b (tl q)).
Proof.
  destruct x as [s d]. intros [Sx Hx]. cbn [sh] in Sx. subst s. split; [reflexivity|]. split; [reflexivity|].
  intros b q Hb Hq. inversion Hq as [|t ? q' ? Ht Hq']; subst q. cbn [tl]. destruct (Hx b q' Hb Hq') as [Lx Vx].
  split; [exact Lx|]. intros e He. replace t with 0 by lia. unfold unsqueeze. cbn [sh dat insert_at firstn skipn app].
  rewrite (get_ins _ B n sp d b e q' eq_refl). apply Vx. exact He.
Qed.
Lemma th_squeeze n B sp x f : th n B (1 :: sp) x f -> th n B sp (squeeze 2 x) (fun b q => f b (0 :: q)).
Proof.
  destruct x as [s d]. intros [Sx Hx]. cbn [sh] in Sx. subst s. split; [reflexivity|].
  intros b q Hb Hq. destruct (Hx b (0 :: q) Hb) as [Lx Vx]; [constructor; [lia|exact Hq]|].
  split; [exact Lx|]. intros e He. unfold squeeze. cbn [sh dat nth Nat.eqb remove_at firstn skipn app].
  rewrite <- (get_ins _ B n sp d b e q eq_refl). apply Vx. exact He.
Qed.
Lemma squeeze_unsqueeze n B sp x f : th n B sp x f -> squeeze 2 (unsqueeze 2 x) = x.
Proof. destruct x as [s d]. intros [Sx _]. cbn [sh] in Sx. subst s. reflexivity. Qed.

Lemma th_not_empty n B sp x f : 0 < B -> th n B sp x f -> empty_batch x = false.
Proof. intros HB [Sx _]. unfold empty_batch. rewrite Sx. cbn [hd]. lia. Qed.

Lemma window_nth (N : nat) (f : nat -> nat -> list K) b n i : i < N -> nth i (window_tokens N n f b) [] = f b (n + 1 - N + i).
Proof.
  intros Hi. unfold window_tokens. rewrite (nth_indep _ [] (f b 0)) by (rewrite map_length, seq_length; exact Hi).
  rewrite map_nth, seq_nth by exact Hi. reflexivity.
Qed.

(** *** Modules without memory: [m] applies [g] to every token *)
Definition pw (ctx : option meth) (me : meth) (m : tmod K) (n n' B : nat) (sp : list nat) (g : list K -> list K) : Prop :=
  forall s x f pe upd, th n B sp x f ->
    exists y s', exec ctx me m s x pe upd = Ok (Some y, s') /\ th n' B sp y (fun b q => g (f b q)).
Definition pws (ctx : option meth) (me : meth) (l : list (tmod K)) (n n' B : nat) (sp : list nat) (g : list K -> list K) : Prop :=
  forall ss x f pe upd, th n B sp x f ->
    exists y ss', chain me (fun m s x => exec ctx me m s x pe upd) l ss x = Ok (Some y, ss') /\ th n' B sp y (fun b q => g (f b q)).

Variable B : nat.
Hypothesis HB : 0 < B.
Variable ctx : option meth.

Lemma chain_cons me ex (m : tmod K) l ss x :
  chain me ex (m :: l) ss x =
  if match me with Steps => empty_batch x | _ => false end then Ok (None, ss)
  else '(y, s) <- ex m (hd SNone ss) x ;;
       match y with
       | Some y => '(z, ss') <- chain me ex l (tl ss) y ;; Ok (z, s :: ss')
       | None => match l, me with _ :: _, Forward => Err TypeError | _, _ => Ok (None, s :: tl ss) end
       end.
Proof. reflexivity. Qed.
Lemma pws_nil me n sp : pws ctx me [] n n B sp (fun v => v).
Proof. intros ss x f pe upd H. exists x, []. split; [reflexivity|]. exact H. Qed.
Lemma pws_cons me m l n1 n2 n3 sp g h : pw ctx me m n1 n2 B sp g -> pws ctx me l n2 n3 B sp h ->
  pws ctx me (m :: l) n1 n3 B sp (fun v => h (g v)).
Proof.
  intros Hm Hl ss x f pe upd H. destruct (Hm (hd SNone ss) x f pe upd H) as (y & s' & E1 & Hy).
  destruct (Hl (tl ss) y _ pe upd Hy) as (z & ss' & E2 & Hz). exists z, (s' :: ss'). split; [|exact Hz].
  rewrite chain_cons, (th_not_empty _ _ _ _ _ HB H), E1. cbn [bind]. rewrite E2. destruct me; reflexivity.
Qed.
Lemma pw_seq me l n n' sp g : pws ctx me l n n' B sp g -> pw ctx me (MSeq l) n n' B sp g.
Proof.
  intros H s x f pe upd Hx. destruct (H (kids s) x f pe upd Hx) as (y & ss & E & Hy). exists y, (SList ss). split; [|exact Hy].
  cbn [exec]. rewrite E. reflexivity.
Qed.
Lemma pws_g me l n n' sp g h : (forall v, length v = n -> g v = h v) -> pws ctx me l n n' B sp g -> pws ctx me l n n' B sp h.
Proof.
  intros Hg H s x f pe upd Hx. destruct (H s x f pe upd Hx) as (y & s' & E & Hy). exists y, s'. split; [exact E|].
  apply th_ext with (2 := Hy). intros b q Hb Hq. apply Hg. apply (proj2 Hx b q Hb Hq).
Qed.

Lemma pw_lin me d cin cout w b sp : (d = 1%Z \/ (d = (-1)%Z /\ sp = [])) -> pw ctx me (MLin d cin cout w b) cin cout B sp (affine cin cout w b).
Proof. intros Hd s x f pe upd H. destruct (th_lin d cin cout w b B sp x f Hd H) as (y & E & Hy). exists y, s. split; [|exact Hy]. cbn [exec]. rewrite E. reflexivity. Qed.
Lemma pw_norm me n g : (forall v, length v = n -> length (g v) = n) -> pw ctx me (MNorm n g) n n B [] g.
Proof. intros Hg s x f pe upd H. destruct (th_norm n B x f g Hg H) as (y & E & Hy). exists y, s. split; [|exact Hy]. cbn [exec]. rewrite E. reflexivity. Qed.
Lemma pw_fun me n sp a : pw ctx me (MFun a) n n B sp (map a).
Proof. intros s x f pe upd H. exists (t_map a x), s. split; [reflexivity|]. apply th_map. exact H. Qed.
Lemma pw_drop me n sp : pw ctx me MDrop n n B sp (fun v => v).
Proof.
  intros s x f pe upd H. exists x, s. split; [|exact H]. destruct me; try reflexivity.
  cbn [exec]. rewrite (proj1 (th_unsqueeze _ _ _ _ _ H)). cbn [bind]. rewrite (squeeze_unsqueeze _ _ _ _ _ H). reflexivity.
Qed.

(** A function called outside of a container. *)
Lemma pw_must fn n n' sp g : pw ctx (mode_of ctx fn) fn n n' B sp g ->
  forall s x f, th n B sp x f -> exists y s', must (fun s x => exec ctx (mode_of ctx fn) fn s x false true) s x = Ok (y, s')
    /\ th n' B sp y (fun b q => g (f b q)).
Proof.
  intros H s x f Hx. destruct (H s x f false true Hx) as (y & s' & E & Hy). exists y, s'. split; [|exact Hy].
  unfold must. rewrite E. reflexivity.
Qed.
Lemma each_ok (F : tstate K -> tens K -> res (tens K * tstate K)) (R : nat -> tens K -> tens K -> Prop) xs : forall i s,
  (forall t x s, nth_error xs t = Some x -> exists y s', F s x = Ok (y, s') /\ R (i + t) x y) ->
  exists ys s', each F s xs = Ok (ys, s') /\ length ys = length xs
    /\ forall t y, nth_error ys t = Some y -> exists x, nth_error xs t = Some x /\ R (i + t) x y.
Proof.
  induction xs as [|x xs IH]; intros i s H.
  - exists [], s. split; [reflexivity|]. split; [reflexivity|]. intros [|t] y Hy; discriminate.
  - destruct (H 0 x s eq_refl) as (y & s1 & E1 & R1).
    destruct (IH (S i) s1) as (ys & s2 & E2 & L2 & R2).
    { intros t x' s' Ht. destruct (H (S t) x' s' Ht) as (y' & s'' & E & R'). exists y', s''. split; [exact E|].
      replace (S i + t) with (i + S t) by lia. exact R'. }
    exists (y :: ys), s2. split; [cbn [each]; rewrite E1; cbn [bind]; rewrite E2; reflexivity|].
    split; [cbn [length]; lia|]. intros [|t] y' Hy'.
    + injection Hy' as <-. exists x. split; [reflexivity|exact R1].
    + destruct (R2 t y' Hy') as (x' & Hx' & R'). exists x'. split; [exact Hx'|]. replace (i + S t) with (S i + t) by lia. exact R'.
Qed.
Lemma over_ok F n n' L sp sp' (g : list K -> list K) : 0 < L ->
  (forall s x f, th n B sp x f -> exists y s', F s x = Ok (y, s') /\ th n' B sp' y (fun b q => g (f b q))) -> sp' = sp ->
  forall s x f, th n B (L :: sp) x f -> exists y s', over_time F s x = Ok (y, s') /\ th n' B (L :: sp) y (fun b q => g (f b q)).
Proof.
  intros HL HF -> s x f Hx. unfold over_time. rewrite (th_frames _ _ _ _ _ _ Hx). cbn [bind].
  destruct (each_ok F (fun t u v => t < L /\ th n' B sp v (fun b q => g (f b (t :: q)))) (map (fun i => select 2 i x) (seq 0 L)) 0 s)
    as (ys & s' & E & Ly & R).
  { intros t u s' Ht. assert (Hl : t < L).
    { apply nth_error_Some_lt in Ht || (assert (nth_error (map (fun i => select 2 i x) (seq 0 L)) t <> None) as Hn by congruence;
        apply nth_error_Some in Hn; rewrite map_length, seq_length in Hn; exact Hn). }
    rewrite nth_error_map, (nth_error_nth' _ 0), seq_nth in Ht by (rewrite ?seq_length; exact Hl). cbn in Ht. injection Ht as <-.
    destruct (HF s' _ _ (th_select n B L sp x f t Hl Hx)) as (y & s'' & Ey & Hy). exists y, s''. split; [exact Ey|]. split; [exact Hl|exact Hy]. }
  rewrite map_length, seq_length in Ly. rewrite E. cbn [bind].
  destruct (th_stack n' B sp ys (fun b q => g (f b q)) L Ly HL) as [E2 H2].
  { intros t y Hy. destruct (R t y Hy) as (_ & _ & _ & HR). exact HR. }
  exists (stack 2 ys), s'. rewrite E2. split; [reflexivity|exact H2].
Qed.

Lemma pw_lam_step fn n n' sp g : pw ctx (mode_of ctx fn) fn n n' B sp g -> pw ctx Step (MLam false false fn) n n' B sp g.
Proof.
  intros H s x f pe upd Hx. destruct (pw_must _ _ _ _ _ H s x f Hx) as (y & s' & E & Hy). exists y, s'. split; [|exact Hy].
  cbn [exec]. rewrite E. reflexivity.
Qed.
Lemma pw_lam_clip fn n n' L sp g me retro : me = Forward \/ (me = Steps /\ retro = false) \/ (me = Step /\ retro = true) -> 0 < L ->
  pw ctx (mode_of ctx fn) fn n n' B sp g -> pw ctx me (MLam retro false fn) n n' B (L :: sp) g.
Proof.
  intros Hme HL H s x f pe upd Hx.
  destruct (over_ok _ n n' L sp sp g HL (pw_must _ _ _ _ _ H) eq_refl s x f Hx) as (y & s' & E & Hy). exists y, s'. split; [|exact Hy].
  destruct Hme as [-> | [[-> ->] | [-> ->]]]; cbn [exec]; unfold lam_forward; rewrite E; reflexivity.
Qed.
Lemma pw_lam_clips fn n n' L1 L2 sp g : 0 < L1 -> 0 < L2 ->
  pw ctx (mode_of ctx fn) fn n n' B sp g -> pw ctx Steps (MLam true false fn) n n' B (L1 :: L2 :: sp) g.
Proof.
  intros H1 H2 H s x f pe upd Hx.
  destruct (over_ok _ n n' L1 (L2 :: sp) (L2 :: sp) g H1 (over_ok _ n n' L2 sp sp g H2 (pw_must _ _ _ _ _ H) eq_refl) eq_refl s x f Hx) as (y & s' & E & Hy).
  exists y, s'. split; [|exact Hy]. cbn [exec]. match goal with |- context [lam_forward false ?F] => change (lam_forward false F) with (over_time F) end.
  rewrite E. reflexivity.
Qed.
Lemma pw_lam_fun me n sp a : pw ctx me (MLam false true (MFun a)) n n B sp (map a).
Proof.
  intros s x f pe upd Hx. destruct me.
  1, 2: exists (t_map a x), s; split; [|apply th_map; exact Hx]; cbn [exec]; unfold lam_forward, must; reflexivity.
  destruct (th_unsqueeze _ _ _ _ _ Hx) as [E Hu]. eexists _, s. split; [cbn [exec]; rewrite E; cbn [bind]; unfold must; cbn [exec bind]; reflexivity|].
  apply (th_map _ _ _ _ _ a) in Hu. apply th_squeeze in Hu. exact Hu.
Qed.
Lemma pw_res me m n sp g : pw ctx me m n n B sp g -> pw ctx me (MBR false [MDel false 0; m]) n n B sp (fun v => plus v (g v)).
Proof.
  intros H s x f pe upd Hx.
  destruct (H (hd SNone (tl (kids s))) x f pe upd Hx) as (y & s' & E & Hy). destruct (th_add n B sp x y _ _ Hx Hy) as (z & Ez & Hz).
  assert (Ed : exists s0, exec ctx me (MDel false 0) (hd SNone (kids s)) x pe upd = Ok (Some x, s0)).
  { cbn [exec]. destruct me; eexists; reflexivity. }
  destruct Ed as [s0 Ed]. exists z, (SList [s0; s']). split; [|exact Hz].
  cbn [exec] in Ed |- *. cbn [fan exec]. rewrite Ed. cbn [bind]. rewrite E. cbn [bind]. unfold t_reduce. cbn [somes option_map existsb].
  rewrite (th_not_empty _ _ _ _ _ HB Hx), (th_not_empty _ _ _ _ _ HB Hy). cbn [orb t_reduce_sum t_sum]. rewrite Ez. reflexivity.
Qed.
End P.
