(** Every entry that torch's convolution returns, as a sum over the input. *)
From Coq Require Import List ZArith Bool Arith Lia ZifyBool ZifyNat.
From Verif Require Import Base Frames CoMod Leaf Tensor TConv TConvSpec TensorProof TConvProof.
Import ListNotations.

Lemma filter_eqb m d : forall a, filter (fun t => Nat.eqb t m) (seq a d) = if Nat.leb a m && Nat.ltb m (a + d) then [m] else [].
Proof.
  induction d as [|d IH]; intros a; cbn [seq filter].
  - destruct (Nat.leb_spec a m), (Nat.ltb_spec m (a + 0)); try reflexivity; lia.
  - rewrite IH. destruct (Nat.eqb_spec a m) as [->|N].
    + destruct (Nat.leb_spec (S m) m), (Nat.leb_spec m m), (Nat.ltb_spec m (m + S d)); try lia; reflexivity.
    + destruct (Nat.leb_spec (S a) m), (Nat.leb_spec a m), (Nat.ltb_spec m (S a + d)), (Nat.ltb_spec m (a + S d)); try lia; reflexivity.
Qed.
Lemma filter_ext_b {A} (f g : A -> bool) l : (forall a, f a = g a) -> filter f l = filter g l.
Proof. intros H. induction l as [|a l IH]; [reflexivity|]. cbn. rewrite H, IH. reflexivity. Qed.
Lemma filter_map {A A'} (f : A -> A') (h : A' -> bool) l : filter h (map f l) = map f (filter (fun a => h (f a)) l).
Proof. induction l as [|a l IH]; [reflexivity|]. cbn. destruct (h (f a)); cbn; rewrite IH; reflexivity. Qed.

(** ** The channels of a group *)
Lemma group_is cin cout g o : 1 <= g -> cin = g * (cin / g) -> cout = g * (cout / g) -> o < cout ->
  group_of cin cout g o = map (fun ch => o / (cout / g) * (cin / g) + ch) (seq 0 (cin / g)).
Proof.
  intros G Hi Ho L. unfold group_of. set (n := cin / g) in *. set (m := cout / g) in *. rewrite Hi. clear Hi.
  assert (A : o / m < g) by (apply Nat.div_lt_upper_bound; nia).
  set (a := o / m) in *. clearbody n m a. clear -A. destruct n as [|n]; [rewrite Nat.mul_0_r; reflexivity|].
  enough (H : forall c, filter (fun ci => Nat.eqb (ci / S n) a) (seq (c * S n) (g * S n))
              = if Nat.leb c a && Nat.ltb a (c + g) then map (fun ch => a * S n + ch) (seq 0 (S n)) else []).
  { specialize (H 0). change (0 * S n) with 0 in H. rewrite H. destruct (Nat.leb_spec 0 a), (Nat.ltb_spec a (0 + g)); try lia. reflexivity. }
  clear A. induction g as [|g IH]; intros c.
  - cbn [Nat.mul seq filter]. destruct (Nat.leb_spec c a), (Nat.ltb_spec a (c + 0)); try lia; reflexivity.
  - cbn [Nat.mul]. rewrite seq_app, filter_app. replace (c * S n + S n) with (S c * S n) by lia. rewrite (IH (S c)).
    assert (B : forall l, (forall x, In x l -> c * S n <= x < c * S n + S n) -> filter (fun ci => Nat.eqb (ci / S n) a) l = if Nat.eqb c a then l else []).
    { induction l as [|x l IHl]; intros Hl; [destruct (Nat.eqb c a); reflexivity|]. cbn [filter].
      rewrite IHl by (intros; apply Hl; right; assumption).
      assert (x / S n = c) as ->.
      { assert (c * S n <= x < c * S n + S n) by (apply Hl; left; reflexivity). symmetry. apply (Nat.div_unique x (S n) c (x - c * S n)); lia. }
      destruct (Nat.eqb c a); reflexivity. }
    rewrite B by (intros x Hx; apply in_seq in Hx; lia). destruct (Nat.eqb_spec c a) as [E|N].
    + subst c. destruct (Nat.leb_spec (S a) a), (Nat.leb_spec a a), (Nat.ltb_spec a (a + S g)); try lia. cbn [andb]. rewrite app_nil_r.
      generalize (S n) as x, (a * S n) as b. intros x b. rewrite <- (Nat.add_0_r b) at 1. generalize 0 as z. induction x; intros z; [reflexivity|]. cbn. f_equal.
      rewrite <- Nat.add_succ_r. apply IHx.
    + cbn [app]. destruct (Nat.leb_spec (S c) a), (Nat.leb_spec c a), (Nat.ltb_spec a (S c + g)), (Nat.ltb_spec a (c + S g)); try lia; reflexivity.
Qed.

Section Entry.
Context {K : Type} {SC : Scal K} {SL : ScalLaws K}.

(** ** One dimension *)
Lemma meet_split rep d k s p dl i :
  meet rep d k s p dl i =
  flat_map (fun j => map (pair j) (filter (fun t => if rep then Nat.eqb t (Nat.min (d - 1) (i * s + j * dl - p)) else Nat.eqb (t + p) (i * s + j * dl)) (seq 0 d)))
    (seq 0 k).
Proof.
  unfold meet. generalize (seq 0 k) as l. induction l as [|j l IH]; [reflexivity|]. cbn [list_prod flat_map].
  rewrite filter_app, IH, filter_map. reflexivity.
Qed.
Lemma one_zeros d a p : filter (fun t => Nat.eqb (t + p) a) (seq 0 d) = if Nat.leb p a && Nat.ltb a (d + p) then [a - p] else [].
Proof.
  destruct (Nat.leb_spec p a) as [H|H]; cbn [andb].
  - rewrite (filter_ext_b _ (fun t => Nat.eqb t (a - p))) by (intros t; lia). rewrite filter_eqb. cbn [Nat.leb andb].
    destruct (Nat.ltb_spec (a - p) (0 + d)), (Nat.ltb_spec a (d + p)); try lia; reflexivity.
  - rewrite (filter_ext_b _ (fun _ => false)) by (intros t; lia). induction (seq 0 d); [reflexivity|assumption].
Qed.

Definition lookz (rep : bool) (d : nat) (z : Z) : Z := if rep then clamp d z else z.
Lemma sum_meet rep (F : nat -> Z -> K) d k s p dl i : (rep = true -> 1 <= d) ->
  (rep = false -> forall j z, (z < 0 \/ Z.of_nat d <= z)%Z -> F j z = s0) ->
  ksum (map (fun j => F j (lookz rep d (Z.of_nat (i * s) - Z.of_nat p + Z.of_nat (j * dl)))) (seq 0 k))
  = ksum (map (fun jt => F (fst jt) (Z.of_nat (snd jt))) (meet rep d k s p dl i)).
Proof.
  intros D O. rewrite meet_split, flat_map_concat_map, concat_map, map_map, <- flat_map_concat_map, ksum_flat.
  f_equal. apply map_ext. intros j. rewrite map_map. cbn [fst snd]. destruct rep; cbn [lookz].
  - rewrite filter_eqb. specialize (D eq_refl). cbn [Nat.leb andb].
    destruct (Nat.ltb_spec (Nat.min (d - 1) (i * s + j * dl - p)) (0 + d)); [|lia]. cbn [map ksum fold_right]. rewrite sadd_0_r.
    f_equal. unfold clamp. lia.
  - rewrite one_zeros. destruct (_ && _) eqn:E.
    + cbn [map ksum fold_right]. rewrite sadd_0_r. f_equal. apply andb_true_iff in E as [E1 E2]. lia.
    + apply O; [reflexivity|]. apply andb_false_iff in E as [E|E]; lia.
Qed.

(** ** All dimensions *)
Definition looks (rep : bool) (dims : list nat) (ix : list Z) : list Z := if rep then clamps dims ix else ix.
Lemma sum_meets rep dims : forall ks ss ps ds q (F : list nat -> list Z -> K),
  length ks = length dims -> length ss = length dims -> length ps = length dims -> length ds = length dims -> length q = length dims ->
  (rep = true -> forallb (Nat.leb 1) dims = true) ->
  (rep = false -> forall kp ix, inside dims ix = false -> F kp ix = s0) ->
  ksum (tab ks (fun kp => F kp (looks rep dims (wpos q ss ps kp ds))))
  = ksum (map (fun m => F (fst m) (map Z.of_nat (snd m))) (meets rep dims ks ss ps ds q)).
Proof.
  induction dims as [|d dims IH]; intros [|k ks] [|s ss] [|p ps] [|dl ds] [|i q] F; try discriminate; intros L1 L2 L3 L4 L5 D O; [destruct rep; reflexivity|].
  cbn [length] in *. rewrite ksum_tab. cbn [meets].
  assert (D1 : rep = true -> 1 <= d) by (intros R; specialize (D R); cbn [forallb] in D; apply andb_true_iff in D as [D _]; lia).
  assert (D2 : rep = true -> forallb (Nat.leb 1) dims = true) by (intros R; specialize (D R); cbn [forallb] in D; apply andb_true_iff in D as [_ D]; exact D).
  pose (G := fun j z => ksum (tab ks (fun kp => F (j :: kp) (z :: looks rep dims (wpos q ss ps kp ds))))).
  transitivity (ksum (map (fun j => G j (lookz rep d (Z.of_nat (i * s) - Z.of_nat p + Z.of_nat (j * dl)))) (seq 0 k))).
  { f_equal. apply map_ext. intros j. unfold G. f_equal. f_equal. destruct rep; reflexivity. }
  rewrite sum_meet; [|exact D1|].
  - rewrite flat_map_concat_map, concat_map, map_map, <- flat_map_concat_map, ksum_flat. f_equal. apply map_ext_in. intros [j t] T.
    assert (T' : t < d).
    { unfold meet in T. apply filter_In in T as [T _]. apply in_prod_iff in T as [_ T]. apply in_seq in T. lia. }
    rewrite map_map. cbn [fst snd map]. unfold G.
    apply (IH ks ss ps ds q (fun kp ix => F (j :: kp) (Z.of_nat t :: ix))); try lia; [exact D2|]. intros R kp ix N. apply O; [exact R|]. cbn [inside]. rewrite N. apply andb_false_r.
  - intros R j z Z0. unfold G. rewrite (ksum_tab_ext ks _ (fun _ => s0)).
    + rewrite tab_zero by reflexivity. induction (size ks) as [|n IHn]; [reflexivity|].
      cbn [repeat]. unfold ksum in *. cbn [fold_right]. rewrite IHn. apply sadd_0_l.
    + intros ix _. apply O; [exact R|]. cbn [inside]. destruct (Z.leb_spec 0 z); [|reflexivity]. destruct (Z.ltb_spec z (Z.of_nat d)); [lia|reflexivity].
Qed.

Lemma out_covered dims : forall ks ss ps ds q,
  length ks = length dims -> length ss = length dims -> length ps = length dims -> length ds = length dims ->
  Forall (fun s => 1 <= s) ss -> fits dims ks ps ds = true ->
  (inr q (out_dims dims ks ss ps ds) <-> covered dims ks ss ps ds q).
Proof.
  induction dims as [|d dims IH]; intros [|k ks] [|s ss] [|p ps] [|dl ds] q; try discriminate; cbn [length fits out_dims]; intros L1 L2 L3 L4 Hs Hf.
  - destruct q as [|i q]; cbn [covered]; split; intros H; auto; try constructor; inversion H.
  - apply andb_true_iff in Hf as [Hf1 Hf2]. inversion Hs as [|x y Hs1 Hs2]. subst.
    destruct q as [|i q]; cbn [covered]; [split; intros H; inversion H|].
    rewrite <- (IH ks ss ps ds q) by (lia || assumption).
    assert (E : i < out_dim d k s p dl <-> i * s + dl * (k - 1) + 1 <= d + 2 * p).
    { unfold out_dim. set (e := dl * (k - 1) + 1) in *. replace (i * s + dl * (k - 1) + 1) with (i * s + e) by (unfold e; lia). apply Nat.leb_le in Hf1. split; intros H.
      - assert (i <= (d + 2 * p - e) / s) as H' by lia. apply (Nat.mul_le_mono_l _ _ s) in H'. pose proof (Nat.mul_div_le (d + 2 * p - e) s). lia.
      - assert (i <= (d + 2 * p - e) / s) by (apply Nat.div_le_lower_bound; lia). lia. }
    rewrite <- E. split; intros H.
    + inversion H; subst. split; assumption.
    + destruct H. constructor; assumption.
Qed.

(** ** The module *)
Variables (B : nat) (sp : list nat) (c : tconv K).
Definition is_rep : bool := match t_mode c with Zeros => false | _ => true end.

Lemma forward_entry T X Y :
  length (t_ks c) = length sp -> length (t_ss c) = length sp -> length (t_ps c) = length sp -> length (t_ds c) = length sp ->
  Forall (fun s => 1 <= s) (t_s c :: t_ss c) ->
  1 <= t_g c -> t_cin c = t_g c * (t_cin c / t_g c) -> t_cout c = t_g c * (t_cout c / t_g c) ->
  t_forward B sp c T X = Ok Y ->
  forall b o q, b < B -> o < t_cout c ->
  let od := out_dims (T :: sp) (t_k c :: t_ks c) (t_s c :: t_ss c) (t_p c :: t_ps c) (1 :: t_ds c) in
  covered (T :: sp) (t_k c :: t_ks c) (t_s c :: t_ss c) (t_p c :: t_ps c) (1 :: t_ds c) q ->
  offset (B :: t_cout c :: od) (map Z.of_nat (b :: o :: q)) <> None /\
  at_ (B :: t_cout c :: od) Y (map Z.of_nat (b :: o :: q)) =
  sadd (match t_b c with Some v => nth o v s0 | None => s0 end)
    (ksum (flat_map (fun ci =>
        map (fun m => smul (at_ (t_cout c :: t_cin c / t_g c :: t_k c :: t_ks c) (t_w c)
                              (map Z.of_nat (o :: ci mod (t_cin c / t_g c) :: fst m)))
                           (at_ (B :: t_cin c :: T :: sp) X (map Z.of_nat (b :: ci :: snd m))))
          (meets is_rep (T :: sp) (t_k c :: t_ks c) (t_s c :: t_ss c) (t_p c :: t_ps c) (1 :: t_ds c) q))
      (group_of (t_cin c) (t_cout c) (t_g c) o))).
Proof.
  intros L1 L2 L3 L4 S G Gi Go H b o q Hb Ho od HC.
  set (dims := T :: sp) in *. set (ks := t_k c :: t_ks c) in *. set (ss := t_s c :: t_ss c) in *. set (ps := t_p c :: t_ps c) in *. set (ds := 1 :: t_ds c) in *.
  assert (M1 : length ks = length dims) by (cbn; lia). assert (M2 : length ss = length dims) by (cbn; lia).
  assert (M3 : length ps = length dims) by (cbn; lia). assert (M4 : length ds = length dims) by (cbn; lia).
  assert (A : exists x' dims' ps', convnd B (t_cin c) (t_cout c) (t_g c) dims' ks ss ps' ds (t_w c) (t_b c) x' = Ok Y /\
     out_dims dims' ks ss ps' ds = od /\ fits dims ks ps ds = true /\ (is_rep = true -> forallb (Nat.leb 1) dims = true) /\
     (inr q od -> forall kp ci, inr kp ks -> ci < t_cin c ->
        at_ (B :: t_cin c :: dims') x' (Z.of_nat b :: Z.of_nat ci :: wpos q ss ps' kp ds)
        = at_ (B :: t_cin c :: dims) X (Z.of_nat b :: Z.of_nat ci :: looks is_rep dims (wpos q ss ps kp ds)))).
  { unfold t_forward in H. fold dims ks ss ps ds in H. unfold is_rep.
    assert (R : (if forallb (Nat.leb 1) dims then
        convnd B (t_cin c) (t_cout c) (t_g c) (grow dims ps) ks ss (zs ps) ds (t_w c) (t_b c) (reppad B (t_cin c) dims ps X)
      else Err RuntimeError) = Ok Y ->
      exists x' dims' ps', convnd B (t_cin c) (t_cout c) (t_g c) dims' ks ss ps' ds (t_w c) (t_b c) x' = Ok Y /\
     out_dims dims' ks ss ps' ds = od /\ fits dims ks ps ds = true /\ (true = true -> forallb (Nat.leb 1) dims = true) /\
     (inr q od -> forall kp ci, inr kp ks -> ci < t_cin c ->
        at_ (B :: t_cin c :: dims') x' (Z.of_nat b :: Z.of_nat ci :: wpos q ss ps' kp ds)
        = at_ (B :: t_cin c :: dims) X (Z.of_nat b :: Z.of_nat ci :: looks true dims (wpos q ss ps kp ds)))).
    { intros H'. destruct (forallb (Nat.leb 1) dims) eqn:F; [|discriminate]. exists (reppad B (t_cin c) dims ps X), (grow dims ps), (zs ps).
      assert (F' : fits dims ks ps ds = true).
      { unfold convnd in H'. rewrite (grow_fits dims ks ps ds M3) in H'. destruct (fits dims ks ps ds); [reflexivity|discriminate]. }
      split; [exact H'|]. split; [unfold od; apply grow_zs; exact M3|]. split; [exact F'|]. split; [reflexivity|].
      intros Q kp ci Hk Hi. destruct (rep_wpos dims ks ss ps ds q kp M1 M2 M3 M4 F' Q Hk) as [HA HB].
      unfold reppad. rewrite at_tab. cbn [inside]. rewrite HA.
      assert (Z.leb 0 (Z.of_nat b) && Z.ltb (Z.of_nat b) (Z.of_nat B) = true) as -> by lia.
      assert (Z.leb 0 (Z.of_nat ci) && Z.ltb (Z.of_nat ci) (Z.of_nat (t_cin c)) = true) as -> by lia.
      cbn [andb map]. rewrite HB, !Nat2Z.id. reflexivity. }
    destruct (t_mode c); [|exact (R H)|exact (R H)].
    exists X, dims, ps. split; [exact H|]. split; [reflexivity|]. split; [|split; [discriminate|reflexivity]].
    unfold convnd in H. destruct (fits dims ks ps ds); [reflexivity|discriminate]. }
  destruct A as (x' & dims' & ps' & H' & OD & F & RP & RD).
  assert (Q : inr q od) by (apply out_covered; auto).
  assert (Lq : length q = length dims).
  { clear -Q M1 M2 M3 M4. unfold od in Q. clearbody dims ks ss ps ds. clear od. revert ks ss ps ds M1 M2 M3 M4 q Q. induction dims as [|d dims IH]; intros [|k ks] [|s ss] [|p ps] [|dl ds]; try discriminate; cbn [out_dims]; intros L1 L2 L3 L4 q Hq; inversion Hq; subst; [reflexivity|].
    cbn [length] in *. f_equal. eapply (IH ks ss ps ds); eauto. }
  split.
  - rewrite offset_inside. rewrite inside_nat; [discriminate|]. constructor; [exact Hb|]. constructor; [exact Ho|exact Q].
  - unfold convnd in H'. destruct (_ && _) in H'; [|discriminate].
    apply (f_equal (fun r => match r with Ok v => v | Err _ => Y end)) in H'. cbv beta iota in H'. rewrite <- H', OD.
    rewrite at_tab_in by (constructor; [|constructor]; assumption). unfold bias_at, conv_elem. f_equal.
    rewrite ksum_tab, group_is by assumption. rewrite flat_map_concat_map, map_map, <- flat_map_concat_map, ksum_flat. f_equal.
    apply map_ext_in. intros ch Hch. apply in_seq in Hch. set (n := t_cin c / t_g c) in *. set (a := o / (t_cout c / t_g c)) in *.
    assert (Ha : a < t_g c) by (unfold a; apply Nat.div_lt_upper_bound; nia).
    assert (Hi : a * n + ch < t_cin c) by nia.
    assert (Em : (a * n + ch) mod n = ch) by (rewrite Nat.add_comm, Nat.mod_add, Nat.mod_small; lia). rewrite Em.
    rewrite <- (sum_meets is_rep dims ks ss ps ds q (fun kp ix => smul (at_ (t_cout c :: n :: ks) (t_w c) (map Z.of_nat (o :: ch :: kp)))
        (at_ (B :: t_cin c :: dims) X (Z.of_nat b :: Z.of_nat (a * n + ch) :: ix)))); auto.
    + apply ksum_tab_ext. intros kp Hk. f_equal. apply RD; auto.
    + intros _ kp ix N. rewrite (at_out (B :: t_cin c :: dims)); [apply smul_0_r|]. cbn [inside]. rewrite N, !andb_false_r. reflexivity.
Qed.
End Entry.
