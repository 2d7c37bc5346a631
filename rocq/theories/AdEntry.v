(** Which positions an entry of an adaptive pooling pools (C60). *)
From Coq Require Import List ZArith Bool Arith Lia.
From Verif Require Import Base Frames Tensor TensorProof TPool AdPool AdPoolSpec.
Import ListNotations.

Fixpoint idx (sh : list nat) : list (list nat) :=
  match sh with [] => [[]] | n :: r => flat_map (fun i => map (cons i) (idx r)) (seq 0 n) end.
Lemma in_idx sh : forall ix, In ix (idx sh) <-> inr ix sh.
Proof.
  induction sh as [|n sh IH]; intros ix; cbn [idx].
  - split; [intros [<-|[]]; constructor|intros H; inversion H; left; reflexivity].
  - rewrite in_flat_map. split.
    + intros (i & Hi & H). apply in_map_iff in H as (ix' & <- & H). apply in_seq in Hi. constructor; [lia|apply IH, H].
    + intros H. inversion H as [|i ? ix' ? Hi H']; subst. exists i. split; [apply in_seq; lia|]. apply in_map, IH, H'.
Qed.
Lemma nodup_idx sh : NoDup (idx sh).
Proof.
  induction sh as [|n sh IH]; cbn [idx]; [repeat constructor; intros []|].
  assert (Hm : forall i, NoDup (map (cons i) (idx sh))).
  { intros i. apply FinFun.Injective_map_NoDup; [intros a b E; injection E; auto|exact IH]. }
  generalize 0. induction n as [|n IHn]; intros a; cbn [seq flat_map]; [constructor|].
  assert (App : forall l1 l2 : list (list nat), NoDup l1 -> NoDup l2 -> (forall x, In x l1 -> ~ In x l2) -> NoDup (l1 ++ l2)).
  { clear. induction l1 as [|x l1 I]; intros l2 H1 H2 D; [exact H2|]. inversion H1; subst. cbn [app]. constructor.
    - rewrite in_app_iff. intros [H|H]; [contradiction|]. apply (D x); [left; reflexivity|exact H].
    - apply I; auto. intros y Hy. apply D. right. exact Hy. }
  apply App; auto. intros x H1 H2. apply in_map_iff in H1 as (y & <- & _). apply in_flat_map in H2 as (j & Hj & H2).
  apply in_map_iff in H2 as (z & E & _). injection E as -> _. apply in_seq in Hj. lia.
Qed.
Lemma len_idx sh : length (idx sh) = size sh.
Proof.
  induction sh as [|n sh IH]; [reflexivity|]. cbn [idx]. change (size (n :: sh)) with (n * size sh). rewrite <- IH. generalize 0.
  induction n as [|n IHn]; intros a; cbn [seq flat_map]; [reflexivity|]. rewrite app_length, map_length, IHn. lia.
Qed.
Lemma tab_idx {K} sh : forall f : list nat -> K, tab sh f = map f (idx sh).
Proof.
  induction sh as [|n sh IH]; intros f; cbn [tab idx]; [reflexivity|].
  generalize (seq 0 n). intros l. induction l as [|i l IHl]; cbn [flat_map]; [reflexivity|]. rewrite map_app, IHl, IH, map_map. reflexivity.
Qed.

(** One dimension. *)
Lemma window_1 d o i r : 0 < o -> (ad_start d o i <= r < ad_stop d o i <-> i * d < (r + 1) * o /\ r * o < (i + 1) * d).
Proof.
  intros Ho. unfold ad_start, ad_stop.
  pose proof (Nat.div_mod (i * d) o ltac:(lia)) as E1. pose proof (Nat.mod_upper_bound (i * d) o ltac:(lia)) as B1.
  pose proof (Nat.div_mod ((i + 1) * d + o - 1) o ltac:(lia)) as E2. pose proof (Nat.mod_upper_bound ((i + 1) * d + o - 1) o ltac:(lia)) as B2.
  set (a := i * d / o) in *. set (e := ((i + 1) * d + o - 1) / o) in *.
  set (x := (i * d) mod o) in *. set (y := ((i + 1) * d + o - 1) mod o) in *.
  clearbody a e x y. generalize dependent ((i + 1) * d). generalize dependent (i * d). intros u E1 v E2.
  split; intros [H1 H2]; split; nia.
Qed.

Lemma windows dims : forall outs q, length outs = length dims -> inr q outs -> forall r,
  (exists kp, inr kp (ad_lens dims outs q) /\ ad_pos dims outs q kp = r) <-> overlap dims outs q r.
Proof.
  induction dims as [|d dims IH]; intros [|o outs] q L Hq r; try discriminate L.
  - inversion Hq; subst. cbn [ad_lens ad_pos]. split.
    + intros (kp & Hk & <-). constructor.
    + intros H. inversion H; subst. exists []. split; [constructor|reflexivity].
  - inversion Hq as [|i ? q' ? Hi Hq']; subst. cbn [ad_lens]. injection L as L. split.
    + intros (kp & Hk & <-). inversion Hk as [|j ? kp' ? Hj Hk']; subst. cbn [ad_pos].
      assert (W : ad_start d o i <= ad_start d o i + j < ad_stop d o i) by lia. apply window_1 in W as [W1 W2]; [|lia].
      constructor; auto. apply (IH outs q' L Hq'). exists kp'. auto.
    + intros H. inversion H as [|? ? ? rr ? ? ? rs W1 W2 H']; subst. destruct (proj2 (IH outs q' L Hq' rs) H') as (kp & Hk & E).
      assert (W : ad_start d o i <= rr < ad_stop d o i) by (apply window_1; [lia|auto]).
      exists (rr - ad_start d o i :: kp). split; [constructor; [lia|exact Hk]|]. cbn [ad_pos]. f_equal; [lia|exact E].
Qed.
Lemma overlap_in dims : forall outs q r, inr q outs -> overlap dims outs q r -> inr r dims.
Proof.
  intros outs q r Hq H. revert Hq. induction H as [|d o i r dims outs qs rs W1 W2 _ IH]; intros Hq; [constructor|].
  inversion Hq; subst. constructor; [nia|apply IH; assumption].
Qed.
Lemma pos_inj dims : forall outs q a b, inr a (ad_lens dims outs q) -> inr b (ad_lens dims outs q) ->
  ad_pos dims outs q a = ad_pos dims outs q b -> a = b.
Proof.
  induction dims as [|d dims IH]; intros [|o outs] [|i q] a b Ha Hb E; cbn [ad_lens] in *; try (inversion Ha; inversion Hb; subst; reflexivity).
  inversion Ha as [|x1 ? a' ? Hx Ha']; subst. inversion Hb as [|x2 ? b' ? Hy Hb']; subst. cbn [ad_pos] in E. injection E as E1 E2.
  f_equal; [lia|]. apply (IH outs q); assumption.
Qed.

Lemma ad_forward_entry (K : Type) (P : Pool K) (B C : nat) (sp : list nat) (c : adp) : length (a_out c) = length sp ->
  forall (T : nat) (X Y : list K), ad_forward B C sp c T X = Ok Y ->
  forall b ch q, b < B -> ch < C -> Forall2 lt q (a_out c) ->
  exists ps, NoDup ps /\ (forall r, In r ps <-> overlap (T :: sp) (1 :: a_out c) (0 :: q) r) /\
    (forall r, In r ps -> Forall2 lt r (T :: sp)) /\
    at_ (B :: C :: 1 :: a_out c) Y (map Z.of_nat (b :: ch :: 0 :: q)) =
      pscale (length ps) (ksum (map (fun r => at_ (B :: C :: T :: sp) X (map Z.of_nat (b :: ch :: r))) ps)).
Proof.
  intros L T X Y E b ch q Hb Hc Hq. unfold ad_forward, adpool in E.
  destruct (forallb (Nat.leb 1) (T :: sp)); [|discriminate E].
  assert (EY : forall a b' : list K, Ok a = Ok b' -> a = b') by (intros a b' Q; injection Q; auto). apply EY in E. subst Y. clear EY.
  assert (Hq' : inr (0 :: q) (1 :: a_out c)) by (constructor; [lia|exact Hq]).
  assert (L' : length (1 :: a_out c) = length (T :: sp)) by (cbn [length]; lia).
  revert Hq' L'. generalize (1 :: a_out c) as outs, (T :: sp) as dims, (0 :: q) as qq. clear -Hb Hc. intros outs dims qq Hq L.
  assert (Hps : forall r, In r (map (ad_pos dims outs qq) (idx (ad_lens dims outs qq))) <-> overlap dims outs qq r).
  { intros r. rewrite in_map_iff, <- (windows dims outs qq L Hq). split; intros (kp & H1 & H2); exists kp.
    - split; [apply in_idx, H2|exact H1].
    - split; [exact H2|apply in_idx, H1]. }
  exists (map (ad_pos dims outs qq) (idx (ad_lens dims outs qq))). split; [|split; [exact Hps|split]].
  - assert (Hi : forall l, (forall a, In a l -> inr a (ad_lens dims outs qq)) -> NoDup l -> NoDup (map (ad_pos dims outs qq) l)).
    { induction l as [|a l IH]; intros Hl Hn; cbn [map]; [constructor|]. inversion Hn; subst. constructor.
      - intros H. apply in_map_iff in H as (b' & E & Hb'). apply pos_inj in E; [subst; contradiction| |]; apply Hl; cbn; auto.
      - apply IH; [intros; apply Hl; right; assumption|assumption]. }
    apply Hi; [intros a; apply in_idx|apply nodup_idx].
  - intros r Hr. apply Hps in Hr. eapply overlap_in; eauto.
  - rewrite at_tab_in by (repeat constructor; assumption). rewrite map_length, len_idx, map_map. unfold ad_elem. rewrite tab_idx. reflexivity.
Qed.
