(** Linear and Reshape on clips and on their frames. *)
From Coq Require Import List ZArith Bool Arith Lia ZifyBool ZifyNat.
From Verif Require PointProof Point.
From Verif Require Import Base Attn Frames Tensor TensorProof TConvProof TAttn TPoint TPointSpec TPointProof TNet TNetSpec.
Import ListNotations.

Section P.
Context {K : Type} {SC : Scal K}.

Definition ins (i : nat) (l : list nat) : list nat := match l with a :: b :: q => a :: b :: i :: q | _ => [] end.
Lemma frames_tab t s g : 2 <= length s ->
  frames_of (T (ins t s) (tab (ins t s) g)) = map (fun i => T (K := K) s (tab s (fun ix => g (ins i ix)))) (seq 0 t).
Proof.
  intros Hs. destruct s as [|B [|C sp]]; cbn in Hs; try lia. unfold frames_of. cbn [ins sh dat]. apply map_ext_seq. intros i Hi. f_equal.
  unfold slice2. apply tab_ext. intros ix Hix. destruct (inr2 _ _ _ _ Hix) as (b & c & q & -> & Hb & Hc & Hq).
  rewrite at_tab_in by (repeat (constructor; [assumption || lia|]); exact Hq). reflexivity.
Qed.
Definition up (k : nat) : nat := if Nat.ltb k 2 then k else S k.
Lemma put_ins k v i l : k < length l -> 2 <= length l -> put (up k) v (ins i l) = ins i (put k v l).
Proof.
  intros Hk Hl. destruct l as [|a [|b q]]; cbn in Hl; try lia. unfold up. destruct k as [|[|k]]; reflexivity.
Qed.
Lemma nth_ins k i l : k < length l -> 2 <= length l -> nth (up k) (ins i l) 0 = nth k l 0.
Proof. intros Hk Hl. destruct l as [|a [|b q]]; cbn in Hl; try lia. unfold up. destruct k as [|[|k]]; reflexivity. Qed.

Lemma mapM_map {A B C} (g : A -> B) (f : B -> res C) (h : A -> C) l : (forall a, In a l -> f (g a) = Ok (h a)) -> mapM f (map g l) = Ok (map h l).
Proof. induction l as [|a l IH]; intros H; [reflexivity|]. cbn. rewrite H by (left; reflexivity). rewrite IH; [reflexivity|]. intros; apply H; right; assumption. Qed.
Lemma mapM_err {A B} (f : A -> res B) l e : l <> [] -> (forall a, In a l -> f a = Err e) -> mapM f l = Err e.
Proof. destruct l as [|a l]; [congruence|]. intros _ H. cbn. rewrite H by (left; reflexivity). reflexivity. Qed.

Lemma lin_frames d cin cout w b (X : tens K) B C t sp k : sh X = B :: C :: t :: sp -> 1 <= t ->
  axis (S (S (S (length sp)))) d = Ok (up k) -> axis (S (S (length sp))) d = Ok k -> k < S (S (length sp)) ->
  framewise (tl_forward d cin cout w b) (tl_forward d cin cout w b) X.
Proof.
  intros E Ht Hc Hf Hk. unfold framewise. rewrite (linear_axis d (up k)) by (rewrite E; first [discriminate|exact Hc]).
  rewrite E. change (B :: C :: t :: sp) with (ins t (B :: C :: sp)). rewrite nth_ins, put_ins by (cbn; lia).
  assert (HX : frames_of X = map (fun i => T (B :: C :: sp) (slice2 B C t sp (dat X) i)) (seq 0 t)) by (unfold frames_of; rewrite E; reflexivity).
  destruct (Nat.eqb (nth k (B :: C :: sp) 0) cin) eqn:Eq.
  - rewrite frames_tab by (rewrite put_len by (cbn; lia); cbn; lia). rewrite HX. apply mapM_map. intros i Hi. apply in_seq in Hi.
    rewrite (linear_axis d k) by (cbn [sh]; first [discriminate|exact Hf]). cbn [sh]. rewrite Eq. f_equal. f_equal. apply tab_ext. intros ix Hix.
    assert (L : length ix = S (S (length sp))) by (apply inr_len in Hix; rewrite put_len in Hix by (cbn; lia); exact Hix).
    unfold lin_at. cbn [sh dat]. rewrite nth_ins by lia. f_equal. f_equal. apply map_ext_seq. intros j Hj. f_equal.
    rewrite put_ins by lia. unfold slice2.
    assert (Hin : inr (put k j ix) (B :: C :: sp)).
    { apply inr_nth. rewrite put_len by lia. split; [exact L|]. intros m Hm. rewrite nth_put by lia. apply inr_nth in Hix as [_ H2].
      specialize (H2 m). rewrite put_len, nth_put in H2 by (cbn; lia). specialize (H2 Hm). destruct (Nat.eqb_spec m k); [subst; apply Nat.eqb_eq in Eq; lia|exact H2]. }
    rewrite at_tab_in by exact Hin. rewrite E. destruct (inr2 _ _ _ _ Hin) as (n & c & q & -> & _). reflexivity.
  - rewrite HX. apply mapM_err; [destruct t; [lia|discriminate]|]. intros a Ha. apply in_map_iff in Ha as (i & <- & _).
    rewrite (linear_axis d k) by (cbn [sh]; first [discriminate|exact Hf]). cbn [sh]. rewrite Eq. reflexivity.
Qed.

Lemma axis_val n d : 1 <= n -> axis n d = if Z.leb (- Z.of_nat n) d && Z.ltb d (Z.of_nat n) then Ok (Z.to_nat (if Z.ltb d 0 then d + Z.of_nat n else d)) else Err IndexError.
Proof. intros H. unfold axis. rewrite Nat.max_r by exact H. reflexivity. Qed.
Theorem linear_framewise (n : nat) (d : Z) :
  (0 <= d < 2 \/ - Z.of_nat n <= d < 0 \/ d < - Z.of_nat (n + 3) \/ Z.of_nat (n + 3) <= d)%Z <->
  (forall cin cout w b (X : tens K) B C t sp, sh X = B :: C :: t :: sp -> length sp = n -> 1 <= t -> whole X ->
     framewise (tl_forward d cin cout w b) (tl_forward d cin cout w b) X).
Proof.
  split.
  - intros H cin cout w b X B C t sp E L Ht _. subst n.
    destruct (Z.leb_spec (- Z.of_nat (length sp + 3)) d); [destruct (Z.ltb_spec d (Z.of_nat (length sp + 3)))|].
    + apply (lin_frames d cin cout w b X B C t sp (Z.to_nat (if Z.ltb d 0 then d + Z.of_nat (length sp + 2) else d))); [exact E|exact Ht| | |].
      * rewrite axis_val by lia. destruct (_ && _) eqn:E1; [|lia]. f_equal. unfold up. destruct (Z.ltb_spec d 0); match goal with |- context [Nat.ltb ?a ?b] => destruct (Nat.ltb_spec a b) end; lia.
      * rewrite axis_val by lia. destruct (_ && _) eqn:E1; [|lia]. f_equal. destruct (Z.ltb_spec d 0); lia.
      * destruct (Z.ltb_spec d 0); lia.
    + unfold framewise. rewrite linear_no_axis by (rewrite E; cbn [length]; rewrite axis_val by lia; destruct (_ && _) eqn:E1; [lia|reflexivity]).
      unfold frames_of. rewrite E. apply mapM_err; [destruct t; [lia|discriminate]|]. intros a Ha. apply in_map_iff in Ha as (i & <- & _).
      apply linear_no_axis. cbn [sh length]. rewrite axis_val by lia; destruct (_ && _) eqn:E1; [lia|reflexivity].
    + unfold framewise. rewrite linear_no_axis by (rewrite E; cbn [length]; rewrite axis_val by lia; destruct (_ && _) eqn:E1; [lia|reflexivity]).
      unfold frames_of. rewrite E. apply mapM_err; [destruct t; [lia|discriminate]|]. intros a Ha. apply in_map_iff in Ha as (i & <- & _).
      apply linear_no_axis. cbn [sh length]. rewrite axis_val by lia; destruct (_ && _) eqn:E1; [lia|reflexivity].
  - intros H. set (s := repeat 1 n). assert (Ls : length s = n) by apply repeat_length.
    set (X := T (1 :: 1 :: 1 :: s) [@s0 K SC]).
    assert (WX : whole X). { unfold whole, X. cbn [dat sh length size fold_right]. unfold s. clear. induction n as [|n IH]; [reflexivity|]. cbn in *. lia. }
    specialize (H 1 2 [] None X 1 1 1 s eq_refl Ls (le_n 1) WX). unfold framewise in H.
    destruct (Z.leb_spec (- Z.of_nat (n + 3)) d) as [H1|]; [|lia]. destruct (Z.ltb_spec d (Z.of_nat (n + 3))) as [H2|]; [|lia].
    assert (HF : frames_of X = [T (1 :: 1 :: s) (slice2 1 1 1 s (dat X) 0)]) by reflexivity.
    assert (Ones : forall m l, (forall v, In v l -> v = 1) -> m < length l -> nth m l 0 = 1) by (intros m l Hv Hm; apply Hv, nth_In, Hm).
    assert (O3 : forall v, In v (1 :: 1 :: 1 :: s) -> v = 1) by (intros v [<-|[<-|[<-|Hv]]]; try reflexivity; apply repeat_spec in Hv; exact Hv).
    assert (O2 : forall v, In v (1 :: 1 :: s) -> v = 1) by (intros v [<-|[<-|Hv]]; try reflexivity; apply repeat_spec in Hv; exact Hv).
    set (k := Z.to_nat (if Z.ltb d 0 then d + Z.of_nat (n + 3) else d)).
    assert (Hk : k < n + 3) by (unfold k; destruct (Z.ltb_spec d 0); lia).
    rewrite (linear_axis d k) in H.
    2:{ discriminate. } 2:{ cbn [X sh length]. rewrite Ls. rewrite axis_val by lia. destruct (_ && _) eqn:E1; [|lia]. f_equal. unfold k. destruct (Z.ltb_spec d 0); lia. }
    cbn [X sh] in H. rewrite Ones in H by (try exact O3; cbn [length]; lia). cbn [Nat.eqb] in H. fold X in H. rewrite HF in H. cbn [mapM] in H.
    destruct (Z.eq_dec d 2) as [D2|D2]; [|destruct (Z.eq_dec d (- Z.of_nat n - 1)) as [D3|D3]].
    + exfalso. assert (k = 2) by (unfold k; subst d; reflexivity). rewrite H0 in H.
      change (put 2 2 (1 :: 1 :: 1 :: s)) with (ins 2 (1 :: 1 :: s)) in H. rewrite frames_tab in H by (cbn; lia). cbn [seq map] in H.
      destruct tl_forward; cbn [bind] in H; discriminate.
    + exfalso. assert (k = 2) by (unfold k; subst d; destruct (Z.ltb_spec (- Z.of_nat n - 1) 0); lia). rewrite H0 in H.
      change (put 2 2 (1 :: 1 :: 1 :: s)) with (ins 2 (1 :: 1 :: s)) in H. rewrite frames_tab in H by (cbn; lia). cbn [seq map] in H.
      destruct tl_forward; cbn [bind] in H; discriminate.
    + assert (exists k', up k' = k /\ k' < n + 2) as (k' & Hup & Hk').
      { exists (if Nat.ltb k 2 then k else k - 1). unfold up. assert (k <> 2) by (unfold k; destruct (Z.ltb_spec d 0); lia).
        destruct (Nat.ltb_spec k 2); [destruct (Nat.ltb_spec k 2)|destruct (Nat.ltb_spec (k - 1) 2)]; lia. }
      rewrite <- Hup in H. change (1 :: 1 :: 1 :: s) with (ins 1 (1 :: 1 :: s)) in H. rewrite put_ins in H by (cbn [length]; lia).
      rewrite frames_tab in H by (rewrite put_len by (cbn [length]; lia); cbn [length]; lia). cbn [seq map] in H.
      destruct (tl_forward d 1 2 [] None (T (1 :: 1 :: s) (slice2 1 1 1 s (dat X) 0))) as [Y|] eqn:EY; cbn [bind] in H; [|discriminate].
      injection H as H. destruct (axis (S (S n)) d) as [k2|e] eqn:EA.
      2:{ exfalso. rewrite linear_no_axis in EY; [discriminate|]. cbn [sh length]. rewrite Ls, EA. revert EA. rewrite axis_val by lia. destruct (_ && _); congruence. }
      rewrite (linear_axis d k2) in EY by (cbn [sh length]; first [discriminate|rewrite Ls; exact EA]). cbn [sh] in EY.
      assert (Hk2 : k2 < S (S n)) by (apply (axis_lt _ d); [lia|exact EA]).
      rewrite Ones in EY by (try exact O2; cbn [length]; lia). cbn [Nat.eqb] in EY. injection EY as <-. apply (f_equal sh) in H. cbn [sh] in H.
      apply (f_equal (fun l => nth k2 l 0)) in H. rewrite !nth_put in H by (cbn [length]; lia). rewrite Nat.eqb_refl in H.
      destruct (Nat.eqb_spec k2 k') as [Ek|Ek].
      * subst k2. revert EA. rewrite axis_val by lia. destruct (_ && _) eqn:E1; [|discriminate]. intros [= EA]. unfold k, up in *. 
        destruct (Z.ltb_spec d 0); destruct (Nat.ltb_spec k' 2); lia.
      * rewrite Ones in H by (try exact O2; cbn [length]; lia). discriminate.
Qed.

(** *** Reshape *)

Lemma resolve_nonneg n shape d : (0 <= n)%Z -> Point.resolve n shape = Ok d -> Forall (fun v => 0 <= v)%Z d.
Proof.
  intros Hn. unfold Point.resolve. destruct existsb eqn:Eb; [discriminate|]. set (known := filter _ shape).
  assert (Hs : forall v, In v shape -> (-1 <= v)%Z).
  { intros v Hv. destruct (Z.ltb_spec v (-1)) as [H|H]; [|lia]. exfalso.
    assert (existsb (fun d => Z.ltb d (-1)) shape = true); [|congruence]. apply existsb_exists. exists v. split; [exact Hv|lia]. }
  assert (Hp : (0 <= Point.zprod known)%Z).
  { unfold known. clear -Hs. induction shape as [|a l IH]; [cbn; lia|]. cbn [filter]. assert (IH' := IH ltac:(intros; apply Hs; right; assumption)).
    destruct (Z.eqb_spec a (-1)); cbn [negb]; [exact IH'|]. cbn [Point.zprod fold_right]. fold (Point.zprod (filter (fun d => negb (d =? -1)%Z) l)).
    assert (-1 <= a)%Z by (apply Hs; left; reflexivity). nia. }
  destruct (length shape - length known) as [|[|k]] eqn:El; [| |discriminate].
  - destruct Z.eqb; [|discriminate]. intros [= <-]. apply Forall_forall. intros v Hv.
    assert (In v known).
    { unfold known in *. clear -El Hv. induction shape as [|a l IH]; [destruct Hv|]. cbn [filter length] in *.
      assert (L : length (filter (fun d => negb (d =? -1)%Z) l) <= length l) by (clear; induction l as [|b l IH]; [cbn; lia|]; cbn [filter]; destruct (negb (b =? -1)%Z); cbn [length]; lia).
      destruct (negb (a =? -1)%Z); cbn [length] in *; [|lia]. destruct Hv as [->|Hv]; [left; reflexivity|right; apply IH; [lia|exact Hv]]. }
    apply filter_In in H as [H1 H2]. specialize (Hs _ H1). lia.
  - destruct (Z.eqb_spec (Point.zprod known) 0); [discriminate|]. destruct Z.eqb; [|discriminate]. intros [= <-].
    apply Forall_map, Forall_forall. intros v Hv. specialize (Hs _ Hv). destruct (Z.eqb_spec v (-1)); [apply Z.div_pos; lia|lia].
Qed.
Lemma zprod_size d : Forall (fun v => 0 <= v)%Z d -> size (map Z.to_nat d) = Z.to_nat (Point.zprod d).
Proof.
  induction 1 as [|a l Ha Hl IH]; [reflexivity|]. cbn [map size fold_right Point.zprod]. fold (size (map Z.to_nat l)). fold (Point.zprod l).
  rewrite IH. assert (0 <= Point.zprod l)%Z; [|lia]. clear -Hl. induction Hl as [|b l Hb _ IH]; [cbn; lia|]. cbn. fold (Point.zprod l). nia.
Qed.
Lemma at_block (s : list nat) (l : list (list K)) k ix : Forall (fun x => length x = size s) l -> k < length l ->
  at_ (length l :: s) (concat l) (map Z.of_nat (k :: ix)) = at_ s (nth k l []) (map Z.of_nat ix).
Proof.
  intros HF Hk. unfold at_. cbn [map offset]. assert ((0 <=? Z.of_nat k)%Z && (Z.of_nat k <? Z.of_nat (length l))%Z = true) as -> by lia.
  destruct (offset s (map Z.of_nat ix)) as [o|] eqn:Eo; cbn [option_map]; [|reflexivity]. rewrite Nat2Z.id. apply offset_lt in Eo.
  clear ix. revert k Hk. induction HF as [|x l Hx _ IH]; intros k Hk; [cbn in Hk; lia|]. cbn [concat]. destruct k as [|k].
  - rewrite app_nth1 by (cbn; lia). reflexivity.
  - rewrite app_nth2 by (cbn; lia). cbn [nth]. rewrite <- IH by (cbn in Hk; lia). f_equal. cbn. lia.
Qed.
Lemma moved_data (X : tens K) B C t sp : sh X = B :: C :: t :: sp ->
  moveaxis20 X = Ok (T (t :: B :: C :: sp) (concat (map dat (frames_of X)))).
Proof.
  intros E. unfold moveaxis20. rewrite E. f_equal. f_equal. cbn [tab]. unfold frames_of. rewrite E. rewrite map_map. cbn [dat].
  rewrite <- flat_map_concat_map. apply flat_map_ext_in. intros i _. unfold slice2.
  change (flat_map (fun i0 => flat_map (fun i1 => tab sp (fun ix => at_ (B :: C :: t :: sp) (dat X) (map Z.of_nat (i0 :: i1 :: i :: ix)))) (seq 0 C)) (seq 0 B))
    with (tab (B :: C :: sp) (fun ix => match ix with b :: c :: r => at_ (B :: C :: t :: sp) (dat X) (map Z.of_nat (b :: c :: i :: r)) | _ => s0 end)).
  reflexivity.
Qed.
Lemma resolve_errs n shape e : Point.resolve n shape = Err e -> e = RuntimeError.
Proof.
  unfold Point.resolve. destruct existsb; [congruence|]. destruct (length shape - _) as [|[|k]]; [| |congruence].
  - destruct Z.eqb; congruence.
  - destruct (_ =? 0)%Z; [congruence|]. destruct Z.eqb; congruence.
Qed.
Lemma len_concat (l : list (list K)) n : Forall (fun x => length x = n) l -> length (concat l) = length l * n.
Proof. induction 1 as [|x l Hx _ IH]; [reflexivity|]. cbn [concat]. rewrite app_length, IH. cbn. lia. Qed.

Lemma reshape_gen shape (X : tens K) B C t sp : sh X = B :: C :: t :: sp -> 1 <= t ->
  tr_forward shape X =
    match Point.resolve (Z.of_nat (size (B :: C :: sp))) shape with
    | Err e => Err e
    | Ok d => moveaxis02 (T (t :: map Z.to_nat d) (concat (map dat (frames_of X))))
    end.
Proof.
  intros E Ht. unfold tr_forward. rewrite E. cbn [nth_error]. rewrite (moved_data _ _ _ _ _ E). cbn [bind]. unfold treshape. cbn [dat].
  assert (HF : Forall (fun x => length x = size (B :: C :: sp)) (map dat (frames_of X))).
  { unfold frames_of. rewrite E. rewrite map_map. apply Forall_map, Forall_forall. intros i _. cbn [dat]. unfold slice2. apply tab_len. }
  rewrite (len_concat _ _ HF). assert (length (map dat (frames_of X)) = t) as -> by (unfold frames_of; rewrite E, !map_length, seq_length; reflexivity).
  rewrite Nat2Z.inj_mul, PointProof.resolve_time by lia. destruct Point.resolve as [d|e]; cbn [bind]; [|reflexivity].
  cbn [map]. rewrite Nat2Z.id. reflexivity.
Qed.

Theorem reshape_framewise shape (X : tens K) B C t sp : 2 <= length shape -> sh X = B :: C :: t :: sp -> 1 <= t ->
  match tr_forward shape X with
  | Ok Y => mapM (treshape shape) (frames_of X) = Ok (frames_of Y)
  | Err e => mapM (treshape shape) (frames_of X) = Err e
  end.
Proof.
  intros Hs E Ht. rewrite (reshape_gen _ _ _ _ _ _ E Ht).
  assert (HF : Forall (fun x => length x = size (B :: C :: sp)) (map dat (frames_of X))).
  { unfold frames_of. rewrite E. rewrite map_map. apply Forall_map, Forall_forall. intros i _. cbn [dat]. unfold slice2. apply tab_len. }
  assert (Hlen : length (map dat (frames_of X)) = t) by (unfold frames_of; rewrite E, !map_length, seq_length; reflexivity).
  destruct (Point.resolve (Z.of_nat (size (B :: C :: sp))) shape) as [d|e] eqn:Er.
  - pose proof (PointProof.resolve_len _ _ _ Er) as Ld. pose proof (PointProof.resolve_prod _ _ _ Er) as Pd.
    assert (Nd := resolve_nonneg _ _ _ (Nat2Z.is_nonneg _) Er). assert (Sd := zprod_size _ Nd). rewrite Pd, Nat2Z.id in Sd.
    assert (exists a b r, map Z.to_nat d = a :: b :: r) as (a & b & r & Ed).
    { destruct d as [|d1 [|d2 d]]; cbn in Ld; try lia. cbn [map]. eauto. }
    rewrite Ed. unfold moveaxis02. cbn [sh dat]. change (a :: b :: t :: r) with (ins t (a :: b :: r)). rewrite frames_tab by (cbn; lia).
    assert (HX : frames_of X = map (fun i => T (B :: C :: sp) (nth i (map dat (frames_of X)) [])) (seq 0 t)).
    { unfold frames_of. rewrite E, map_map. cbn [dat]. apply map_ext_seq. intros i Hi. f_equal.
      rewrite nth_indep with (d' := (fun x => slice2 B C t sp (dat X) x) 0) by (rewrite map_length, seq_length; lia). rewrite (map_nth (fun x => slice2 B C t sp (dat X) x)), seq_nth by lia. reflexivity. }
    rewrite HX at 1. apply mapM_map. intros i Hi. apply in_seq in Hi. cbn [Nat.add] in Hi.
    assert (Hi' : length (nth i (map dat (frames_of X)) []) = size (B :: C :: sp)) by (rewrite Forall_forall in HF; apply HF, nth_In; lia).
    unfold treshape. cbn [dat]. rewrite Hi', Er. cbn [bind]. rewrite Ed. f_equal. f_equal. rewrite Ed in Sd.
    rewrite <- (tab_at (a :: b :: r) (nth i (map dat (frames_of X)) [])) at 1 by lia. apply tab_ext. intros ix Hix.
    destruct (inr2 _ _ _ _ Hix) as (n & c & q & -> & _). cbn [ins]. rewrite <- Hlen at 1. symmetry. apply at_block; [|lia].
    eapply Forall_impl; [|exact HF]. cbn beta. intros x Hx. lia.
  - apply mapM_err.
    + unfold frames_of. rewrite E. destruct t; [lia|discriminate].
    + intros x Hx. rewrite Forall_map, Forall_forall in HF. unfold treshape. rewrite (HF x Hx), Er. reflexivity.
Qed.
Theorem reshape_short d (X : tens K) B C t sp : sh X = B :: C :: t :: sp -> 1 <= t -> (exists y, Point.resolve (Z.of_nat (size (B :: C :: sp))) [d] = Ok y) ->
  (forall x, In x (frames_of X) -> treshape [d] x = Ok (T [size (B :: C :: sp)] (dat x))) /\ tr_forward [d] X = Err IndexError.
Proof.
  intros E Ht [y Ey]. pose proof (PointProof.resolve_len _ _ _ Ey) as Ld. destruct y as [|v [|? ?]]; try discriminate.
  pose proof (PointProof.resolve_prod _ _ _ Ey) as Pd. cbn [Point.zprod fold_right] in Pd. split.
  - intros x Hx. unfold frames_of in Hx. rewrite E in Hx. apply in_map_iff in Hx as (i & <- & _). unfold treshape. cbn [dat].
    assert (length (slice2 B C t sp (dat X) i) = size (B :: C :: sp)) as -> by (unfold slice2; apply tab_len). rewrite Ey. cbn [bind map].
    f_equal. f_equal. f_equal. lia.
  - rewrite (reshape_gen _ _ _ _ _ _ E Ht), Ey. reflexivity.
Qed.

(** *** Statements about tensors *)
Theorem linear_entries d k cin cout w b (x : tens K) : k < length (sh x) ->
  (d = Z.of_nat k \/ d = Z.of_nat k - Z.of_nat (length (sh x)))%Z ->
  (nth k (sh x) 0 <> cin -> tl_forward d cin cout w b x = Err RuntimeError) /\
  (nth k (sh x) 0 = cin -> exists Y, tl_forward d cin cout w b x = Ok Y /\ sh Y = put k cout (sh x) /\ whole Y /\
     forall ix, Forall2 lt ix (sh Y) -> at_ (sh Y) (dat Y) (map Z.of_nat ix) = lin_at k cin cout w b x ix).
Proof.
  intros Hk Hd. assert (HA : axis (length (sh x)) d = Ok k).
  { rewrite axis_val by lia. destruct (_ && _) eqn:E; [|lia]. f_equal. destruct (Z.ltb_spec d 0); lia. }
  assert (Hn : sh x <> []) by (destruct (sh x); [cbn in Hk; lia|discriminate]).
  rewrite (linear_axis d k) by assumption. destruct (Nat.eqb_spec (nth k (sh x) 0) cin) as [E|E]; split; intros H; try congruence.
  eexists. split; [reflexivity|]. cbn [sh dat]. split; [reflexivity|]. split; [unfold whole; cbn [sh dat]; apply tab_len|].
  intros ix Hix. apply at_tab_in. exact Hix.
Qed.
Theorem linear_out_of_range d cin cout w b (x : tens K) : (1 <= length (sh x)) ->
  (d < - Z.of_nat (length (sh x)) \/ Z.of_nat (length (sh x)) <= d)%Z -> tl_forward d cin cout w b x = Err IndexError.
Proof. intros Hl H. apply linear_no_axis. rewrite axis_val by lia. destruct (_ && _) eqn:E; [lia|reflexivity]. Qed.
End P.
