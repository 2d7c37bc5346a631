(** RetroactiveUnity over arbitrary streams, and the encoder layers. *)
From Coq Require Import List ZArith Bool Arith Lia ZifyBool ZifyNat.
From Verif Require Import Base Frames CoMod Leaf Spec LeafSpec Ring LeafProof
  Attn AttnSpec AttnProof AttnThm AttnMore Trans TransSpec.
Import ListNotations.

Section UnityProof.
Context {F : Type} {FA : Frames F} {FL : FrameLaws F}.

(** Slot that frame [m] is written to. *)
Definition slot (d m : nat) : nat := if m <? d then m + 1 else m mod d.
Definition idx_of (d n : nat) : Z :=
  if n <? d then (Z.of_nat n - Z.of_nat d)%Z else Z.of_nat (n mod d).

(** Frame [m] is the last one of the first [n] frames written to slot [s]. *)
Definition written (d n s m : nat) : Prop :=
  m < n /\ slot d m = s /\ (forall m', m < m' < n -> slot d m' <> s).

Definition uinv (d : nat) (l : list F) (o : obj F) : Prop :=
  match l with
  | [] => o_buf o = []
  | _ => length (o_buf o) = d + 1 /\ o_idx o = idx_of d (length l)
         /\ (forall s m, written d (length l) s m ->
               nth_error (o_buf o) s = nth_error l m)
  end.

Lemma slot_le d m : 1 <= d -> slot d m <= d.
Proof.
  intros Hd. unfold slot. destruct (Nat.ltb_spec m d); [lia|].
  pose proof (Nat.mod_upper_bound m d). lia.
Qed.

Lemma idx_slot d n : 1 <= d -> (idx_of d n mod Z.of_nat (d + 1))%Z = Z.of_nat (slot d n).
Proof.
  intros Hd. unfold idx_of, slot. destruct (Nat.ltb_spec n d).
  - replace (Z.of_nat n - Z.of_nat d)%Z
      with (Z.of_nat (n + 1) + (-1) * Z.of_nat (d + 1))%Z by lia.
    rewrite Z.mod_add by lia. apply Z.mod_small. lia.
  - pose proof (Nat.mod_upper_bound n d). apply Z.mod_small. lia.
Qed.

Lemma idx_next d n : 1 <= d ->
  (if Z.ltb 0 (idx_of d n + 1) then
     if Nat.eqb d 0 then Err RuntimeError else Ok ((idx_of d n + 1) mod Z.of_nat d)%Z
   else Ok (idx_of d n + 1)%Z) = Ok (idx_of d (n + 1)).
Proof.
  intros Hd. replace (Nat.eqb d 0) with false by lia. unfold idx_of.
  pose proof (Nat.mod_upper_bound n d).
  destruct (Nat.ltb_spec n d), (Nat.ltb_spec (n + 1) d); try lia.
  - replace (Z.ltb 0 _) with false by lia. f_equal. lia.
  - replace (Z.ltb 0 _) with false by lia. f_equal.
    replace (n + 1) with d by lia. rewrite Nat.mod_same by lia. lia.
  - replace (Z.ltb 0 _) with true by lia. f_equal.
    rewrite !Nat2Z.inj_mod, Nat2Z.inj_add.
    replace (Z.of_nat 1) with 1%Z by lia. rewrite Z.add_mod_idemp_l by lia. reflexivity.
Qed.

Lemma mod_gap d a b : 1 <= d -> a < b -> b < a + d -> a mod d <> b mod d.
Proof.
  intros Hd H1 H2 E.
  pose proof (Nat.div_mod a d). pose proof (Nat.div_mod b d).
  pose proof (Nat.mod_upper_bound a d). pose proof (Nat.mod_upper_bound b d).
  assert (d * (b / d) - d * (a / d) = b - a) by lia.
  destruct (Nat.le_gt_cases (b / d) (a / d)); nia.
Qed.

(** Frame at position [j] of the output after [n + 1] frames. *)
Definition src (d n j : nat) : nat :=
  if n <? 2 * d then n - d + j
  else if j <? d - 1 - n mod d then n - d + j + 1
  else if j =? d - 1 - n mod d then d - 1
  else n - d + j.

Lemma written_src d n j : 1 <= d -> d <= n -> j <= d ->
  written d (n + 1) ((j + n mod d + 1) mod (d + 1)) (src d n j).
Proof.
  intros Hd Hn Hj. set (i := n mod d).
  assert (Hi : i < d) by (apply Nat.mod_upper_bound; lia).
  assert (Hs : (j + i + 1) mod (d + 1) = if j + i <? d then j + i + 1 else j + i - d).
  { destruct (Nat.ltb_spec (j + i) d); [apply Nat.mod_small; lia|].
    replace (j + i + 1) with (j + i - d + 1 * (d + 1)) by lia.
    rewrite Nat.mod_add by lia. apply Nat.mod_small. lia. }
  rewrite Hs. clear Hs.
  (* the recent frames *)
  assert (A : d <= j + i ->
    written d (n + 1) (j + i - d) (n - d + j)).
  { intros Hge. pose proof (Nat.div_mod n d ltac:(lia)) as En. fold i in En.
    assert (1 <= n / d) by (apply Nat.div_le_lower_bound; lia).
    assert (Em : (n - d + j) mod d = j + i - d).
    { symmetry. apply (Nat.mod_unique _ _ (n / d)); nia. }
    assert (d <= n - d + j) by nia.
    split; [lia|]. unfold slot. split.
    - destruct (Nat.ltb_spec (n - d + j) d); lia.
    - intros m' Hm'. destruct (Nat.ltb_spec m' d); [lia|].
      rewrite <- Em. apply not_eq_sym, mod_gap; lia. }
  unfold src. fold i.
  destruct (Nat.ltb_spec n (2 * d)) as [H2|H2].
  - assert (i = n - d) as Ei.
    { unfold i. symmetry. apply (Nat.mod_unique _ _ 1); lia. }
    destruct (Nat.ltb_spec (j + i) d) as [L|L]; [|apply A; lia].
    split; [lia|]. unfold slot. split.
    + destruct (Nat.ltb_spec (n - d + j) d); lia.
    + intros m' Hm'. destruct (Nat.ltb_spec m' d); [lia|].
      replace (m' mod d) with (m' - d) by (apply (Nat.mod_unique _ _ 1); lia). lia.
  - pose proof (Nat.div_mod n d ltac:(lia)) as En. fold i in En.
    assert (2 <= n / d) by (apply Nat.div_le_lower_bound; lia).
    destruct (Nat.ltb_spec j (d - 1 - i)) as [L1|L1].
    { replace (j + i <? d) with true by lia.
      assert (Em : (n - d + j + 1) mod d = j + i + 1).
      { symmetry. apply (Nat.mod_unique _ _ (n / d - 1)); nia. }
      split; [lia|]. unfold slot. split.
      - destruct (Nat.ltb_spec (n - d + j + 1) d); lia.
      - intros m' Hm'. destruct (Nat.ltb_spec m' d); [lia|].
        rewrite <- Em. apply not_eq_sym, mod_gap; lia. }
    destruct (Nat.eqb_spec j (d - 1 - i)) as [E1|E1].
    { replace (j + i <? d) with true by lia. split; [lia|]. unfold slot. split.
      - destruct (Nat.ltb_spec (d - 1) d); lia.
      - intros m' Hm'. destruct (Nat.ltb_spec m' d); [lia|].
        pose proof (Nat.mod_upper_bound m' d). lia. }
    replace (j + i <? d) with false by lia. apply A. lia.
Qed.

Definition unity_out (d : nat) (l : list F) : option (list F) :=
  let n := length l - 1 in
  if n <? d then None
  else if n <? 2 * d then Some (window (d + 1) n l)
  else Some (stale_window d n l).

Lemma nth_error_skipn {A} (l : list A) i j : nth_error (skipn i l) j = nth_error l (i + j).
Proof.
  revert l; induction i as [|i IH]; intros l; [reflexivity|].
  destruct l; [destruct j; reflexivity|]. apply IH.
Qed.

Lemma nth_error_firstn {A} (l : list A) i j :
  nth_error (firstn i l) j = if j <? i then nth_error l j else None.
Proof.
  revert l j; induction i as [|i IH]; intros l j; [destruct j; reflexivity|].
  destruct l; cbn [firstn].
  - destruct (j <? S i), j; reflexivity.
  - destruct j; [reflexivity|]. cbn [nth_error]. rewrite IH. reflexivity.
Qed.

Lemma nth_error_window {A} N n (l : list A) j : N <= n + 1 ->
  nth_error (window N n l) j = if j <? N then nth_error l (n + 1 - N + j) else None.
Proof.
  intros. unfold window. rewrite nth_error_firstn, nth_error_skipn. reflexivity.
Qed.

Lemma window_length {A} N n (l : list A) : N <= n + 1 -> n < length l ->
  length (window N n l) = N.
Proof. intros. unfold window. rewrite firstn_length, skipn_length. lia. Qed.

Lemma stale_nth d n (l : list F) j : 1 <= d -> 2 * d <= n -> n < length l -> j <= d ->
  nth_error (stale_window d n l) j = nth_error l (src d n j).
Proof.
  intros Hd H2 Hl Hj. pose proof (Nat.mod_upper_bound n d ltac:(lia)) as Hi.
  unfold stale_window, src. set (i := n mod d) in *.
  replace (n <? 2 * d) with false by lia.
  assert (L1 : length (firstn (d - 1 - i) (skipn (n - d + 1) l)) = d - 1 - i)
    by (rewrite firstn_length, skipn_length; lia).
  assert (L2 : length (firstn 1 (skipn (d - 1) l)) = 1)
    by (rewrite firstn_length, skipn_length; lia).
  destruct (Nat.ltb_spec j (d - 1 - i)).
  { rewrite nth_error_app1 by lia. rewrite nth_error_firstn, nth_error_skipn.
    replace (j <? d - 1 - i) with true by lia. f_equal. lia. }
  rewrite nth_error_app2 by lia. rewrite L1.
  destruct (Nat.eqb_spec j (d - 1 - i)).
  { rewrite nth_error_app1 by lia. rewrite nth_error_firstn, nth_error_skipn.
    replace (j - (d - 1 - i) <? 1) with true by lia. f_equal. lia. }
  rewrite nth_error_app2 by lia. rewrite L2, nth_error_window by lia.
  replace (_ <? i + 1) with true by lia. f_equal. lia.
Qed.

Lemma stale_length d n (l : list F) : 1 <= d -> 2 * d <= n -> n < length l ->
  length (stale_window d n l) = d + 1.
Proof.
  intros Hd H2 Hl. pose proof (Nat.mod_upper_bound n d ltac:(lia)) as Hi.
  unfold stale_window. rewrite !app_length, window_length by lia.
  rewrite !firstn_length, !skipn_length. lia.
Qed.

Lemma unity_step_ok d m l o x : 1 <= d -> uinv d l o ->
  exists o', unity_forward_step d m o x true = Ok (unity_out d (l ++ [x]), o')
             /\ uinv d (l ++ [x]) o'.
Proof.
  intros Hd Hinv.
  set (st := match obj_get o with None => unity_init d m x | Some s => s end).
  assert (Hst : length (o_buf st) = d + 1 /\ o_idx st = idx_of d (length l)
    /\ forall s k, written d (length l) s k -> nth_error (o_buf st) s = nth_error l k).
  { destruct l as [|y l].
    - cbn in Hinv. subst st. unfold obj_get. rewrite Hinv. cbn.
      rewrite repeat_length. repeat split; [|intros s k (Hk & _); lia].
      unfold idx_of. destruct (Nat.ltb_spec 0 d); lia.
    - cbn [uinv] in Hinv. destruct Hinv as (A & B & C).
      assert (st = o) as ->.
      { subst st. unfold obj_get. destruct (o_buf o); cbn in A; [lia|reflexivity]. }
      auto. }
  destruct Hst as (L & I & W). set (n := length l) in *.
  pose proof (slot_le d n Hd) as Hsl.
  unfold unity_forward_step. replace (Nat.eqb d 0) with false by lia.
  unfold unity_fstep. fold st. rewrite I, idx_slot by lia.
  rewrite setz_ok by lia. cbn [bind]. rewrite idx_next by lia. cbn [bind].
  rewrite Nat2Z.id. set (buf := set_nth (o_buf st) (slot d n) x).
  assert (Lb : length buf = d + 1) by (unfold buf; rewrite length_set_nth; lia).
  assert (W' : forall s k, written d (n + 1) s k ->
    nth_error buf s = nth_error (l ++ [x]) k).
  { intros s k (Hk & Hs & Hn). unfold buf. rewrite nth_error_set_nth by lia.
    destruct (Nat.eqb_spec (slot d n) s) as [E|E].
    - assert (k = n) as ->.
      { destruct (Nat.eq_dec k n); [assumption|]. exfalso. apply (Hn n); lia. }
      rewrite nth_error_app2 by lia. fold n. rewrite Nat.sub_diag. reflexivity.
    - assert (k <> n) by (intros ->; contradiction).
      rewrite nth_error_app1 by (fold n; lia). apply W.
      split; [lia|]. split; [assumption|]. intros m' Hm'. apply Hn. lia. }
  eexists. split.
  2:{ assert (uinv d (l ++ [x]) (Obj buf (idx_of d (n + 1)) (o_str st))) as U.
      { assert (Ln : length (l ++ [x]) = n + 1) by (rewrite app_length; reflexivity).
        unfold uinv. destruct (l ++ [x]) eqn:E; [destruct l; discriminate|].
        cbn [o_buf o_idx]. rewrite Ln. auto. }
      exact U. }
  cbn [obj_set]. unfold obj_set. f_equal. f_equal.
  unfold unity_out. rewrite app_length. cbn [length]. fold n.
  replace (n + 1 - 1) with n by lia.
  destruct (Nat.ltb_spec n d) as [H1|H1].
  { unfold idx_of. replace (n <? d) with true by lia.
    replace (Z.leb 0 _) with false by lia. reflexivity. }
  assert (Ix : idx_of d n = Z.of_nat (n mod d)).
  { unfold idx_of. replace (n <? d) with false by lia. reflexivity. }
  rewrite Ix. replace (Z.leb 0 _) with true by lia.
  assert (R : forall j, j <= d ->
    nth_error (roll_back (Z.of_nat (n mod d) + 1) buf x) j
    = nth_error (l ++ [x]) (src d n j)).
  { intros j Hj. unfold roll_back. rewrite nth_error_map_seq, Lb.
    replace (j <? d + 1) with true by lia.
    rewrite <- (W' ((j + n mod d + 1) mod (d + 1))) by (apply written_src; lia).
    replace (Z.of_nat (0 + j) + (Z.of_nat (n mod d) + 1))%Z
      with (Z.of_nat (j + n mod d + 1)) by lia.
    rewrite <- Nat2Z.inj_mod, Nat2Z.id. symmetry. apply nth_error_nth'.
    rewrite Lb. apply Nat.mod_upper_bound. lia. }
  assert (LR : length (roll_back (Z.of_nat (n mod d) + 1) buf x) = d + 1).
  { unfold roll_back. rewrite map_length, seq_length. exact Lb. }
  assert (Ll : length (l ++ [x]) = n + 1) by (rewrite app_length; reflexivity).
  destruct (Nat.ltb_spec n (2 * d)) as [H2|H2]; f_equal; apply nth_error_ext; intros j.
  - rewrite nth_error_window by lia. destruct (Nat.ltb_spec j (d + 1)).
    + rewrite R by lia. unfold src. replace (n <? 2 * d) with true by lia. f_equal. lia.
    + apply nth_error_None. lia.
  - destruct (Nat.le_gt_cases j d).
    + rewrite R, stale_nth by lia. reflexivity.
    + transitivity (@None F); [|symmetry]; apply nth_error_None;
        rewrite ?stale_length; lia.
Qed.


Lemma unity_feed_ok d m xs : 1 <= d -> forall l o, uinv d l o ->
  exists outs o', feeds (fun o x => unity_forward_step d m o x true) o xs = Ok (outs, o')
    /\ length outs = length xs
    /\ (forall n e, n < length xs -> nth n outs e = unity_out d (l ++ firstn (n + 1) xs)).
Proof.
  intros Hd. induction xs as [|x xs IH]; intros l o Ho.
  - exists [], o. cbn. repeat split; intros; lia.
  - destruct (unity_step_ok d m l o x Hd Ho) as (o1 & E & I1).
    destruct (IH _ _ I1) as (outs & o' & E2 & L & N).
    exists (unity_out d (l ++ [x]) :: outs), o'. cbn [feeds]. rewrite E. cbn [bind].
    rewrite E2. cbn [bind length]. repeat split; [lia|].
    intros [|n] e Hn; cbn [nth Nat.add firstn]; [reflexivity|].
    rewrite N by lia. rewrite <- app_assoc. reflexivity.
Qed.

Lemma window_firstn {A} N n (l : list A) : N <= n + 1 -> n < length l ->
  window N n (firstn (n + 1) l) = window N n l.
Proof.
  intros. apply nth_error_ext. intros j. rewrite !nth_error_window by lia.
  destruct (Nat.ltb_spec j N); [|reflexivity]. rewrite nth_error_firstn.
  destruct (Nat.ltb_spec (n + 1 - N + j) (n + 1)); [reflexivity|lia].
Qed.

Lemma stale_firstn d n (l : list F) : 1 <= d -> 2 * d <= n -> n < length l ->
  stale_window d n (firstn (n + 1) l) = stale_window d n l.
Proof.
  intros Hd H2 Hl. pose proof (Nat.mod_upper_bound n d ltac:(lia)) as Hi.
  assert (length (firstn (n + 1) l) = n + 1) by (rewrite firstn_length; lia).
  apply nth_error_ext. intros j. destruct (Nat.le_gt_cases j d).
  - rewrite !stale_nth by lia. rewrite nth_error_firstn.
    replace (src d n j <? n + 1) with true; [reflexivity|]. unfold src.
    destruct (n <? 2 * d), (Nat.ltb_spec j (d - 1 - n mod d)),
      (j =? d - 1 - n mod d); lia.
  - transitivity (@None F); [|symmetry]; apply nth_error_None;
      rewrite stale_length; lia.
Qed.

(** Every step of RetroactiveUnity, for streams of any length. *)
Lemma unity_stream d m xs : 1 <= d ->
  exists outs o', feeds (fun o x => unity_forward_step d m o x true) obj_init xs
                  = Ok (outs, o')
    /\ length outs = length xs
    /\ (forall n e, n < length xs ->
        nth n outs e =
        if n <? d then None
        else if n <? 2 * d then Some (window (d + 1) n xs)
        else Some (stale_window d n xs)).
Proof.
  intros Hd. destruct (unity_feed_ok d m xs Hd [] obj_init eq_refl)
    as (outs & o' & E & L & N).
  exists outs, o'. repeat split; auto. intros n e Hn. rewrite N by lia.
  cbn [app]. unfold unity_out. rewrite firstn_length.
  replace (Nat.min (n + 1) (length xs) - 1) with n by lia.
  destruct (Nat.ltb_spec n d); [reflexivity|].
  destruct (Nat.ltb_spec n (2 * d)).
  - rewrite window_firstn by lia. reflexivity.
  - rewrite stale_firstn by lia. reflexivity.
Qed.

(** From frame 2d on the answer is wrong whenever the frames are distinct. *)
Lemma stale_wrong d n (xs : list F) : 1 <= d -> 2 * d <= n -> n < length xs ->
  NoDup xs -> stale_window d n xs <> window (d + 1) n xs.
Proof.
  intros Hd H2 Hl Hnd E. pose proof (Nat.mod_upper_bound n d ltac:(lia)) as Hi.
  pose proof (stale_nth d n xs (d - 1 - n mod d) Hd H2 Hl ltac:(lia)) as E1.
  rewrite E, nth_error_window in E1 by lia.
  replace (d - 1 - n mod d <? d + 1) with true in E1 by lia.
  unfold src in E1. replace (n <? 2 * d) with false in E1 by lia.
  rewrite Nat.ltb_irrefl, Nat.eqb_refl in E1.
  apply NoDup_nth_error in E1; [|assumption|lia]. lia.
Qed.

End UnityProof.

Section LayerProof.
Context {K : Type} {NK : Num K} {NL : NumLaws K}.

Definition tok1 (x : vec K) : tok K := (x, x, x).

Lemma qs_self (xs : list (vec K)) : qs_of (map tok1 xs) = xs.
Proof. unfold qs_of. rewrite map_map. apply map_id. Qed.
Lemma ks_self (xs : list (vec K)) : ks_of (map tok1 xs) = xs.
Proof. unfold ks_of. rewrite map_map. apply map_id. Qed.
Lemma vs_self (xs : list (vec K)) : vs_of (map tok1 xs) = xs.
Proof. unfold vs_of. rewrite map_map. apply map_id. Qed.

Variable c : cfg K.
Variable g : vec K -> vec K.

Definition re_join (r a : option (list (vec K))) : option (list (vec K)) :=
  match r, a with
  | Some r, Some a => Some (map g (map2 fadd r a))
  | _, _ => None
  end.

Lemma re_layer_split xs : forall u o h rs u' os o' h',
  feeds (fun o x => unity_forward_step (c_N c - 1) Zeros o x true) u xs = Ok (rs, u') ->
  m_run c (re_sdpa c) o (map tok1 xs) h = Ok (os, o', h') ->
  feeds (re_layer_step c g) (LS u o h) xs = Ok (map2 re_join rs os, LS u' o' h').
Proof.
  induction xs as [|x xs IH]; intros u o h rs u' os o' h' E1 E2.
  - cbn in *. injection E1 as <- <-. injection E2 as <- <- <-. reflexivity.
  - cbn [feeds map m_run] in *. unfold re_layer_step at 1. cbn [l_res l_att l_cells].
    destruct (unity_forward_step _ _ u x true) as [[r u1]|] eqn:A; [|discriminate].
    cbn [bind] in *.
    destruct (feeds _ u1 xs) as [[rs1 u2]|] eqn:B; [|discriminate].
    cbn [bind] in *. injection E1 as <- <-.
    change (x, x, x) with (tok1 x).
    destruct (m_forward_step c (re_sdpa c) o (tok1 x) true h) as [[[a o1] h1]|] eqn:C;
      [|discriminate]. cbn [bind] in *.
    destruct (m_run c (re_sdpa c) o1 _ h1) as [[[as1 o2] h2]|] eqn:D; [|discriminate].
    cbn [bind] in *. injection E2 as <- <- <-.
    rewrite (IH _ _ _ _ _ _ _ _ B D). reflexivity.
Qed.

Lemma nth_map2 {A B C} (f : A -> B -> C) l m n a b d : n < length l -> n < length m ->
  nth n (map2 f l m) d = f (nth n l a) (nth n m b).
Proof.
  revert m n; induction l as [|x l IH]; intros [|y m] [|n]; cbn; intros; try lia; auto.
  apply IH; lia.
Qed.

Lemma re_layer_stream xs : supported c -> 2 <= c_N c ->
  exists outs s',
    feeds (re_layer_step c g) lstate_init xs = Ok (outs, s')
    /\ length outs = length xs
    /\ (forall n d, n < length xs ->
        nth n outs d =
        if n + 1 <? c_N c then None
        else if n <? 2 * (c_N c - 1)
             then Some (re_layer_forward c g (window (c_N c) n xs))
        else Some (map g (map2 fadd (stale_window (c_N c - 1) n xs)
                (mha_forward c (window (c_N c) n xs) (window (c_N c) n xs)
                   (window (c_N c) n xs))))).
Proof.
  intros Hs HN.
  destruct (unity_stream (F := vec K) (c_N c - 1) Zeros xs) as (rs & u' & E1 & L1 & N1);
    [lia|].
  destruct (re_step_forward c (map tok1 xs) [] Hs HN) as (os & o' & h' & E2 & L2 & N2).
  rewrite map_length in L2, N2. rewrite qs_self, ks_self, vs_self in N2.
  exists (map2 re_join rs os), (LS u' o' h'). split; [|split].
  - unfold lstate_init. apply re_layer_split; assumption.
  - rewrite map2_length; lia.
  - intros n d Hn. rewrite (nth_map2 _ _ _ _ None None) by lia.
    rewrite N1, N2 by lia. replace (c_N c - 1 + 1) with (c_N c) by lia.
    destruct (Nat.ltb_spec n (c_N c - 1)), (Nat.ltb_spec (n + 1) (c_N c)); try lia;
      [reflexivity|].
    destruct (n <? 2 * (c_N c - 1)); reflexivity.
Qed.

(** Single-output layer. *)
Section So.
Variable qi : Z.
Variable sof : bool.

Definition so_join (r : option (vec K)) (a : option (list (vec K))) : option (vec K) :=
  match r, a with
  | Some r, Some (a :: _) => Some (g (fadd r a))
  | _, _ => None
  end.

Definition res_step (u : obj (vec K)) (x : vec K) : res (option (vec K) * obj (vec K)) :=
  if sof then delay_forward_step (so_delay (c_N c) qi) Zeros ShNo u x true
  else Ok (Some x, u).

Lemma so_layer_split xs : forall u o h rs u' os o' h',
  feed res_step u xs = Ok (rs, u') ->
  m_run c (so_sdpa c qi) o (map tok1 xs) h = Ok (os, o', h') ->
  feeds (so_layer_step c g qi sof) (LS u o h) xs = Ok (map2 so_join rs os, LS u' o' h').
Proof.
  induction xs as [|x xs IH]; intros u o h rs u' os o' h' E1 E2.
  - cbn in *. injection E1 as <- <-. injection E2 as <- <- <-. reflexivity.
  - cbn [feeds feed map m_run] in *. unfold so_layer_step at 1. cbn [l_res l_att l_cells].
    fold (res_step u x).
    destruct (res_step u x) as [[r u1]|] eqn:A; [|discriminate].
    cbn [bind] in *.
    destruct (feed _ u1 xs) as [[rs1 u2]|] eqn:B; [|discriminate].
    cbn [bind] in *. injection E1 as <- <-.
    change (x, x, x) with (tok1 x).
    destruct (m_forward_step c (so_sdpa c qi) o (tok1 x) true h) as [[[a o1] h1]|] eqn:C;
      [|discriminate]. cbn [bind] in *.
    destruct (m_run c (so_sdpa c qi) o1 _ h1) as [[[as1 o2] h2]|] eqn:D; [|discriminate].
    cbn [bind] in *. injection E2 as <- <- <-.
    rewrite (IH _ _ _ _ _ _ _ _ B D). reflexivity.
Qed.

Lemma res_feed xs : exists u,
  feed res_step obj_init xs =
  Ok (map (fun n => if sof then if n <? so_delay (c_N c) qi then None
                                else nth_error xs (n - so_delay (c_N c) qi)
                    else nth_error xs n) (seq 0 (length xs)), u).
Proof.
  unfold res_step. destruct sof.
  - apply delay_fifo_thm. discriminate.
  - exists obj_init. revert xs.
    assert (G : forall (xs : list (vec K)) (u : obj (vec K)),
      feed (fun (u : obj (vec K)) x => Ok (Some x, u)) u xs = Ok (map Some xs, u)).
    { induction xs as [|x xs IH]; intros u; [reflexivity|].
      cbn [feed bind map]. rewrite IH. reflexivity. }
    intros xs. rewrite G. do 2 f_equal.
    apply nth_error_ext. intros j. rewrite nth_error_map_seq.
    destruct (Nat.ltb_spec j (length xs)).
    + cbn [Nat.add]. destruct (nth_error xs j) eqn:E.
      * apply map_nth_error. exact E.
      * apply nth_error_None in E. lia.
    + apply nth_error_None. rewrite map_length. lia.
Qed.

(** The token the residual adds to the attention at step [n]. *)
Definition residual_at (n : nat) : nat := if sof then n - so_delay (c_N c) qi else n.

Lemma so_layer_stream xs : supported c -> 0 < c_N c ->
  (- Z.of_nat (c_N c) <= qi < Z.of_nat (c_N c))%Z ->
  exists outs s',
    feeds (so_layer_step c g qi sof) lstate_init xs = Ok (outs, s')
    /\ length outs = length xs
    /\ (forall n d, n < length xs ->
        nth n outs d =
        if n + 1 <? c_N c then None
        else Some (g (fadd (nth (residual_at n) xs [])
               (attn1 c (nth (n - so_delay (c_N c) qi) xs [])
                  (window (c_N c) n xs) (window (c_N c) n xs))))).
Proof.
  intros Hs HN Hq. destruct (res_feed xs) as (u' & E1).
  destruct (so_stream1 c qi (map tok1 xs) [] Hs HN Hq) as (os & o' & h' & E2 & L2 & N2).
  rewrite map_length in L2, N2. rewrite qs_self, ks_self, vs_self in N2.
  eexists _, (LS u' o' h'). split; [|split].
  - unfold lstate_init. apply so_layer_split; [exact E1|exact E2].
  - rewrite map2_length by (rewrite map_length, seq_length; lia).
    rewrite map_length, seq_length. reflexivity.
  - intros n d Hn. rewrite (nth_map2 _ _ _ _ None None)
      by (rewrite ?map_length, ?seq_length; lia).
    specialize (N2 n None Hn). pose proof (so_delay_lt _ _ HN Hq) as Hd.
    destruct (Nat.ltb_spec (n + 1) (c_N c)) as [H1|H1].
    { rewrite N2. unfold so_join. destruct (nth n (map _ _) None); reflexivity. }
    destruct N2 as (q & Eq & ->).
    rewrite (py_index_window (c_N c) qi n xs []) in Eq by lia. injection Eq as <-.
    erewrite nth_error_nth; [|rewrite nth_error_map_seq].
    2:{ replace (n <? length xs) with true by lia. reflexivity. }
    cbn [Nat.add]. unfold residual_at.
    destruct sof.
    + replace (n <? so_delay (c_N c) qi) with false by lia.
      rewrite (nth_error_nth' xs []) by lia. reflexivity.
    + rewrite (nth_error_nth' xs []) by lia. reflexivity.
Qed.

End So.

Lemma so_delay_neg1 N : so_delay N (-1) = 0.
Proof. reflexivity. Qed.

(** forward of a single-output layer on a window. *)
Lemma so_layer_window_true qi n xs : supported c -> 0 < c_N c ->
  (- Z.of_nat (c_N c) <= qi < Z.of_nat (c_N c))%Z -> n < length xs -> c_N c <= n + 1 ->
  so_layer_forward c g qi true (window (c_N c) n xs)
  = Ok [g (fadd (nth (n - so_delay (c_N c) qi) xs [])
             (attn1 c (nth (n - so_delay (c_N c) qi) xs [])
                (window (c_N c) n xs) (window (c_N c) n xs)))].
Proof.
  intros Hs HN Hq Hn HNn. pose proof (so_delay_lt _ _ HN Hq) as Hd.
  unfold so_layer_forward, select_forward, so_forward.
  rewrite (py_index_window (c_N c) qi n xs []) by lia.
  assert (E : py_index (window (c_N c) n xs) (-1 - Z.of_nat (so_delay (c_N c) qi))
              = Ok (nth (n - so_delay (c_N c) qi) xs [])).
  { rewrite (py_index_window (c_N c) _ n xs []) by lia.
    replace (so_delay (c_N c) (-1 - Z.of_nat (so_delay (c_N c) qi)))
      with (so_delay (c_N c) qi); [reflexivity|].
    unfold so_delay at 2. replace (Z.leb 0 _) with false by lia. lia. }
  rewrite E. cbn [bind]. rewrite mha_forward_attn1 by assumption. reflexivity.
Qed.

Lemma sum_last_pairs_same {F} {FA : Frames F} (a b : list F) : length a = length b ->
  sum_last_pairs a b = map2 fadd a b.
Proof.
  intros E. unfold sum_last_pairs. rewrite E, Nat.min_id, Nat.sub_diag. reflexivity.
Qed.

Lemma so_layer_window_false qi n xs : supported c -> 0 < c_N c ->
  n < length xs -> c_N c <= n + 1 -> exists ys,
  so_layer_forward c g qi false (window (c_N c) n xs) = Ok ys
  /\ length ys = c_N c
  /\ forall i d, i < c_N c ->
     nth i ys d = g (fadd (nth (n + 1 - c_N c + i) xs [])
                      (attn1 c (nth (n + 1 - c_N c + i) xs [])
                         (window (c_N c) n xs) (window (c_N c) n xs))).
Proof.
  intros Hs HN Hn HNn. unfold so_layer_forward, so_forward. cbn [bind].
  rewrite mha_forward_attn1 by assumption.
  pose proof (window_length (c_N c) n xs HNn Hn) as LW.
  eexists. split; [reflexivity|]. split.
  - rewrite map_length, sum_last_pairs_same by (rewrite map_length; reflexivity).
    rewrite map2_length; rewrite ?map_length; lia.
  - intros i d Hi. rewrite sum_last_pairs_same by (rewrite map_length; reflexivity).
    rewrite (nth_indep _ d (g [])) by
      (rewrite map_length, map2_length; rewrite ?map_length; lia).
    rewrite map_nth. f_equal.
    rewrite (nth_map2 _ _ _ _ [] []) by (rewrite ?map_length; lia).
    assert (E : nth i (window (c_N c) n xs) [] = nth (n + 1 - c_N c + i) xs []).
    { assert (E : nth_error (window (c_N c) n xs) i
                  = nth_error xs (n + 1 - c_N c + i)).
      { rewrite nth_error_window by lia. replace (i <? c_N c) with true by lia. reflexivity. }
      rewrite (nth_error_nth' _ []) in E by lia.
      rewrite (nth_error_nth' _ []) in E by lia. injection E as ->. reflexivity. }
    rewrite E. f_equal.
    rewrite (nth_indep _ [] (attn1 c [] (window (c_N c) n xs) (window (c_N c) n xs)))
      by (rewrite map_length; lia).
    rewrite (map_nth (fun q => attn1 c q (window (c_N c) n xs) (window (c_N c) n xs))).
    rewrite E. reflexivity.
Qed.

End LayerProof.
