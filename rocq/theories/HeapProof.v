(** The heap model refines the value model. *)
From Coq Require Import List ZArith Bool Arith Lia.
From Verif Require Import Base Frames CoMod Leaf Rnn Net Calls Heap HeapSpec.
Import ListNotations.

(* ------------------------------------------------------------------ *)
(** ** Lists *)

Lemma set_nth_length {A} (l : list A) i a : length (set_nth l i a) = length l.
Proof. revert i; induction l; intros [|i]; simpl; auto. Qed.

Lemma set_nth_same {A} (l : list A) i a : i < length l -> nth_error (set_nth l i a) i = Some a.
Proof. revert i; induction l; intros [|i] H; simpl in *; try lia; auto. apply IHl. lia. Qed.

Lemma set_nth_other {A} (l : list A) i j a : i <> j -> nth_error (set_nth l i a) j = nth_error l j.
Proof. revert i j; induction l; intros [|i] [|j] H; simpl; auto; try congruence. Qed.

Lemma nth_error_lt {A} (l : list A) i a : nth_error l i = Some a -> i < length l.
Proof. intros H. apply nth_error_Some. congruence. Qed.

Lemma nth_error_app_old {A} (l l' : list A) i a :
  nth_error l i = Some a -> nth_error (l ++ l') i = Some a.
Proof. intros H. rewrite nth_error_app1; auto. eapply nth_error_lt; eauto. Qed.

Lemma nth_error_app_new {A} (l : list A) a : nth_error (l ++ [a]) (length l) = Some a.
Proof. rewrite nth_error_app2 by lia. rewrite Nat.sub_diag. reflexivity. Qed.

(* ------------------------------------------------------------------ *)
(** ** Tensors *)

Definition empty_cell {F} (c : cell F) : Prop :=
  match c with TFrames l => l = [] | TRows l => l = [] end.

(** From [h] to [h'], only tensors in [T] changed, and no empty one. *)
Definition touch {F} (T : nat -> Prop) (h h' : heap F) : Prop :=
  length h <= length h' /\
  forall r c, nth_error h r = Some c -> ~ T r \/ empty_cell c -> nth_error h' r = Some c.

Definition none : nat -> Prop := fun _ => False.
Definition only (r : nat) : nat -> Prop := fun r' => r' = r.

Section Touch.
Context {F : Type}.
Implicit Types h : heap F.

Lemma touch_refl T h : touch T h h.
Proof. split; auto. Qed.

Lemma touch_weak (T T' : nat -> Prop) h h' :
  (forall r, T r -> T' r) -> touch T h h' -> touch T' h h'.
Proof. intros HT [H1 H2]. split; auto. intros r c E [N|N]; apply H2; auto. Qed.

(** Composition; the second step may touch anything new. *)
Lemma touch_trans (T T' : nat -> Prop) h h1 h2 :
  touch T h h1 -> touch T' h1 h2 -> (forall r, r < length h -> T' r -> T r) -> touch T h h2.
Proof.
  intros [L1 H1] [L2 H2] HT. split; [lia|].
  intros r c E N. apply H2; [apply H1; auto|].
  destruct N as [N|N]; auto. left. intros HT'. apply N, HT; auto.
  eapply nth_error_lt; eauto.
Qed.

Lemma touch_pres h h' : touch none h h' <-> (length h <= length h' /\ preserved h h').
Proof.
  split.
  - intros [L H]; split; auto. intros r c E. apply H; auto.
  - intros [L H]; split; auto.
Qed.

Lemma touch_none_any T h h' : touch none h h' -> touch T h h'.
Proof. apply touch_weak. unfold none; tauto. Qed.

End Touch.

#[export] Hint Resolve touch_refl : core.

(** Split syntactic conjunctions only. *)
Ltac conjs := repeat match goal with |- _ /\ _ => split end.

Class BufOk F B {BF : Buf F B} := {
  unwrap_wrap : forall l, unwrap (wrap l) = Some l;
  wrap_unwrap : forall c l, unwrap c = Some l -> c = wrap l;
  empty_wrap : forall l, empty_cell (wrap l) <-> l = []
}.
#[global] Instance BufOkFrames F : BufOk F F.
Proof. split; simpl; [auto| |tauto]. intros [l|l] l' E; simpl in *; congruence. Qed.
#[global] Instance BufOkRows F : BufOk F (list F).
Proof. split; simpl; [auto| |tauto]. intros [l|l] l' E; simpl in *; congruence. Qed.

Section Leaves.
Context {F B : Type} {BF : Buf F B} {BO : BufOk F B}.
Implicit Types h : heap F.

Lemma hread_ok h r (l : list B) : hread h r = Ok l <-> nth_error h r = Some (wrap l).
Proof.
  unfold hread. split.
  - destruct (nth_error h r) as [c|]; [|congruence].
    destruct (unwrap c) eqn:E; [|congruence]. intros H; inversion H; subst.
    f_equal. apply wrap_unwrap; auto.
  - intros ->. rewrite unwrap_wrap. reflexivity.
Qed.

Definition valid h (s : hobj) : Prop := exists l : list B, nth_error h (h_ref s) = Some (wrap l).
Definition ovalid h (s : option hobj) : Prop := match s with Some t => valid h t | None => True end.
Definition oobj h (s : option hobj) : option (obj B) := option_map (obj_of h) s.

Lemma valid_read h s : valid h s -> hread h (h_ref s) = Ok (buf_of (B := B) h (h_ref s)).
Proof. intros [l E]. unfold buf_of. apply hread_ok in E. rewrite E. reflexivity. Qed.

Lemma valid_nth h s : valid h s -> nth_error h (h_ref s) = Some (wrap (buf_of (B := B) h (h_ref s))).
Proof. intros V. apply hread_ok, valid_read, V. Qed.

Lemma valid_lt h s : valid h s -> h_ref s < length h.
Proof. intros [l E]. eapply nth_error_lt; eauto. Qed.

(** An untouched state reads the same. *)
Lemma touch_obj T h h' s : touch T h h' -> valid h s -> ~ T (h_ref s) ->
  valid h' s /\ obj_of (B := B) h' s = obj_of h s.
Proof.
  intros [_ H] [l E] N. pose proof (H _ _ E (or_introl N)) as E'.
  split; [exists l; auto|]. unfold obj_of, buf_of.
  apply hread_ok in E. apply hread_ok in E'. rewrite E, E'. reflexivity.
Qed.

Lemma touch_empty T h h' s : touch T h h' -> valid h s -> buf_of (B := B) h (h_ref s) = [] ->
  valid h' s /\ obj_of (B := B) h' s = obj_of h s.
Proof.
  intros [_ H] V E0. pose proof (valid_nth _ _ V) as E. rewrite E0 in E.
  assert (E' : nth_error h' (h_ref s) = Some (wrap [])).
  { apply H; auto. right. apply empty_wrap. reflexivity. }
  split; [exists []; auto|]. unfold obj_of, buf_of.
  apply hread_ok in E. apply hread_ok in E'. rewrite E, E'. reflexivity.
Qed.

Lemma halloc_touch h (l : list B) : touch none h (snd (halloc h l)).
Proof.
  split; simpl. rewrite app_length; simpl; lia.
  intros. apply nth_error_app_old; auto.
Qed.

Lemma halloc_read h (l : list B) r h' : halloc h l = (r, h') ->
  r = length h /\ nth_error h' r = Some (wrap l) /\ touch none h h' /\ length h < length h'.
Proof.
  intros E. unfold halloc in E. inversion E; subst. conjs; auto.
  - apply nth_error_app_new.
  - exact (halloc_touch h l).
  - rewrite app_length; simpl; lia.
Qed.

Lemma buf_of_nth h r (l : list B) : nth_error h r = Some (wrap l) -> buf_of h r = l.
Proof. intros E. unfold buf_of. apply hread_ok in E. rewrite E. reflexivity. Qed.

Lemma hobj_new_ok h (s : obj B) t h' : hobj_new s h = (t, h') ->
  h_ref t = length h /\ valid h' t /\ obj_of h' t = s /\ touch none h h' /\ length h < length h'.
Proof.
  unfold hobj_new. destruct (halloc h (o_buf s)) as [r h1] eqn:E. intros H; inversion H; subst.
  apply halloc_read in E. destruct E as [-> [E [T L]]]. simpl. conjs; auto; try exact T.
  - exists (o_buf s). exact E.
  - unfold obj_of; simpl. rewrite (buf_of_nth _ _ _ E). destruct s; reflexivity.
Qed.

Lemma hwrite_ok h s i (x : B) : valid h s ->
  match setz (buf_of h (h_ref s)) i x, hwrite h (h_ref s) i x with
  | Ok l, Ok h' => nth_error h' (h_ref s) = Some (wrap l) /\ touch (only (h_ref s)) h h' /\
                   length h' = length h
  | Err e, Err e' => e = e'
  | _, _ => False
  end.
Proof.
  intros V. unfold hwrite. rewrite (valid_read _ _ V). simpl.
  destruct (setz _ i x) as [l|e] eqn:E; simpl; auto.
  pose proof (valid_lt _ _ V) as L. pose proof (valid_nth _ _ V) as N.
  conjs.
  - apply set_nth_same; auto.
  - split; [rewrite set_nth_length; lia|]. intros r c Er [Nr|Em].
    + rewrite set_nth_other; auto; unfold only in Nr; congruence.
    + destruct (Nat.eq_dec r (h_ref s)) as [->|D].
      * exfalso. rewrite N in Er. inversion Er; subst.
        apply empty_wrap in Em. rewrite Em in E. unfold setz in E. simpl in E.
        destruct (Z.ltb i 0); [discriminate|]. destruct (Nat.ltb_spec (Z.to_nat i) 0); [lia|discriminate].
      * rewrite set_nth_other; auto.
  - apply set_nth_length.
Qed.

Lemma hclone_ok h s : valid h s ->
  exists r h', hclone (B := B) h (h_ref s) = Ok (r, h') /\ r = length h /\
    nth_error h' r = Some (wrap (buf_of (B := B) h (h_ref s))) /\ touch none h h' /\ length h < length h'.
Proof.
  intros V. unfold hclone. rewrite (valid_read _ _ V). simpl.
  exists (length h), (h ++ [wrap (buf_of (B := B) h (h_ref s))]). split; [reflexivity|].
  apply halloc_read. reflexivity.
Qed.

Lemma clone_first_ok h s : valid h s ->
  exists t h', clone_first (B := B) s h = Ok (t, h') /\ h_ref t = length h /\ valid h' t /\
    obj_of (B := B) h' t = obj_of h s /\ touch none h h' /\ length h < length h'.
Proof.
  intros V. destruct (hclone_ok _ _ V) as [r [h' [E [-> [N [T L]]]]]].
  unfold clone_first. rewrite E. simpl.
  exists (HObj (length h) (h_idx s) (h_str s)), h'. simpl. conjs; auto; try exact T.
  - exists (buf_of h (h_ref s)). exact N.
  - unfold obj_of; simpl. rewrite (buf_of_nth _ _ _ N). reflexivity.
Qed.

(* ------------------------------------------------------------------ *)
(** ** The contract of [_forward_step] on the heap *)

(** [s'] is either in the tensor of [s] or in one that did not exist in [h]. *)
Definition from h (s s' : option hobj) : Prop :=
  match s' with
  | None => s = None
  | Some t' => (exists t, s = Some t /\ h_ref t' = h_ref t) \/ length h <= h_ref t'
  end.

Lemma from_refl h s : from h s s.
Proof. destruct s; simpl; eauto. Qed.

Lemma from_trans h h1 s s1 s2 : length h <= length h1 -> from h s s1 -> from h1 s1 s2 -> from h s s2.
Proof.
  unfold from. intros L H1 H2. destruct s2 as [t2|].
  - destruct H2 as [[t [-> Et]]|H2]; [|right; lia].
    destruct H1 as [[t0 [-> E0]]|H1]; [left; exists t0; split; congruence|right; lia].
  - subst s1. auto.
Qed.

Definition may (ip : bool) (s : option hobj) : nat -> Prop :=
  fun r => ip = true /\ match s with Some t => r = h_ref t | None => False end.

Definition refines (ip : bool) (h : heap F) (s : option hobj)
    {A} (rv : res (A * option (obj B))) (r : res (A * option hobj * heap F)) : Prop :=
  match rv, r with
  | Err e, Err e' => e = e'
  | Ok (y, sv), Ok (y', s', h') =>
      y = y' /\ ovalid h' s' /\ oobj h' s' = sv /\ from h s s' /\ touch (may ip s) h h'
  | _, _ => False
  end.

(** [ip]: whether the buffer passed in may be written. *)
Definition step_ok (ip : bool)
    (vf : F -> option (obj B) -> res (option F * option (obj B)))
    (hf : F -> option hobj -> heap F -> res (option F * option hobj * heap F)) : Prop :=
  forall x s h, ovalid h s -> refines ip h s (vf x (oobj h s)) (hf x s h).

Variable ip : bool.
Variable vf : F -> option (obj B) -> res (option F * option (obj B)).
Variable hf : F -> option hobj -> heap F -> res (option F * option hobj * heap F).
Hypothesis SOK : step_ok ip vf hf.

Lemma loop_ok xs : forall s h, ovalid h s ->
  refines ip h s (co_loop vf xs (oobj h s)) (hco_loop hf xs s h).
Proof.
  induction xs as [|x t IH]; intros s h V; simpl.
  - conjs; auto using from_refl, touch_refl.
  - pose proof (SOK x s h V) as H. unfold refines in H.
    destruct (vf x (oobj h s)) as [[y sv]|e]; destruct (hf x s h) as [[[y' s'] h']|e'];
      simpl; try tauto.
    destruct H as [-> [V' [E [Fr T]]]]. rewrite <- E.
    specialize (IH s' h' V'). unfold refines in IH.
    destruct (co_loop vf t (oobj h' s')) as [[ys sv2]|e]; destruct (hco_loop hf t s' h') as [[[ys' s2] h2]|e'];
      simpl; try tauto.
    destruct IH as [-> [V2 [E2 [Fr2 T2]]]]. conjs; auto.
    + eapply from_trans; [apply T|exact Fr|exact Fr2].
    + eapply touch_trans; eauto.
      intros r L [Hip Hr]. split; auto. destruct s' as [t'|]; [|tauto].
      destruct Fr as [[t0 [-> Et]]|Fr]; subst; auto. lia.
Qed.

(* ------------------------------------------------------------------ *)
(** ** [forward_step] and [forward_steps] *)

(** What a method of a module with attributes [o] does. *)
Definition method_ok (h : heap F) (o : hobj) (upd : bool)
    {A} (rv : res (A * obj B)) (r : res (A * hobj * heap F)) : Prop :=
  match rv, r with
  | Err e, Err e' => e = e'
  | Ok (y, ov), Ok (y', o', h') =>
      y = y' /\ valid h' o' /\ obj_of h' o' = ov /\
      (h_ref o' = h_ref o \/ length h <= h_ref o') /\
      touch (fun r => upd = true /\ ip = true /\ r = h_ref o) h h' /\
      (upd = false -> o' = o)
  | _, _ => False
  end.

Lemma hobj_get_ok h o : valid h o ->
  exists s, hobj_get (B := B) o h = Ok s /\ oobj h s = obj_get (obj_of h o) /\
    ((s = Some o /\ buf_of (B := B) h (h_ref o) <> []) \/ (s = None /\ buf_of (B := B) h (h_ref o) = [])).
Proof.
  intros V. unfold hobj_get. rewrite (valid_read _ _ V). simpl.
  unfold obj_get, obj_of. simpl. destruct (buf_of h (h_ref o)) as [|b l] eqn:E; simpl.
  - exists None. auto.
  - exists (Some o). split; auto. split; [|left; split; congruence].
    simpl. unfold obj_of. rewrite E. reflexivity.
Qed.

(** The state a method starts from. *)
Lemma start_ok h o (upd : bool) : valid h o ->
  exists s, hobj_get (B := B) o h = Ok s /\ exists s1 h1,
    (if (upd : bool) then Ok (s, h) else clone_opt (B := B) s h) = Ok (s1, h1) /\
    ovalid h1 s1 /\ oobj h1 s1 = obj_get (obj_of h o) /\
    touch none h h1 /\
    match s1 with
    | Some t => (upd = true /\ t = o) \/ (upd = false /\ length h <= h_ref t)
    | None => h1 = h /\ buf_of (B := B) h (h_ref o) = []
    end.
Proof.
  intros V. destruct (hobj_get_ok _ _ V) as [s [Eg [Eo D]]].
  exists s. split; auto. destruct upd.
  - exists s, h. conjs; auto.
    + destruct D as [[-> _]|[-> _]]; simpl; auto.
    + destruct D as [[-> _]|[-> Z]]; auto.
  - destruct D as [[-> N]|[-> Z]].
    + destruct (clone_first_ok _ _ V) as [t [h' [E [R [V' [O [T L]]]]]]].
      exists (Some t), h'. unfold clone_opt. rewrite E. simpl. conjs; auto; try exact T.
      * rewrite <- Eo. simpl. rewrite O. reflexivity.
      * right. split; auto. lia.
    + exists None, h. simpl. conjs; auto.
Qed.

Lemma forward_step_ok h o x upd : valid h o ->
  method_ok h o upd (co_forward_step obj_get obj_set vf (obj_of h o) x upd)
                    (hco_forward_step (B := B) hf o x upd h).
Proof.
  intros V. unfold co_forward_step, hco_forward_step.
  destruct (start_ok h o upd V) as [s [-> [s1 [h1 [E1 [V1 [O1 [T1 D1]]]]]]]]. simpl.
  rewrite E1. simpl. rewrite <- O1.
  pose proof (SOK x s1 h1 V1) as H. unfold refines in H.
  destruct (vf x (oobj h1 s1)) as [[y sv]|e]; destruct (hf x s1 h1) as [[[y' s2] h2]|e'];
    simpl; try tauto.
  destruct H as [-> [V2 [E2 [Fr T2]]]].
  assert (T : touch (fun r => upd = true /\ ip = true /\ r = h_ref o) h h2).
  { eapply touch_trans; [apply touch_none_any; exact T1|exact T2|].
    intros r L [Hi Hr]. destruct s1 as [t|]; [|tauto]. subst r.
    destruct D1 as [[-> ->]|[_ D]]; auto. lia. }
  assert (Keep : upd = false \/ s2 = None -> valid h2 o /\ obj_of (B := B) h2 o = obj_of h o).
  { intros [->| ->].
    - eapply touch_obj; eauto. intros [K _]; discriminate.
    - simpl in Fr. subst s1. destruct D1 as [-> Z]. eapply touch_empty; eauto. }
  destruct s2 as [t2|]; simpl in E2; subst sv.
  - destruct upd.
    + conjs; auto; try exact T; try discriminate. 
      simpl in Fr. destruct Fr as [[t [-> Et]]|Fr].
      * destruct D1 as [[_ ->]|[D _]]; [left; auto|discriminate].
      * right. destruct T1. unfold obj_set, hobj_set. lia.
    + destruct Keep as [K1 K2]; auto. conjs; auto; exact T.
  - destruct Keep as [K1 K2]; auto. conjs; auto; exact T.
Qed.

Lemma forward_steps_ok mkpad pad h o xs pe upd : valid h o ->
  method_ok h o upd (co_forward_steps obj_get obj_set vf mkpad pad (obj_of h o) xs pe upd)
                    (hco_forward_steps (B := B) hf mkpad pad o xs pe upd h).
Proof.
  intros V. unfold co_forward_steps, hco_forward_steps.
  destruct (start_ok h o upd V) as [s [-> [s0 [h0 [E0 [V0 [O0 [T0 D0]]]]]]]]. simpl.
  rewrite E0. simpl. rewrite <- O0.
  pose proof (loop_ok xs s0 h0 V0) as H. unfold refines in H.
  destruct (co_loop vf xs (oobj h0 s0)) as [[ys sv]|e];
    destruct (hco_loop hf xs s0 h0) as [[[ys' s1] h1]|e']; simpl; try tauto.
  destruct H as [-> [V1 [E1 [Fr T1]]]].
  assert (T : touch (fun r => upd = true /\ ip = true /\ r = h_ref o) h h1).
  { eapply touch_trans; [apply touch_none_any; exact T0|exact T1|].
    intros r L [Hi Hr]. destruct s0 as [t|]; [|tauto]. subst r.
    destruct D0 as [[-> ->]|[_ D]]; auto. lia. }
  set (o1 := match s1 with Some t => if upd then hobj_set o t else o | None => o end).
  set (ov1 := match sv with Some s => if upd then obj_set (obj_of h o) s else obj_of h o
              | None => obj_of h o end).
  assert (K : valid h1 o1 /\ obj_of h1 o1 = ov1 /\
              (h_ref o1 = h_ref o \/ length h <= h_ref o1) /\ (upd = false -> o1 = o) /\
              (forall t, s1 = Some t -> upd = true -> o1 = t)).
  { assert (Keep : upd = false \/ s1 = None -> valid h1 o /\ obj_of (B := B) h1 o = obj_of h o).
    { intros [->|N].
      - eapply touch_obj; eauto. intros [K _]; discriminate.
      - rewrite N in Fr. simpl in Fr. subst s0. destruct D0 as [-> Z]. eapply touch_empty; eauto. }
    destruct s1 as [t2|]; simpl in E1; subst sv; unfold o1, ov1.
    - destruct upd.
      + conjs; auto; try discriminate.
        * simpl in Fr. destruct Fr as [[t [-> Et]]|Fr].
          -- destruct D0 as [[_ ->]|[D _]]; [left; auto|discriminate].
          -- right. destruct T0. unfold obj_set, hobj_set. lia.
        * intros t Et _. inversion Et; reflexivity.
      + destruct Keep as [K1 K2]; auto. conjs; auto. discriminate.
    - destruct Keep as [K1 K2]; auto. conjs; auto. discriminate. }
  destruct K as [Vo1 [Oo1 [Ro1 [Uo1 So1]]]].
  assert (Fin : forall h2, touch none h1 h2 \/ (buf_of (B := B) h1 (h_ref o1) = [] /\ touch (may ip s1) h1 h2) ->
    forall ys2, method_ok h o upd (Ok (stack_outs (ys' ++ ys2), ov1)) (Ok (stack_outs (ys' ++ ys2), o1, h2))).
  { intros h2 H ys2. unfold method_ok.
    assert (valid h2 o1 /\ obj_of (B := B) h2 o1 = obj_of h1 o1) as [A1 A2].
    { destruct H as [H|[Z H]].
      - eapply touch_obj; eauto.
      - eapply touch_empty; eauto. }
    assert (touch (fun r => upd = true /\ ip = true /\ r = h_ref o) h h2).
    { destruct H as [H|[Z H]].
      - eapply touch_trans; [exact T|exact H|unfold none; tauto].
      - eapply touch_trans; [exact T|exact H|].
        intros r L [Hi Hr]. destruct s1 as [t|]; [|tauto]. subst r.
        simpl in Fr. destruct Fr as [[t0 [-> Et]]|Fr].
        + destruct D0 as [[-> ->]|[_ D]]; auto. lia.
        + destruct T0. lia. }
    split; [reflexivity|]. split; auto. split; [congruence|]. split; auto. }
  destruct pe; simpl.
  - destruct (hobj_get_ok _ _ Vo1) as [s3 [-> [O3 D3]]]. simpl.
    destruct D3 as [[-> N3]|[-> Z3]].
    + destruct (clone_first_ok _ _ Vo1) as [t [h2 [Ec [R [Vt [Ot [Tt Lt]]]]]]].
      unfold clone_opt. rewrite Ec. simpl.
      replace (match obj_get ov1 with Some s => Some s | None => sv end) with (oobj h2 (Some t)).
      2:{ rewrite <- Oo1. rewrite <- O3. simpl. rewrite Ot. reflexivity. }
      destruct (end_frames mkpad pad xs) as [fs|e]; simpl; auto.
      pose proof (loop_ok fs (Some t) h2 Vt) as H. unfold refines in H.
      change (Some (obj_of h2 t)) with (oobj h2 (Some t)).
      destruct (co_loop vf fs (oobj h2 (Some t))) as [[zs sv2]|e];
        destruct (hco_loop hf fs (Some t) h2) as [[[zs' s4] h3]|e']; simpl; try tauto.
      destruct H as [-> [V4 [E4 [Fr4 T4]]]]. apply Fin. left.
      eapply touch_trans; [exact Tt|exact T4|]. intros r L [Hi Hr]. subst r. lia.
    + replace (match obj_get ov1 with Some s => Some s | None => sv end) with (oobj h1 s1).
      2:{ rewrite <- Oo1. rewrite <- O3. simpl. exact E1. }
      simpl. destruct (end_frames mkpad pad xs) as [fs|e]; simpl; auto.
      pose proof (loop_ok fs s1 h1 V1) as H. unfold refines in H.
      destruct (co_loop vf fs (oobj h1 s1)) as [[zs sv2]|e];
        destruct (hco_loop hf fs s1 h1) as [[[zs' s4] h3]|e']; simpl; try tauto.
      destruct H as [-> [V4 [E4 [Fr4 T4]]]]. apply Fin. right. auto.
  - apply Fin. left. apply touch_refl.
Qed.

End Leaves.

(* ------------------------------------------------------------------ *)
(** ** The three stateful modules *)

Section Steps.
Context {F : Type} {FA : Frames F} {FL : FrameLaws F}.

(** The state a leaf works on: the one passed in or a new one. *)
Lemma enter_ok {B} {BF : Buf F B} {BO : BufOk F B} (s : option hobj) (h : heap F) (init : obj B) st h1 :
  ovalid (B := B) h s ->
  match s with None => hobj_new init h | Some s => (s, h) end = (st, h1) ->
  valid (B := B) h1 st /\ obj_of (B := B) h1 st = match oobj h s with None => init | Some v => v end /\
  touch none h h1 /\ match s with Some t => t = st | None => h_ref st = length h end.
Proof.
  intros V E. destruct s as [t|].
  - inversion E; subst. simpl. conjs; auto.
  - apply hobj_new_ok in E. simpl. tauto.
Qed.

Lemma delay_step_ok d m sh : step_ok (B := F) true (delay_fstep d m sh) (hdelay_fstep d m sh).
Proof.
  intros x s h V. unfold delay_fstep, hdelay_fstep.
  destruct (Nat.eqb d 0).
  { simpl. conjs; auto using from_refl, touch_refl. }
  destruct (match s with None => hobj_new (delay_init d m sh x) h | Some s => (s, h) end) as [st h1] eqn:E.
  apply enter_ok in E; auto. destruct E as [Vst [Ost [T1 D]]].
  cbv zeta. rewrite <- Ost. unfold obj_of. cbn [o_buf o_idx o_str].
  rewrite (valid_read _ _ Vst).
  set (out := if (0 <=? h_idx st)%Z
              then y <- getz (buf_of h1 (h_ref st)) (h_idx st);; Ok (Some y) else Ok None).
  replace (if (0 <=? h_idx st)%Z
           then buffer <- Ok (buf_of h1 (h_ref st));; y <- getz buffer (h_idx st);; Ok (Some y)
           else Ok None) with out.
  2:{ unfold out. destruct (0 <=? h_idx st)%Z; reflexivity. }
  destruct out as [y|e]; simpl; auto.
  pose proof (hwrite_ok h1 st (h_idx st mod Z.of_nat d)%Z x Vst) as W.
  destruct (setz _ _ x) as [l|e]; destruct (hwrite h1 _ _ x) as [h2|e']; simpl; try tauto.
  destruct W as [N [T2 L2]].
  assert (T : touch (may true s) h h2).
  { eapply touch_trans; [apply touch_none_any; exact T1|exact T2|].
    unfold only, may. intros r L ->. split; auto. destruct s; subst; auto. lia. }
  conjs; auto; try exact T.
  - exists l. exact N.
  - unfold oobj, option_map, obj_of. simpl. change (TFrames l) with (wrap (F := F) l) in N.
    rewrite (buf_of_nth _ _ _ N). reflexivity.
  - destruct s as [t|]; simpl; subst; eauto. right. lia.
Qed.

Lemma pool_step_ok c : step_ok (B := F) true (pool_fstep c) (hpool_fstep c).
Proof.
  intros x s h V. unfold pool_fstep, hpool_fstep. cbv zeta.
  destruct (match s with None => hobj_new (pool_init c (psp c x)) h | Some s => (s, h) end) as [st h1] eqn:E.
  apply enter_ok in E; auto. destruct E as [Vst [Ost [T1 D]]].
  rewrite <- Ost.
  unfold obj_of. cbn [o_buf o_idx o_str].
  pose proof (hwrite_ok h1 st (h_idx st) (psp c x) Vst) as W.
  destruct (setz _ _ (psp c x)) as [l|e]; destruct (hwrite h1 _ _ (psp c x)) as [h2|e']; simpl; try tauto.
  destruct W as [N [T2 L2]].
  assert (R : hread h2 (h_ref st) = Ok l) by (apply hread_ok; exact N). rewrite R.
  cbn [bind].
  destruct (if (h_str st =? Z.of_nat (ps c) - 1)%Z
    then sel <- (if pd c =? 1 then Ok l
           else mapM (fun i : nat => getz l ((Z.of_nat (i * pd c) + (h_idx st + 1) mod Z.of_nat (pk c)) mod
                   Z.of_nat (length l))%Z) (seq 0 (pk c)));; Ok (Some (pagg c sel)) else Ok None) as [y|e];
    simpl; auto.
  assert (T : touch (may true s) h h2).
  { eapply touch_trans; [apply touch_none_any; exact T1|exact T2|].
    unfold only, may. intros r L ->. split; auto. destruct s; subst; auto. lia. }
  conjs; auto; try exact T.
  - exists l. exact N.
  - unfold oobj, option_map, obj_of. simpl. change (TFrames l) with (wrap (F := F) l) in N.
    rewrite (buf_of_nth _ _ _ N). reflexivity.
  - destruct s as [t|]; simpl; subst; eauto. right. lia.
Qed.

Lemma conv_step_ok c tr : step_ok (B := list F) (negb tr) (conv_fstep c) (hconv_fstep c tr).
Proof.
  intros x s h V. unfold conv_fstep, hconv_fstep.
  destruct (conv_stateless c).
  { destruct (conv_forward c [x]) as [ys|e]; simpl; auto.
    destruct (getz ys 0) as [y|e]; simpl; auto. conjs; auto using from_refl, touch_refl. }
  destruct (pad_time Zeros (ck c - 1) [x]) as [xp|e]; simpl; auto.
  destruct (xcorr (cW c) None (ck c) 1 xp) as [xs|e]; simpl; auto.
  destruct (getz xs 0) as [x_out|e]; simpl; auto.
  set (x_rest := match xs with [] => [] | _ :: l => l end).
  destruct (match s with None => hobj_new (conv_init c x_rest) h | Some s => (s, h) end) as [st h1] eqn:E.
  apply enter_ok in E; auto. destruct E as [Vst [Ost [T1 D]]].
  cbv zeta. rewrite <- Ost. unfold obj_of. cbn [o_buf o_idx o_str].
  rewrite (valid_read _ _ Vst).
  set (buf := buf_of h1 (h_ref st)) in *. cbn [bind].
  destruct (if (h_str st =? Z.of_nat (cs c) - 1)%Z
    then g <- conv_gather buf (h_idx st) (ck c - 1);; Ok (add_bias (cb c) (fadd x_out (fsum g)))
    else Ok x_out) as [y|e]; simpl; auto.
  destruct (Nat.ltb 1 (ck c)); simpl.
  2:{ conjs; auto; try (apply touch_none_any; exact T1).
      destruct s as [t|]; simpl; subst; eauto. right. lia. }
  destruct tr; cbn [negb bind].
  - destruct (hclone_ok h1 st Vst) as [r [h2 [-> [-> [N2 [T2 L2]]]]]]. cbn [bind].
    assert (V2 : valid (B := list F) h2 (HObj (length h1) 0 0)) by (exists buf; exact N2).
    pose proof (hwrite_ok h2 _ (h_idx st) x_rest V2) as W. cbn [h_ref] in W.
    rewrite (buf_of_nth _ _ _ N2) in W. fold buf in W.
    destruct (setz buf (h_idx st) x_rest) as [l|e]; destruct (hwrite h2 _ _ x_rest) as [h3|e']; simpl; try tauto.
    destruct W as [N [T3 L3]].
    assert (T : touch (may false s) h h3).
    { eapply touch_trans; [apply touch_none_any; exact T1| |].
      - eapply touch_trans; [exact T2|exact T3|]. unfold only. intros r L ->. lia.
      - unfold none. tauto. }
    conjs; auto; try exact T.
    + exists l. exact N.
    + unfold oobj, option_map, obj_of. simpl. change (TRows l) with (wrap (F := F) l) in N.
      rewrite (buf_of_nth _ _ _ N). reflexivity.
    + simpl. right. destruct T1. lia.
  - pose proof (hwrite_ok h1 st (h_idx st) x_rest Vst) as W. fold buf in W.
    destruct (setz buf (h_idx st) x_rest) as [l|e]; destruct (hwrite h1 _ _ x_rest) as [h3|e']; simpl; try tauto.
    destruct W as [N [T3 L3]].
    assert (T : touch (may true s) h h3).
    { eapply touch_trans; [apply touch_none_any; exact T1|exact T3|].
      unfold only, may. intros r L ->. split; auto. destruct s; subst; auto. lia. }
    conjs; auto; try exact T.
    + exists l. exact N.
    + unfold oobj, option_map, obj_of. simpl. change (TRows l) with (wrap (F := F) l) in N.
      rewrite (buf_of_nth _ _ _ N). reflexivity.
    + destruct s as [t|]; simpl; subst; eauto. right. lia.
Qed.

End Steps.
