(** temporary_parameter restores on normal exit, and never on exceptions. *)
From Coq Require Import List ZArith Bool Arith String.
From Verif Require Import Base TempParam.
Import ListNotations.
Open Scope list_scope.

(** A body that leaves the object as it was whenever it ends normally. *)
Definition neutral (b : body) : Prop := forall o o', b o = (o', None) -> o' = o.

Lemma put_back a v w l : assoc a l = Some w -> put a w (put a v l) = l.
Proof.
  induction l as [|[b u] l IH]; cbn; [discriminate|].
  destruct (String.eqb a b) eqn:E; cbn; rewrite E.
  - intros [= ->]. reflexivity.
  - intros H. rewrite IH by exact H. reflexivity.
Qed.

Lemma put_get a v l : assoc a (put a v l) = Some v.
Proof.
  induction l as [|[b u] l IH]; cbn; [rewrite String.eqb_refl; reflexivity|].
  destruct (String.eqb a b) eqn:E; cbn; rewrite E; [reflexivity|exact IH].
Qed.

Lemma put_del a v l : assoc a l = None ->
  filter (fun p : string * pyval => negb (String.eqb a (fst p))) (put a v l) = l.
Proof.
  induction l as [|[b u] l IH]; cbn.
  - rewrite String.eqb_refl. reflexivity.
  - destruct (String.eqb a b) eqn:E; [discriminate|]. intros H. cbn. rewrite E. cbn.
    rewrite IH by exact H. reflexivity.
Qed.

Lemma del_get a l :
  assoc a (filter (fun p : string * pyval => negb (String.eqb a (fst p))) l) = None.
Proof.
  induction l as [|[b u] l IH]; [reflexivity|]. cbn.
  destruct (String.eqb a b) eqn:E; cbn; [exact IH|]. rewrite E. exact IH.
Qed.

Lemma getattr_setattr o a v o' : setattr o a v = Ok o' -> getattr o' a = Ok v.
Proof. destruct o; cbn; [discriminate|]. intros [= <-]. cbn. rewrite put_get. reflexivity. Qed.

Lemma rget_rset path : forall o a v o', rsetattr o a path v = Ok o' -> rgetattr o' a path = Ok v.
Proof.
  induction path as [|b path IH]; intros o a v o'; cbn.
  - intros H. rewrite (getattr_setattr _ _ _ _ H). reflexivity.
  - destruct (getattr o a) as [w|]; cbn; [|discriminate].
    destruct (rsetattr w b path v) as [w'|] eqn:E; cbn; [|discriminate].
    intros H. rewrite (getattr_setattr _ _ _ _ H). cbn. apply (IH _ _ _ _ E).
Qed.

Lemma rset_back path : forall o a v o1 w, rgetattr o a path = Ok w ->
  rsetattr o a path v = Ok o1 -> rsetattr o1 a path w = Ok o.
Proof.
  induction path as [|b path IH]; intros o a v o1 w; cbn.
  - destruct o as [n|l]; cbn; [discriminate|].
    destruct (assoc a l) as [u|] eqn:E; cbn; [|discriminate].
    intros [= <-] [= <-]. cbn. rewrite (put_back _ _ _ _ E). reflexivity.
  - destruct (getattr o a) as [u|] eqn:G; cbn; [|discriminate].
    intros R. destruct (rsetattr u b path v) as [u'|] eqn:E; cbn; [|discriminate].
    intros H. rewrite (getattr_setattr _ _ _ _ H). cbn.
    rewrite (IH _ _ _ _ _ R E). cbn.
    destruct o as [n|l]; cbn in G, H |- *; [discriminate|].
    destruct (assoc a l) as [w0|] eqn:A; [|discriminate]. injection G as ->.
    injection H as <-. cbn. rewrite (put_back _ _ _ _ A). reflexivity.
Qed.

(** Normal exit: the whole object is as before, provided the body itself leaves
    it alone. So nested and sequential uses restore everything. *)
Lemma temporary_neutral a path v b : neutral b -> neutral (temporary_parameter a path v b).
Proof.
  intros Hb o o'. unfold temporary_parameter.
  destruct (rgetattr o a path) as [w|x] eqn:G.
  - destruct (rsetattr o a path v) as [o1|] eqn:R; cbn; [|discriminate].
    destruct (b o1) as [o2 [e|]] eqn:B; [discriminate|]. apply Hb in B. subst o2.
    rewrite (rset_back _ _ _ _ _ _ G R). cbn. intros [= <-]. reflexivity.
  - destruct path as [|p path]; [|discriminate]. cbn in G |- *.
    destruct o as [n|l]; cbn; [discriminate|]. cbn in G.
    destruct (assoc a l) eqn:A; cbn in G; [discriminate|].
    destruct (b _) as [o2 [e|]] eqn:B; [discriminate|]. apply Hb in B. subst o2.
    cbn. rewrite put_get. cbn. rewrite (put_del _ _ _ A). intros [= <-]. reflexivity.
Qed.

Lemma seq_neutral b1 b2 : neutral b1 -> neutral b2 -> neutral (seq_body b1 b2).
Proof.
  intros H1 H2 o o'. unfold seq_body. destruct (b1 o) as [o1 [e|]] eqn:E; [discriminate|].
  apply H1 in E. subst. apply H2.
Qed.

(** Whatever the body does, on normal exit the attribute itself reads as before. *)
Lemma temporary_attr a path v b o o' : temporary_parameter a path v b o = (o', None) ->
  rgetattr o' a path = rgetattr o a path.
Proof.
  unfold temporary_parameter. destruct (rgetattr o a path) as [w|x] eqn:G.
  - destruct (rsetattr o a path v) as [o1|] eqn:R; cbn; [|discriminate].
    destruct (b o1) as [o2 [e|]] eqn:B; [discriminate|].
    destruct (rsetattr o2 a path w) as [o3|] eqn:R3; cbn; [|discriminate].
    intros [= <-]. apply (rget_rset _ _ _ _ _ R3).
  - destruct path as [|p path]; [|discriminate]. cbn in G |- *.
    destruct (setattr o a v) as [o1|]; cbn; [|discriminate].
    destruct (b o1) as [o2 [e|]]; [discriminate|].
    destruct o2 as [n|l]; cbn; [discriminate|].
    destruct (assoc a l); cbn; [|discriminate]. intros [= <-].
    cbn. rewrite del_get. cbn. destruct o as [n|l0]; cbn in G; [congruence|].
    destruct (assoc a l0); cbn in G; congruence.
Qed.

(** During the body the attribute has the temporary value. *)
Lemma temporary_inside a path v b o :
  (exists w, rgetattr o a path = Ok w) \/ (path = [] /\ exists l, o = PObj l) ->
  exists o1, rsetattr o a path v = Ok o1 /\ rgetattr o1 a path = Ok v
    /\ (forall o2 e, b o1 = (o2, Some e) -> temporary_parameter a path v b o = (o2, Some e)).
Proof.
  intros H.
  assert (S : exists o1, rsetattr o a path v = Ok o1).
  { destruct H as [(w & G)|(-> & l & ->)]; [|cbn; eexists; reflexivity].
    revert o a w G. induction path as [|p path IH]; intros o a w; cbn.
    - destruct o; cbn; [discriminate|]. intros _. eexists; reflexivity.
    - destruct o as [n|l]; cbn; [discriminate|].
      destruct (assoc a l) as [u|]; cbn; [|discriminate]. intros G.
      destruct (IH _ _ _ G) as (u' & ->). cbn. eexists; reflexivity. }
  destruct S as (o1 & S). exists o1. split; [exact S|]. split; [apply (rget_rset _ _ _ _ _ S)|].
  intros o2 e B. unfold temporary_parameter.
  destruct (rgetattr o a path) as [w|x] eqn:G.
  - rewrite S. cbn. rewrite B. reflexivity.
  - destruct H as [(w & H)|(-> & _)]; [discriminate|]. rewrite S. cbn. rewrite B. reflexivity.
Qed.
