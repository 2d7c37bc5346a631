(** The flattened name in terms of [StateDictSpec]. *)
From Coq Require Import List Bool String Ascii.
From Verif Require Import Base StateDict StateDictSpec.
Import ListNotations.
Open Scope list_scope.

Lemma digit_In a : digit a = true <-> In a (list_ascii_of_string "0123456789").
Proof.
  split.
  - destruct a as [[|] [|] [|] [|] [|] [|] [|] [|]]; vm_compute; intros E; try discriminate; tauto.
  - cbn [list_ascii_of_string]. intros H. simpl In in H.
    repeat match goal with H : _ \/ _ |- _ => destruct H as [<-|H]; [reflexivity|] end. contradiction.
Qed.

Lemma all_digits_In p : all_digits p = true <->
  forall a, In a (list_ascii_of_string p) -> In a (list_ascii_of_string "0123456789").
Proof.
  induction p as [|b p IH].
  - split; [intros _ a []|reflexivity].
  - cbn [all_digits]. rewrite andb_true_iff, IH, digit_In.
    cbn [list_ascii_of_string]. split.
    + intros [Hb Hp] a [<-|Ha]; auto.
    + intros H. split; [apply H; now left|]. intros a Ha. apply H. now right.
Qed.

Lemma isdigit_numeric p : isdigit p = true <-> numeric p.
Proof.
  unfold isdigit, numeric. destruct p as [|b p].
  - split; [discriminate|]. intros [H _]. contradiction.
  - rewrite all_digits_In. split; [|tauto]. intros H; split; [discriminate|exact H].
Qed.

Lemma split_app p s : undotted p -> split (p ++ String "." s)%string = p :: split s.
Proof.
  induction p as [|b p IH]; intros H; [reflexivity|]. unfold undotted in *.
  cbn [append split]. destruct (Ascii.eqb_spec b "."%char) as [->|Hb].
  - exfalso. apply H. now left.
  - rewrite IH; [reflexivity|]. intros Hin. apply H. now right.
Qed.

Lemma split_part p : undotted p -> split p = [p].
Proof.
  induction p as [|b p IH]; intros H; [reflexivity|]. unfold undotted in *.
  cbn [split]. destruct (Ascii.eqb_spec b "."%char) as [->|Hb].
  - exfalso. apply H. now left.
  - rewrite IH; [reflexivity|]. intros Hin. apply H. now right.
Qed.

Lemma join_concat l : join l = String.concat "." l.
Proof. induction l as [|p [|q l] IH]; [reflexivity|reflexivity|]. cbn [join] in *. rewrite IH. reflexivity. Qed.

Lemma split_concat ps : ps <> [] -> Forall undotted ps -> split (String.concat "." ps) = ps.
Proof.
  induction ps as [|p [|q ps] IH]; intros H F; [contradiction| |]; inversion F; subst.
  - now apply split_part.
  - change (String.concat "." (p :: q :: ps)) with (p ++ String "." (String.concat "." (q :: ps)))%string.
    rewrite split_app by auto. f_equal. apply IH; auto. discriminate.
Qed.

Lemma without_filter ps qs : without_numbers ps qs -> filter (fun p => negb (isdigit p)) ps = qs.
Proof.
  induction 1 as [|p ps qs Hp _ IH|p ps qs Hp _ IH]; cbn [filter]; auto.
  - apply isdigit_numeric in Hp. now rewrite Hp.
  - rewrite <- isdigit_numeric in Hp. apply not_true_is_false in Hp. rewrite Hp. simpl. now f_equal.
Qed.

Lemma flat_key_parts ps qs : ps <> [] -> Forall undotted ps -> without_numbers ps qs ->
  flat_key (String.concat "." ps) = String.concat "." qs.
Proof.
  intros Hp Hd Hw. unfold flat_key. rewrite split_concat, join_concat by auto.
  f_equal. now apply without_filter.
Qed.

Lemma filter_without ps : without_numbers ps (filter (fun p => negb (isdigit p)) ps).
Proof.
  induction ps as [|p ps IH]; cbn [filter]; [constructor|].
  destruct (isdigit p) eqn:E; simpl.
  - apply wn_drop; auto. now apply isdigit_numeric.
  - apply wn_keep; auto. rewrite <- isdigit_numeric. congruence.
Qed.

Lemma split_spec s : split s <> [] /\ Forall undotted (split s) /\ String.concat "." (split s) = s.
Proof.
  induction s as [|b s (H1 & H2 & H3)].
  - repeat split; [discriminate|]. repeat constructor. intros [].
  - cbn [split]. destruct (Ascii.eqb_spec b "."%char) as [->|Hb].
    + split; [discriminate|]. split; [constructor; auto; intros []|].
      destruct (split s) as [|q l] eqn:E; [contradiction|].
      change (String.concat "." (EmptyString :: q :: l)) with (String "." (String.concat "." (q :: l)))%string.
      now rewrite H3.
    + destruct (split s) as [|q l] eqn:E; [contradiction|]. split; [discriminate|].
      apply Forall_cons_iff in H2 as [Hq Hl].
      split.
      * constructor; auto. intros [Hd|Hd]; [congruence|]. now apply Hq.
      * rewrite <- H3. destruct l; reflexivity.
Qed.

Lemma name_parts s : exists ps qs, ps <> [] /\ Forall undotted ps /\ without_numbers ps qs
  /\ s = String.concat "." ps /\ flat_key s = String.concat "." qs.
Proof.
  destruct (split_spec s) as (H1 & H2 & H3).
  exists (split s), (filter (fun p => negb (isdigit p)) (split s)).
  repeat split; auto; [apply filter_without|]. unfold flat_key. apply join_concat.
Qed.
