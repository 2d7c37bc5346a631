(** Proofs for C67. *)
From Coq Require Import List ZArith Bool Arith Lia.
From Verif Require Import Base Attn Frames CoMod Leaf Spec LeafProof NetRel RelProof Ring Tensor TensorProof
  TConv TConvSpec TConvProof TPool TPoolSpec TPoolProof TNet TNetSpec TNetProof TNetLeaf TBatch TBatchSpec.
Import ListNotations.

Section Tile.
Context {K : Type} {SC : Scal K} {SL : ScalLaws K}.
Implicit Types (x y : list K) (f g : list nat -> K).

Lemma size_cons n s : size (n :: s) = n * size s.
Proof. reflexivity. Qed.
Lemma size_1 s : size (1 :: s) = size s.
Proof. cbn. fold (size s). lia. Qed.

Lemma flat_map_const {A B} (h : A -> list B) c l : (forall a, In a l -> h a = c) -> flat_map h l = concat (repeat c (length l)).
Proof. induction l as [|a l IH]; intros H; [reflexivity|]. cbn. rewrite H by (left; reflexivity). rewrite IH; [reflexivity|]. intros; apply H; right; assumption. Qed.

Lemma tab_tile n s f g : (forall i ix, i < n -> f (i :: ix) = g (0 :: ix)) -> tab (n :: s) f = tile n (tab (1 :: s) g).
Proof.
  intros H. unfold tile. cbn [tab seq flat_map]. rewrite app_nil_r.
  rewrite (flat_map_const _ (tab s (fun ix => g (0 :: ix)))); [now rewrite seq_length|].
  intros i Hi. apply in_seq in Hi. apply tab_ext. intros ix _. apply H. lia.
Qed.

Lemma tile_len n x : length (tile n x) = n * length x.
Proof. unfold tile. induction n as [|n IH]; [reflexivity|]. cbn. rewrite app_length, IH. reflexivity. Qed.

Lemma nth_tile n x b o d : b < n -> o < length x -> nth (b * length x + o) (tile n x) d = nth o x d.
Proof.
  unfold tile. revert b. induction n as [|n IH]; intros b Hb Ho; [lia|]. cbn.
  destruct b as [|b]; cbn.
  - now rewrite app_nth1.
  - rewrite app_nth2 by lia. rewrite <- (IH b) by lia. f_equal. lia.
Qed.

Lemma at_tile n s x b ix : b < n -> length x = size (1 :: s) ->
  at_ (n :: s) (tile n x) (Z.of_nat b :: ix) = at_ (1 :: s) x (0%Z :: ix).
Proof.
  intros Hb Hx. unfold at_. cbn [offset].
  assert (Z.leb 0 (Z.of_nat b) && Z.ltb (Z.of_nat b) (Z.of_nat n) = true) as ->.
  { apply andb_true_iff. split; [apply Z.leb_le|apply Z.ltb_lt]; lia. }
  change (Z.leb 0 0 && Z.ltb 0 (Z.of_nat 1)) with true. cbn iota.
  rewrite Nat2Z.id. destruct (offset s ix) as [o|] eqn:E; cbn [option_map]; [|reflexivity].
  apply offset_lt in E. rewrite size_1 in Hx. rewrite <- Hx. rewrite nth_tile by lia. reflexivity.
Qed.

Lemma tile_map {A} (h : K -> A) n x : map h (concat (repeat x n)) = concat (repeat (map h x) n).
Proof. induction n as [|n IH]; [reflexivity|]. cbn. now rewrite map_app, IH. Qed.

Lemma convnd_tile n cin cout gr dims ks ss ps ds w b x : length x = size (1 :: cin :: dims) ->
  convnd n cin cout gr dims ks ss ps ds w b (tile n x) =
  (y <- convnd 1 cin cout gr dims ks ss ps ds w b x ;; Ok (tile n y)).
Proof.
  intros Hx. unfold convnd. destruct (fits dims ks ps ds && forallb (Nat.leb 1) dims); [|reflexivity]. cbn [bind]. f_equal.
  apply tab_tile. intros i [|o q] Hi; [reflexivity|]. f_equal. unfold conv_elem. apply ksum_tab_ext.
  intros [|ch kp] _; [reflexivity|]. f_equal. exact (at_tile n _ x i _ Hi Hx).
Qed.
Lemma reppad_tile n C dims ps x : length x = size (1 :: C :: dims) ->
  reppad n C dims ps (tile n x) = tile n (reppad 1 C dims ps x).
Proof.
  intros Hx. apply tab_tile. intros i [|o q] Hi; [reflexivity|]. exact (at_tile n _ x i _ Hi Hx).
Qed.
Lemma slice_tile n C T dims x t : length x = size (1 :: C :: T :: dims) ->
  slice2 n C T dims (tile n x) t = tile n (slice2 1 C T dims x t).
Proof.
  intros Hx. apply tab_tile. intros i [|o q] Hi; [reflexivity|]. exact (at_tile n _ x i _ Hi Hx).
Qed.
Lemma zlike_tab s f : zlike (tab s f) = tab s (fun _ => s0).
Proof. rewrite zlike_repeat, tab_len. symmetry. now apply tab_zero. Qed.

Lemma in_batch_same n x : in_batch n (n, x) = x.
Proof. unfold in_batch. cbn. now rewrite Nat.eqb_refl. Qed.
Lemma in_batch_one n x : in_batch n (1, x) = tile n x.
Proof. unfold in_batch. cbn [fst snd]. destruct (Nat.eqb_spec 1 n) as [<-|N]; [|reflexivity]. cbn. now rewrite app_nil_r. Qed.

Lemma plus_in n b x S : b = n \/ b = 1 -> plus (b, x) (n, S) = Ok (n, zadd (in_batch n (b, x)) S).
Proof.
  intros H. unfold plus, in_batch. cbn [fst snd]. destruct (Nat.eqb_spec b n) as [->|N]; [reflexivity|].
  destruct H as [H|H]; [contradiction|]. subst b. reflexivity.
Qed.
End Tile.

Lemma put_in {K} n (b : nat) (x : list K) : b = n \/ b = 1 -> put n (b, x) = Ok (in_batch n (b, x)).
Proof.
  intros H. unfold put, in_batch. cbn [fst snd]. destruct (Nat.eqb_spec b n) as [->|N]; [reflexivity|].
  destruct H as [H|H]; [contradiction|]. subst b. reflexivity.
Qed.
Lemma put_raises {K} n (b : nat) (x : list K) : b <> n -> b <> 1 -> put n (b, x) = Err RuntimeError.
Proof.
  intros H1 H2. unfold put. cbn [fst snd]. destruct (Nat.eqb_spec b n); [contradiction|].
  destruct (Nat.eqb_spec b 1); [contradiction|]. reflexivity.
Qed.
Lemma mapM_put {K} n (b : nat) (l : list (list K)) : b = n \/ b = 1 ->
  mapM (fun f => put n (b, f)) l = Ok (map (fun f => in_batch n (b, f)) l).
Proof. intros H. induction l as [|f l IH]; [reflexivity|]. cbn [mapM map]. rewrite (put_in n b f H). cbn [bind]. rewrite IH. reflexivity. Qed.

Lemma set_nth_map {A B} (f : A -> B) l : forall i a, set_nth (map f l) i (f a) = map f (set_nth l i a).
Proof. induction l as [|h l IH]; intros [|i] a; cbn; [reflexivity..|]. now rewrite IH. Qed.
Lemma setz_map {A B} (f : A -> B) l i a : setz (map f l) i (f a) = (r <- setz l i a ;; Ok (map f r)).
Proof. unfold setz. rewrite map_length. destruct (Z.ltb i 0); [reflexivity|]. destruct (Nat.ltb _ _); [|reflexivity]. cbn. now rewrite set_nth_map. Qed.
Lemma getz_map {A B} (f : A -> B) l i : getz (map f l) i = (r <- getz l i ;; Ok (f r)).
Proof. unfold getz. destruct (Z.ltb i 0); [reflexivity|]. rewrite nth_error_map. destruct (nth_error l _); reflexivity. Qed.
Lemma snd_pair {A B} (n : A) (l : list B) : map snd (map (pair n) l) = l.
Proof. rewrite map_map. cbn. apply map_id. Qed.
Lemma setz_nonempty {A} (l : list A) i a r : setz l i a = Ok r -> r <> [].
Proof.
  unfold setz. destruct (Z.ltb i 0); [discriminate|]. destruct (Nat.ltb_spec (Z.to_nat i) (length l)) as [H|H]; [|discriminate].
  intros [= <-]. destruct l as [|h l]; [cbn in H; lia|]. destruct (Z.to_nat i); discriminate.
Qed.
Lemma batch_pair {A} n (l : list A) : l <> [] -> batch_of (map (pair n) l) = n.
Proof. destruct l; [congruence|reflexivity]. Qed.

Lemma set_nth_length {A} (l : list A) : forall i a, length (set_nth l i a) = length l.
Proof. induction l as [|h l IH]; intros [|i] a; cbn; congruence. Qed.
Lemma set_nth_Forall {A} (P : A -> Prop) (l : list A) a : Forall P l -> P a -> forall i, Forall P (set_nth l i a).
Proof. intros H Ha. induction H as [|h l Hh Hl IH]; intros [|i]; cbn; auto. Qed.

(** ** The simulation, for any step function *)
Section Sim.
Context {K A : Type}.
Variables (n : nat) (ok : bat K -> Prop).
Variables (fs' : bat K -> option (obj (nat * A)) -> res (option (bat K) * option (obj (nat * A))))
          (fs : list K -> option (obj A) -> res (option (list K) * option (obj A)))
          (pad' : bat K -> bat K) (pad : list K -> list K).

Definition lo (o : obj A) : obj (nat * A) := Obj (map (pair n) (o_buf o)) (o_idx o) (o_str o).
Definition lr (r : res (option (list K) * option (obj A))) : res (option (bat K) * option (obj (nat * A))) :=
  '(y, s) <- r ;; Ok (option_map (pair n) y, option_map lo s).
Definition good (s : option (obj A)) : Prop := match s with Some o => o_buf o <> [] | None => True end.
Definition starts (s : option (obj A)) (xs : list (bat K)) : Prop :=
  match s, xs with None, x :: _ => fst x = n | _, _ => True end.

Hypothesis Hstep : forall x s, ok x -> good s -> starts s [x] -> fs' x (option_map lo s) = lr (fs (in_batch n x) s).
Hypothesis Hkeep : forall x s y s', good s -> fs x s = Ok (y, s') -> exists t, s' = Some t /\ o_buf t <> [].
Hypothesis Hpad : forall x, ok x -> ok (pad' x) /\ in_batch n (pad' x) = pad (in_batch n x).

Lemma lo_get o : obj_get (lo o) = option_map lo (obj_get o).
Proof. unfold obj_get, lo. cbn. destruct o as [[|? ?] i s]; reflexivity. Qed.
Lemma get_good o : good (obj_get o).
Proof. unfold obj_get. destruct o as [[|? ?] i s]; cbn; [exact I|discriminate]. Qed.

Definition lstep (r : res (option (list K) * obj A)) : res (option (bat K) * obj (nat * A)) :=
  '(y, o) <- r ;; Ok (option_map (pair n) y, lo o).
Definition lsteps (r : res (option (list (list K)) * obj A)) : res (option (list (bat K)) * obj (nat * A)) :=
  '(y, o) <- r ;; Ok (option_map (map (pair n)) y, lo o).

Lemma sim_step o x upd : ok x -> starts (obj_get o) [x] ->
  co_forward_step obj_get obj_set fs' (lo o) x upd = lstep (co_forward_step obj_get obj_set fs o (in_batch n x) upd).
Proof.
  intros Hx Hs. unfold co_forward_step. rewrite lo_get, (Hstep x (obj_get o) Hx (get_good o) Hs).
  unfold lr. destruct (fs (in_batch n x) (obj_get o)) as [[y [t|]]|e] eqn:E; cbn; [|reflexivity|reflexivity].
  destruct upd; reflexivity.
Qed.

Lemma sim_loop xs : forall s, Forall ok xs -> good s -> starts s xs ->
  co_loop fs' xs (option_map lo s) = ('(ys, t) <- co_loop fs (map (in_batch n) xs) s ;; Ok (map (pair n) ys, option_map lo t)).
Proof.
  induction xs as [|x xs IH]; intros s Hx Hg Hs; [reflexivity|]. cbn [co_loop map].
  inversion Hx as [|? ? H1 H2]; subst. rewrite (Hstep x s H1 Hg); [|destruct s; exact Hs].
  unfold lr. destruct (fs (in_batch n x) s) as [[y s1]|e] eqn:E; [|reflexivity]. cbn [bind].
  destruct (Hkeep _ _ _ _ Hg E) as (t & -> & Ht). rewrite (IH (Some t) H2 Ht I). cbn [option_map].
  destruct (co_loop fs (map (in_batch n) xs) (Some t)) as [[ys s2]|e]; [|reflexivity]. cbn [bind].
  destruct y; reflexivity.
Qed.
Lemma loop_keep xs : forall s ys t, good s -> co_loop fs xs s = Ok (ys, t) -> good t /\ (xs <> [] -> t <> None).
Proof.
  induction xs as [|x xs IH]; intros s ys t Hg; cbn [co_loop].
  - intros [= <- <-]. split; [exact Hg|congruence].
  - destruct (fs x s) as [[y s1]|e] eqn:E; [|discriminate]. cbn [bind].
    destruct (Hkeep _ _ _ _ Hg E) as (u & -> & Hu).
    destruct (co_loop fs xs (Some u)) as [[zs s2]|e] eqn:E2; [|discriminate]. cbn [bind]. intros [= _ <-].
    destruct (IH (Some u) _ _ Hu E2) as [G1 G2]. split; [exact G1|]. intros _.
    destruct xs as [|x' xs]; [|apply G2; discriminate]. cbn in E2. injection E2 as _ <-. discriminate.
Qed.

Lemma last_map {B C} (f : B -> C) l d : last (map f l) (f d) = f (last l d).
Proof. induction l as [|a l IH]; [reflexivity|]. cbn [map last]. destruct l; [reflexivity|]. exact IH. Qed.
Lemma last_ok (xs : list (bat K)) x : ok x -> Forall ok xs -> ok (last xs x).
Proof. intros Hx. induction 1 as [|a l Ha Hl IH]; [exact Hx|]. cbn [last]. destruct l; [exact Ha|]. exact IH. Qed.
Lemma map_repeat' {B C} (f : B -> C) a m : map f (repeat a m) = repeat (f a) m.
Proof. induction m; cbn; congruence. Qed.
Lemma sim_end p xs : Forall ok xs ->
  match end_frames pad' p xs with
  | Ok l => Forall ok l /\ end_frames pad p (map (in_batch n) xs) = Ok (map (in_batch n) l) /\ (xs = [] -> l = [])
  | Err e => end_frames pad p (map (in_batch n) xs) = Err e
  end.
Proof.
  intros H. destruct p as [|p]; cbn [end_frames]; [repeat split; constructor|].
  destruct xs as [|x xs]; cbn [map]; [reflexivity|].
  change (in_batch n x :: map (in_batch n) xs) with (map (in_batch n) (x :: xs)).
  assert (Hl : ok (last (x :: xs) x)) by (apply last_ok; [now inversion H|exact H]).
  destruct (Hpad _ Hl) as [P1 P2]. split; [|split; [|discriminate]].
  - apply Forall_forall. intros z Hz. apply repeat_spec in Hz. subst z. exact P1.
  - rewrite last_map, map_repeat', P2. reflexivity.
Qed.

Lemma sim_steps p o xs pe upd : Forall ok xs -> starts (obj_get o) xs ->
  co_forward_steps obj_get obj_set fs' pad' p (lo o) xs pe upd =
  lsteps (co_forward_steps obj_get obj_set fs pad p o (map (in_batch n) xs) pe upd).
Proof.
  intros Hx Hs. unfold co_forward_steps. rewrite lo_get, (sim_loop xs (obj_get o) Hx (get_good o) Hs).
  destruct (co_loop fs (map (in_batch n) xs) (obj_get o)) as [[ys s1]|e] eqn:E; [|reflexivity]. cbn [bind].
  destruct (loop_keep _ _ _ _ (get_good o) E) as [Hg Hn].
  set (o1 := match s1 with Some s => if upd then obj_set o s else o | None => o end).
  assert (Ho1 : match option_map lo s1 with Some s => if upd then obj_set (lo o) s else lo o | None => lo o end = lo o1).
  { unfold o1. destruct s1 as [s|]; cbn; [|reflexivity]. destruct upd; reflexivity. }
  rewrite Ho1.
  assert (St : forall l, stack_outs (map (pair n) l) = option_map (map (pair n)) (@stack_outs (list K) l)) by (intros [|? ?]; reflexivity).
  destruct pe; cbn [bind].
  - rewrite lo_get. set (s2 := match obj_get o1 with Some s => Some s | None => s1 end).
    assert (Es2 : match option_map lo (obj_get o1) with Some s => Some s | None => option_map lo s1 end = option_map lo s2).
    { unfold s2. destruct (obj_get o1); reflexivity. }
    rewrite Es2. assert (Hg2 : good s2). { unfold s2. pose proof (get_good o1). destruct (obj_get o1); assumption. }
    pose proof (sim_end p xs Hx) as HE. destruct (end_frames pad' p xs) as [l|e].
    + destruct HE as (HE1 & -> & HE3). cbn [bind].
      assert (Hst : starts s2 l).
      { unfold starts. destruct s2 as [u|] eqn:E2; [exact I|]. destruct xs as [|x xs].
        - rewrite HE3 by reflexivity. exact I.
        - exfalso. unfold s2 in E2. destruct (obj_get o1); [discriminate|]. apply Hn; [discriminate|exact E2]. }
      rewrite (sim_loop l s2 HE1 Hg2 Hst).
      destruct (co_loop fs (map (in_batch n) l) s2) as [[zs s3]|e]; [|reflexivity]. cbn [bind lsteps].
      rewrite <- map_app, St. reflexivity.
    + rewrite HE. reflexivity.
  - rewrite !app_nil_r. cbn [bind lsteps]. rewrite St. reflexivity.
Qed.

(** A run of calls on an object with a buffer. *)
Notation step' := (fun o x u => co_forward_step obj_get obj_set fs' o x u).
Notation step := (fun o x u => co_forward_step obj_get obj_set fs o x u).
Variable p : nat.
Notation steps' := (fun o xs e u => co_forward_steps obj_get obj_set fs' pad' p o xs e u).
Notation steps := (fun o xs e u => co_forward_steps obj_get obj_set fs pad p o xs e u).

Lemma get_some o : o_buf o <> [] -> obj_get o = Some (o : obj A).
Proof. destruct o as [[|? ?] i s]; cbn; congruence. Qed.
Lemma step_keep o x u y o1 : co_forward_step obj_get obj_set fs o x u = Ok (y, o1) -> o_buf o <> [] \/ u = true -> o_buf o1 <> [].
Proof.
  unfold co_forward_step. destruct (fs x (obj_get o)) as [[z s]|e] eqn:E; [|discriminate]. cbn [bind].
  destruct (Hkeep _ _ _ _ (get_good o) E) as (t & -> & Ht). intros [= <- <-] [H|H]; [destruct u|rewrite H]; assumption.
Qed.
Lemma steps_keep o xs e u y o1 : co_forward_steps obj_get obj_set fs pad p o xs e u = Ok (y, o1) -> o_buf o <> [] -> o_buf o1 <> [].
Proof.
  intros H Ho. unfold co_forward_steps in H. destruct (co_loop fs xs (obj_get o)) as [[ys s]|er] eqn:E; [|discriminate]. cbn [bind] in H.
  destruct (loop_keep _ _ _ _ (get_good o) E) as [Hg _].
  assert (Q : o1 = match s with Some s => if u then obj_set o s else o | None => o end).
  { destruct e; cbn [bind] in H; [|congruence]. destruct (end_frames pad p xs); [|discriminate]. cbn [bind] in H.
    destruct (co_loop fs a _) as [[? ?]|]; [|discriminate]. cbn [bind] in H. congruence. }
  rewrite Q. destruct s as [s|]; [|exact Ho]. destruct u; [exact Hg|exact Ho].
Qed.

Lemma sim_run l : forall o, o_buf o <> [] -> Forall (fun a => Forall ok (bframes a)) l ->
  brun step' steps' (lo o) l = ('(ys, o') <- brun step steps o (map (bmap (in_batch n)) l) ;; Ok (map (option_map (map (pair n))) ys, lo o')).
Proof.
  induction l as [|a l IH]; intros o Ho Hl; [reflexivity|]. cbn [brun map]. inversion Hl as [|? ? Ha Hl']; subst.
  assert (Hd : bdo step' steps' (lo o) a = ('(y, o') <- bdo step steps o (bmap (in_batch n) a) ;; Ok (option_map (map (pair n)) y, lo o'))).
  { destruct a as [x u|xs e u]; cbn [bdo bmap bframes] in *.
    - rewrite sim_step; [|now inversion Ha|rewrite (get_some o Ho); exact I].
      unfold lstep. destruct (co_forward_step obj_get obj_set fs o (in_batch n x) u) as [[y o1]|er]; [|reflexivity]. cbn [bind]. destruct y; reflexivity.
    - rewrite sim_steps; [reflexivity|exact Ha|rewrite (get_some o Ho); destruct xs; exact I]. }
  rewrite Hd. destruct (bdo step steps o (bmap (in_batch n) a)) as [[y o1]|er] eqn:E; [|reflexivity]. cbn [bind].
  rewrite IH; [|
    destruct a as [x u|xs e u]; cbn [bdo bmap] in E;
      [destruct (co_forward_step obj_get obj_set fs o (in_batch n x) u) as [[z o2]|er] eqn:E2; [|discriminate]; cbn [bind] in E;
       injection E as _ <-; eapply step_keep; [exact E2|left; exact Ho]
      |eapply steps_keep; [exact E|exact Ho]]
    |exact Hl'].
  destruct (brun step steps o1 (map (bmap (in_batch n)) l)) as [[ys o2]|er]; reflexivity.
Qed.

(** The first frame of a new object sets the batch size. *)
Lemma sim_first x0 l : fst x0 = n -> ok x0 -> Forall (fun a => Forall ok (bframes a)) l ->
  brun step' steps' obj_init (BStep x0 true :: l) =
  ('(ys, o') <- brun step steps obj_init (map (bmap (in_batch n)) (BStep x0 true :: l)) ;; Ok (map (option_map (map (pair n))) ys, lo o')).
Proof.
  intros Hn H0 Hl. cbn [brun map bdo bmap]. change (@obj_init (nat * A)) with (lo obj_init).
  rewrite sim_step; [|exact H0|exact Hn]. unfold lstep.
  destruct (co_forward_step obj_get obj_set fs obj_init (in_batch n x0) true) as [[y o1]|er] eqn:E; [|reflexivity]. cbn [bind].
  rewrite sim_run; [|eapply step_keep; [exact E|right; reflexivity]|exact Hl].
  destruct (brun step steps o1 (map (bmap (in_batch n)) l)) as [[ys o2]|er]; [|reflexivity]. cbn [bind]. destruct y; reflexivity.
Qed.

Lemma sim_feed xs : forall o, Forall ok xs -> starts (obj_get o) xs ->
  feed (fun o x => step' o x true) (lo o) xs = ('(ys, o') <- feed (fun o x => step o x true) o (map (in_batch n) xs) ;; Ok (map (option_map (pair n)) ys, lo o')).
Proof.
  induction xs as [|x xs IH]; intros o Hx Hs; [reflexivity|]. cbn [feed map]. inversion Hx as [|? ? H1 H2]; subst.
  rewrite sim_step; [|exact H1|destruct (obj_get o); exact Hs]. unfold lstep.
  destruct (co_forward_step obj_get obj_set fs o (in_batch n x) true) as [[y o1]|er] eqn:E; [|reflexivity]. cbn [bind].
  rewrite IH; [|exact H2|]. 2:{ rewrite get_some; [destruct xs; exact I|]. eapply step_keep; [exact E|right; reflexivity]. }
  destruct (feed _ o1 (map (in_batch n) xs)) as [[ys o2]|er]; reflexivity.
Qed.
End Sim.

Lemma mapM_ext {A B} (f g : A -> res B) l : (forall a, In a l -> f a = g a) -> mapM f l = mapM g l.
Proof.
  induction l as [|a l IH]; intros H; [reflexivity|]. cbn [mapM]. rewrite H by (left; reflexivity).
  rewrite IH; [reflexivity|]. intros; apply H; right; assumption.
Qed.

(** ** What holds of every object that was fed *)
Section Inv.
Context {F A : Type}.
Variables (I : obj A -> Prop) (fs : F -> option (obj A) -> res (option F * option (obj A))) (pad : F -> F) (p : nat).
Hypothesis Hk : forall x s y s', (forall o, s = Some o -> I o) -> fs x s = Ok (y, s') -> exists t, s' = Some t /\ I t.

Lemma inv_get o : I o \/ o_buf o = [] -> forall o', obj_get o = Some o' -> I o'.
Proof. intros [H|H] o'; unfold obj_get; [destruct (o_buf o); [discriminate|]; intros [= <-]; exact H|rewrite H; discriminate]. Qed.
Lemma inv_step o x u y o1 : co_forward_step obj_get obj_set fs o x u = Ok (y, o1) -> I o \/ (o_buf o = [] /\ u = true) -> I o1.
Proof.
  unfold co_forward_step. destruct (fs x (obj_get o)) as [[z s]|e] eqn:E; [|discriminate]. cbn [bind]. intros H Ho.
  destruct (Hk _ _ _ _ (inv_get o ltac:(tauto)) E) as (t & -> & Ht). injection H as _ <-.
  destruct Ho as [Ho|[_ ->]]; [destruct u|]; assumption.
Qed.
Lemma inv_loop xs : forall s ys t, (forall o, s = Some o -> I o) -> co_loop fs xs s = Ok (ys, t) -> forall o, t = Some o -> I o.
Proof.
  induction xs as [|x xs IH]; intros s ys t Hs; cbn [co_loop].
  - intros [= <- <-]. exact Hs.
  - destruct (fs x s) as [[y s1]|e] eqn:E; [|discriminate]. cbn [bind]. destruct (Hk _ _ _ _ Hs E) as (u & -> & Hu).
    destruct (co_loop fs xs (Some u)) as [[zs s2]|e] eqn:E2; [|discriminate]. cbn [bind]. intros [= _ <-].
    eapply IH; [|exact E2]. intros o [= <-]. exact Hu.
Qed.
Lemma inv_steps o xs e u y o1 : co_forward_steps obj_get obj_set fs pad p o xs e u = Ok (y, o1) -> I o -> I o1.
Proof.
  intros H Ho. unfold co_forward_steps in H. destruct (co_loop fs xs (obj_get o)) as [[ys s]|er] eqn:E; [|discriminate]. cbn [bind] in H.
  pose proof (inv_loop _ _ _ _ (inv_get o (or_introl Ho)) E) as Hg.
  assert (Q : o1 = match s with Some s => if u then obj_set o s else o | None => o end).
  { destruct e; cbn [bind] in H; [|congruence]. destruct (end_frames pad p xs); [|discriminate]. cbn [bind] in H.
    destruct (co_loop fs a _) as [[? ?]|]; [|discriminate]. cbn [bind] in H. congruence. }
  rewrite Q. destruct s as [s|]; [|exact Ho]. destruct u; [now apply Hg|exact Ho].
Qed.
Notation step := (fun o x u => co_forward_step obj_get obj_set fs o x u).
Notation steps := (fun o xs e u => co_forward_steps obj_get obj_set fs pad p o xs e u).
Lemma inv_run l : forall o ys o', I o -> brun step steps o l = Ok (ys, o') -> I o'.
Proof.
  induction l as [|a l IH]; intros o ys o' Ho; cbn [brun]; [intros [= _ <-]; exact Ho|].
  destruct (bdo step steps o a) as [[y o1]|e] eqn:E; [|discriminate]. cbn [bind].
  destruct (brun step steps o1 l) as [[zs o2]|e] eqn:E2; [|discriminate]. cbn [bind]. intros [= _ <-].
  eapply IH; [|exact E2]. destruct a as [x u|xs e u]; cbn [bdo] in E.
  - destruct (co_forward_step obj_get obj_set fs o x u) as [[z o3]|e] eqn:E3; [|discriminate]. cbn [bind] in E. injection E as _ <-.
    eapply inv_step; [exact E3|left; exact Ho].
  - eapply inv_steps; [exact E|exact Ho].
Qed.
Lemma inv_first x0 l ys o' : brun step steps obj_init (BStep x0 true :: l) = Ok (ys, o') -> I o'.
Proof.
  cbn [brun bdo]. destruct (co_forward_step obj_get obj_set fs obj_init x0 true) as [[z o1]|e] eqn:E; [|discriminate]. cbn [bind].
  destruct (brun step steps o1 l) as [[zs o2]|e] eqn:E2; [|discriminate]. cbn [bind]. intros [= _ <-].
  eapply inv_run; [|exact E2]. eapply inv_step; [exact E|right; split; reflexivity].
Qed.
End Inv.

(** A step that raises makes forward_step and forward_steps raise. *)
Lemma raise_calls {K A} (fs : bat K -> option (obj (nat * A)) -> res (option (bat K) * option (obj (nat * A)))) pad p n (o : obj A) x xs pe upd e :
  o_buf o <> [] -> fs x (Some (lo n o)) = Err e ->
  co_forward_step obj_get obj_set fs (lo n o) x upd = Err e /\
  co_forward_steps obj_get obj_set fs pad p (lo n o) (x :: xs) pe upd = Err e.
Proof.
  intros Ho H. unfold co_forward_step, co_forward_steps. cbn [co_loop]. rewrite lo_get, (get_some o Ho). cbn [option_map].
  rewrite H. split; reflexivity.
Qed.

(** ** Convolution *)
Section ConvB.
Context {K : Type} {SC : Scal K} {SL : ScalLaws K}.
Variables (n : nat) (sp : list nat) (c : tconv K).
Hypothesis OK : tconv_ok n sp c.
Hypothesis K2 : 2 <= t_k c.
Notation cin := (t_cin c). Notation cout := (t_cout c). Notation k := (t_k c).
Notation osp := (t_osp sp c).

Lemma one_len b x y : t_one b sp c x = Ok y -> length y = size (b :: cout :: k :: osp).
Proof.
  destruct OK. assert (D : out_dim 1 k 1 (k - 1) 1 = k).
  { unfold out_dim. rewrite Nat.div_1_r. lia. }
  unfold t_one. destruct (t_mode c).
  1: { unfold convnd. destruct (fits _ _ _ _ && _); [|discriminate]. intros H. apply ok_inj in H. subst y. rewrite tab_len.
       cbn [out_dims]. rewrite D. reflexivity. }
  all: destruct (forallb (Nat.leb 1) sp); [|discriminate]; unfold convnd; destruct (fits _ _ _ _ && _); [|discriminate];
    intros H; apply ok_inj in H; subst y; rewrite tab_len; cbn [grow out_dims];
    rewrite grow_zs by assumption; replace (out_dim (1 + 2 * 0) k 1 (k - 1) 1) with k by (exact (eq_sym D)); reflexivity.
Qed.

Lemma one_tile x : length x = size (1 :: cin :: sp) ->
  t_one n sp c (tile n x) = (y <- t_one 1 sp c x ;; Ok (tile n y)).
Proof.
  intros Hx. assert (Hx' : length x = size (1 :: cin :: 1 :: sp)). { rewrite Hx. cbn. fold (size sp). lia. }
  unfold t_one. destruct (t_mode c).
  1: apply convnd_tile; exact Hx'.
  all: destruct (forallb (Nat.leb 1) sp); [|reflexivity]; rewrite reppad_tile by exact Hx';
    apply convnd_tile; unfold reppad; rewrite tab_len; reflexivity.
Qed.

Lemma one_in (x : bat K) : frame_ok n (cin :: sp) x ->
  t_one n sp c (in_batch n x) = (y <- t_one (fst x) sp c (snd x) ;; Ok (in_batch n (fst x, y))).
Proof.
  destruct x as [b x]. intros [[H|H] Hl]; cbn [fst snd] in *; subst b.
  - rewrite in_batch_same. destruct (t_one n sp c x); [|reflexivity]. cbn [bind]. now rewrite in_batch_same.
  - rewrite in_batch_one, one_tile by (rewrite Hl; reflexivity).
    destruct (t_one 1 sp c x); [|reflexivity]. cbn [bind]. now rewrite in_batch_one.
Qed.

Lemma slice_in b y t : b = n \/ b = 1 -> length y = size (b :: cout :: k :: osp) ->
  slice2 n cout k osp (in_batch n (b, y)) t = in_batch n (b, slice2 b cout k osp y t).
Proof.
  intros [->| ->] Hy; [now rewrite !in_batch_same|]. rewrite !in_batch_one. now apply slice_tile.
Qed.

Lemma stateful : t_stateless c = false.
Proof. unfold t_stateless. destruct (Nat.eqb_spec k 1); [lia|reflexivity]. Qed.
Lemma k_ltb : Nat.ltb 1 k = true.
Proof. apply Nat.ltb_lt. lia. Qed.

Lemma init_in b y : b = n -> map (fun r => (b, r)) (o_buf (t_init c y)) = map (pair n) (o_buf (t_init c y)).
Proof. intros ->. reflexivity. Qed.

Lemma conv_sim x s : frame_ok n (cin :: sp) x -> good s -> starts n s [x] ->
  tb_fstep sp c x (option_map (lo n) s) = lr n (t_fstep n sp c (in_batch n x) s).
Proof.
  intros Hx Hg Hs. unfold tb_fstep, t_fstep. rewrite stateful, k_ltb, one_in by exact Hx.
  destruct x as [b x]. pose proof (proj1 Hx) as Hb. cbn [fst snd] in *.
  destruct (t_one b sp c x) as [y|e] eqn:E; [|reflexivity]. cbn [bind].
  pose proof (one_len b x y E) as Hy.
  assert (Hr : map (slice2 n cout k osp (in_batch n (b, y))) (seq 1 (k - 1)) =
               map (fun f => in_batch n (b, f)) (map (slice2 b cout k osp y) (seq 1 (k - 1)))).
  { rewrite map_map. apply map_ext. intros t. now apply slice_in. }
  rewrite Hr, (slice_in b y 0 Hb Hy). set (rest := map (slice2 b cout k osp y) (seq 1 (k - 1))).
  set (out0 := slice2 b cout k osp y 0).
  assert (Hst : exists o, match s with None => t_init c (map (fun f => in_batch n (b, f)) rest) | Some s => s end = o /\ o_buf o <> [] /\
     match option_map (lo n) s with
     | None => Obj (map (fun r => (b, r)) (o_buf (t_init c rest))) (o_idx (t_init c rest)) (o_str (t_init c rest))
     | Some s => s end = lo n o).
  { destruct s as [o|]; cbn [option_map]; [exists o; repeat split; exact Hg|].
    cbn in Hs. subst b. eexists. split; [reflexivity|]. split.
    - unfold t_init. cbn. destruct (k - 1) eqn:Q; [lia|discriminate].
    - rewrite (map_ext (fun f => in_batch n (n, f)) (fun f => f)) by (intros; apply in_batch_same). rewrite map_id. reflexivity. }
  cbv zeta. destruct Hst as (o & -> & Ho & ->). cbn [lo o_buf o_idx o_str]. rewrite snd_pair, (batch_pair n _ Ho).
  rewrite mapM_put by exact Hb.
  assert (Hz : zlike (in_batch n (b, out0)) = tab (n :: cout :: osp) (fun _ => s0)).
  { unfold out0. rewrite <- (slice_in b y 0 Hb Hy). apply zlike_tab. }
  rewrite Hz.
  destruct (Z.eqb (o_str o) (Z.of_nat (t_s c) - 1)).
  - destruct (t_gather (o_buf o) (o_idx o) (k - 1)) as [g|e]; [|reflexivity]. cbn [bind].
    rewrite plus_in by exact Hb. cbn [bind]. rewrite (setz_map (pair n)).
    destruct (setz (o_buf o) (o_idx o) (map (fun f => in_batch n (b, f)) rest)) as [nb|e]; [|reflexivity]. cbn [bind lr option_map].
    destruct (t_b c); reflexivity.
  - cbn [bind]. rewrite (setz_map (pair n)).
    destruct (setz (o_buf o) (o_idx o) (map (fun f => in_batch n (b, f)) rest)) as [nb|e]; reflexivity.
Qed.

Lemma conv_keep x s y s' : good s -> t_fstep n sp c x s = Ok (y, s') -> exists t, s' = Some t /\ o_buf t <> [].
Proof.
  intros _. unfold t_fstep. rewrite stateful, k_ltb. destruct (t_one n sp c x); [|discriminate]. cbn [bind].
  set (st := match s with None => _ | Some s => s end). clearbody st.
  destruct (if Z.eqb (o_str st) _ then _ else _); [|discriminate]. cbn [bind].
  destruct (setz (o_buf st) (o_idx st) _) as [nb|e] eqn:E; [|discriminate]. cbn [bind].
  intros H. apply ok_inj in H. injection H as _ <-. eexists. split; [reflexivity|]. cbn. eapply setz_nonempty. exact E.
Qed.

Lemma conv_pad_in x : frame_ok n (cin :: sp) x ->
  frame_ok n (cin :: sp) (fst x, t_pad c (snd x)) /\ in_batch n (fst x, t_pad c (snd x)) = t_pad c (in_batch n x).
Proof.
  intros [Hb Hl]. unfold frame_ok, in_batch, t_pad. cbn [fst snd]. destruct (t_fill c).
  - unfold zlike. rewrite map_length. split; [split; assumption|]. destruct (Nat.eqb _ _); [reflexivity|symmetry; apply tile_map].
  - split; [split; assumption|reflexivity].
  - split; [split; assumption|reflexivity].
Qed.

Theorem conv_run x0 l : fst x0 = n -> Forall (fun a => Forall (frame_ok n (cin :: sp)) (bframes a)) (BStep x0 true :: l) ->
  brun (tb_forward_step sp c) (tb_forward_steps sp c) obj_init (BStep x0 true :: l) =
  ('(ys, o') <- brun (t_forward_step n sp c) (t_forward_steps n sp c) obj_init (map (bmap (in_batch n)) (BStep x0 true :: l)) ;;
   Ok (map (option_map (map (pair n))) ys, lo n o')).
Proof.
  intros H0 Hl. pose proof (Forall_inv Hl) as H1. pose proof (Forall_inv_tail Hl) as H2.
  exact (sim_first n (frame_ok n (cin :: sp)) _ _ _ _ conv_sim conv_keep conv_pad_in (t_p c) x0 l H0 (Forall_inv H1) H2).
Qed.

Theorem conv_stream T X Y m xs : t_forward n sp c T X = Ok Y -> m <= T ->
  Forall (frame_ok n (cin :: sp)) xs -> match xs with x0 :: _ => fst x0 = n | [] => True end ->
  map (in_batch n) xs = in_frames n sp c T X (seq 0 m) ->
  exists o, feed (fun o x => tb_forward_step sp c o x true) obj_init xs =
    Ok (map (fun i => option_map (pair n) (scheduled (t_delay c) (t_s c) (out_frames n sp c T Y) i)) (seq 0 m), o).
Proof.
  intros HY Hm Hx H0 Hf. destruct (tensor_step_thm n sp c OK T X Y m HY Hm) as (o & Ho). exists (lo n o).
  change (@obj_init (nat * list (list K))) with (lo n (@obj_init (list (list K)))).
  refine (eq_trans (sim_feed n (frame_ok n (cin :: sp)) _ _ conv_sim conv_keep xs obj_init Hx _) _).
  { destruct xs; exact H0 || exact I. }
  rewrite Hf. refine (eq_trans (f_equal (fun r => bind r _) Ho) _). cbn [bind]. now rewrite map_map.
Qed.

(** Objects that were fed. *)
Definition conv_inv (o : obj (list (list K))) : Prop :=
  length (o_buf o) = k - 1 /\ Forall (fun r => length r = k - 1) (o_buf o) /\ (0 <= o_idx o < Z.of_nat (k - 1))%Z.

Lemma conv_inv_step x s y s' : (forall o, s = Some o -> conv_inv o) -> t_fstep n sp c x s = Ok (y, s') -> exists t, s' = Some t /\ conv_inv t.
Proof.
  intros Hi. unfold t_fstep. rewrite stateful, k_ltb. destruct (t_one n sp c x) as [z|]; [|discriminate]. cbn [bind].
  set (rest := map _ (seq 1 (k - 1))). assert (Hr : length rest = k - 1) by (unfold rest; now rewrite map_length, seq_length).
  set (st := match s with None => _ | Some s => s end).
  assert (Hst : conv_inv st).
  { unfold st. destruct s as [o|]; [now apply Hi|]. unfold conv_inv, t_init. cbn. rewrite repeat_length. split; [reflexivity|].
    split; [|lia]. apply Forall_forall. intros r H. apply repeat_spec in H. subst r. now rewrite map_length. }
  clearbody st. destruct (if Z.eqb (o_str st) _ then _ else _); [|discriminate]. cbn [bind].
  destruct (setz (o_buf st) (o_idx st) rest) as [nb|e] eqn:E; [|discriminate]. cbn [bind].
  intros H. apply ok_inj in H. injection H as _ <-. eexists. split; [reflexivity|].
  destruct Hst as (A1 & A2 & A3). unfold setz in E. destruct (Z.ltb _ _); [discriminate|]. destruct (Nat.ltb _ _); [|discriminate].
  injection E as <-. split; [|split]; cbn.
  - rewrite <- A1. apply set_nth_length.
  - apply set_nth_Forall; assumption.
  - apply Z.mod_pos_bound. lia.
Qed.

Lemma gather_ok o : conv_inv o -> exists g, t_gather (o_buf o) (o_idx o) (k - 1) = Ok g.
Proof.
  intros (A1 & A2 & A3). unfold t_gather.
  assert (H : forall l, (forall m, In m l -> m < k - 1) -> exists g, mapM (fun m => row <- getz (o_buf o) ((Z.of_nat m + o_idx o) mod Z.of_nat (k - 1))%Z ;;
            getz row (Z.of_nat (k - 1 - 1 - m))) l = Ok g).
  { induction l as [|m l IH]; intros Hl; [eexists; reflexivity|]. cbn [mapM].
    pose proof (Z.mod_pos_bound (Z.of_nat m + o_idx o) (Z.of_nat (k - 1)) ltac:(lia)) as Hm.
    destruct (nth_error (o_buf o) (Z.to_nat ((Z.of_nat m + o_idx o) mod Z.of_nat (k - 1)))) as [row|] eqn:E.
    2: { apply nth_error_None in E. lia. }
    assert (getz (o_buf o) ((Z.of_nat m + o_idx o) mod Z.of_nat (k - 1)) = Ok row) as ->.
    { unfold getz. rewrite E. destruct (Z.ltb_spec ((Z.of_nat m + o_idx o) mod Z.of_nat (k - 1)) 0); [lia|reflexivity]. }
    cbn [bind]. apply nth_error_In in E. rewrite Forall_forall in A2. apply A2 in E.
    assert (Hlt : m < k - 1) by (apply Hl; left; reflexivity).
    destruct (nth_error row (Z.to_nat (Z.of_nat (k - 1 - 1 - m)))) as [f|] eqn:E2.
    2: { apply nth_error_None in E2. lia. }
    assert (getz row (Z.of_nat (k - 1 - 1 - m)) = Ok f) as ->.
    { unfold getz. rewrite E2. destruct (Z.ltb_spec (Z.of_nat (k - 1 - 1 - m)) 0); [lia|reflexivity]. }
    cbn [bind]. destruct IH as (g & ->); [intros; apply Hl; right; assumption|]. eexists. reflexivity. }
  apply H. intros m Hm. apply in_seq in Hm. lia.
Qed.

Lemma conv_bad o x : conv_inv o -> fst x <> n -> fst x <> 1 -> tb_fstep sp c x (Some (lo n o)) = Err RuntimeError.
Proof.
  intros Hi H1 H2. destruct x as [b x]. cbn [fst] in *. unfold tb_fstep. cbn [fst snd].
  assert (Ho : o_buf o <> []) by (destruct Hi as (A & _); intros Q; rewrite Q in A; cbn in A; lia).
  destruct (t_one b sp c x) as [y|e] eqn:E.
  2: { cbn [bind]. unfold t_one, convnd in E. destruct (t_mode c).
       - destruct (fits _ _ _ _ && _); [discriminate|injection E as <-; reflexivity].
       - destruct (forallb _ sp); [destruct (fits _ _ _ _ && _); [discriminate|]|]; injection E as <-; reflexivity.
       - destruct (forallb _ sp); [destruct (fits _ _ _ _ && _); [discriminate|]|]; injection E as <-; reflexivity. }
  cbn [bind lo o_buf o_idx o_str]. rewrite snd_pair, (batch_pair n _ Ho).
  destruct (gather_ok o Hi) as (g & ->). cbn [bind].
  assert (Hm : mapM (fun f => put n (b, f)) (map (slice2 b cout k osp y) (seq 1 (k - 1))) = Err RuntimeError).
  { destruct (k - 1) as [|j] eqn:Q; [lia|]. cbn [seq map mapM]. rewrite put_raises by assumption. reflexivity. }
  destruct (Z.eqb _ _).
  - unfold plus. cbn [fst snd]. destruct (Nat.eqb_spec b n); [contradiction|]. destruct (Nat.eqb_spec b 1); [contradiction|].
    destruct (Nat.eqb n 1); [|reflexivity]. cbn [bind]. rewrite Hm. reflexivity.
  - cbn [bind]. rewrite Hm. reflexivity.
Qed.

Theorem conv_raises x0 l ys o x xs pe upd : fst x0 = n ->
  Forall (fun a => Forall (frame_ok n (cin :: sp)) (bframes a)) (BStep x0 true :: l) ->
  brun (tb_forward_step sp c) (tb_forward_steps sp c) obj_init (BStep x0 true :: l) = Ok (ys, o) ->
  fst x <> n -> fst x <> 1 ->
  tb_forward_step sp c o x upd = Err RuntimeError /\ tb_forward_steps sp c o (x :: xs) pe upd = Err RuntimeError.
Proof.
  intros H0 Hl Hr H1 H2. rewrite (conv_run x0 l H0 Hl) in Hr.
  destruct (brun (t_forward_step n sp c) _ _ _) as [[zs o']|e] eqn:E; [|discriminate]. cbn [bind] in Hr. injection Hr as _ <-.
  assert (Hi : conv_inv o') by exact (inv_first conv_inv _ _ _ conv_inv_step _ _ _ _ E).
  apply raise_calls; [|apply conv_bad; assumption]. destruct Hi as (A & _). intros Q. rewrite Q in A. cbn in A. lia.
Qed.
End ConvB.

(** ** Pooling *)
Section PoolB.
Context {K : Type} {P : Pool K} {PL : PoolLaws K}.
Variables (n C : nat) (sp : list nat) (c : tpool).
Hypothesis OK : tpool_ok sp c.
Notation k := (p_k c).

Lemma poolnd_tile dims ks ss ps ds ceil cip div x : length x = size (1 :: C :: dims) ->
  poolnd n C dims ks ss ps ds ceil cip div (tile n x) = (y <- poolnd 1 C dims ks ss ps ds ceil cip div x ;; Ok (tile n y)).
Proof.
  intros Hx. unfold poolnd. destruct (fits dims ks ps ds && halves ks ps && forallb (Nat.leb 1) dims); [|reflexivity]. cbn [bind]. f_equal.
  apply tab_tile. intros i [|o q] Hi; [reflexivity|]. f_equal. unfold pool_elem. apply ksum_tab_ext.
  intros kp _. exact (at_tile n _ x i _ Hi Hx).
Qed.
Lemma space_in (x : bat K) : frame_ok n (C :: sp) x ->
  p_space n C sp c (in_batch n x) = (y <- p_space (fst x) C sp c (snd x) ;; Ok (in_batch n (fst x, y))).
Proof.
  destruct x as [b x]. intros [[H|H] Hl]; cbn [fst snd] in *; subst b.
  - rewrite in_batch_same. destruct (p_space n C sp c x); [|reflexivity]. cbn [bind]. now rewrite in_batch_same.
  - rewrite in_batch_one. unfold p_space. destruct (p_ks c); [cbn [bind]; now rewrite in_batch_one|].
    rewrite poolnd_tile by (rewrite Hl; reflexivity). destruct (poolnd 1 _ _ _ _ _ _ _ _ _ _); [|reflexivity]. cbn [bind]. now rewrite in_batch_one.
Qed.

Lemma pool_sim x s : frame_ok n (C :: sp) x -> good s -> starts n s [x] ->
  pb_fstep C sp c x (option_map (lo n) s) = lr n (p_fstep n C sp c (in_batch n x) s).
Proof.
  intros Hx Hg Hs. unfold pb_fstep, p_fstep, nd_fstep. rewrite space_in by exact Hx.
  destruct x as [b x]. pose proof (proj1 Hx) as Hb. cbn [fst snd] in *.
  destruct (p_space b C sp c x) as [y|e]; [|reflexivity]. cbn [bind]. fold (p_init c). unfold bat. cbv zeta.
  assert (Hst : exists o, match s with Some s => s | None => p_init c (in_batch n (b, y)) end = o /\ o_buf o <> [] /\
     match option_map (lo n) s with
     | Some s => s
     | None => Obj (map (fun r => (b, r)) (o_buf (p_init c y))) (o_idx (p_init c y)) (o_str (p_init c y)) end = lo n o).
  { destruct s as [o|]; cbn [option_map]; [exists o; repeat split; exact Hg|].
    cbn in Hs. subst b. eexists. split; [reflexivity|]. rewrite in_batch_same. split; [|reflexivity].
    unfold p_init, nd_init. cbn [o_buf]. rewrite Nat.add_comm. discriminate. }
  destruct Hst as (o & -> & Ho & ->). cbn [lo o_buf o_idx o_str]. rewrite (batch_pair n _ Ho), put_in by exact Hb. cbn [bind].
  rewrite (setz_map (pair n)). destruct (setz (o_buf o) (o_idx o) (in_batch n (b, y))) as [nb|e]; [|reflexivity]. cbn [bind lr option_map].
  rewrite snd_pair. unfold p_time. destruct (Z.eqb _ _); reflexivity.
Qed.
Lemma pool_keep x s y s' : good s -> p_fstep n C sp c x s = Ok (y, s') -> exists t, s' = Some t /\ o_buf t <> [].
Proof.
  intros _. unfold p_fstep, nd_fstep. destruct (p_space n C sp c x); [|discriminate]. cbn [bind].
  destruct (setz _ _ _) as [nb|e] eqn:E; [|discriminate]. cbn [bind].
  intros H. apply ok_inj in H. injection H as _ <-. eexists. split; [reflexivity|]. cbn. eapply setz_nonempty. exact E.
Qed.
Lemma pool_pad_in x : frame_ok n (C :: sp) x ->
  frame_ok n (C :: sp) (fst x, p_pad c (snd x)) /\ in_batch n (fst x, p_pad c (snd x)) = p_pad c (in_batch n x).
Proof.
  intros [Hb Hl]. unfold frame_ok, in_batch, p_pad, nd_pad. cbn [fst snd]. destruct (p_fill c).
  - rewrite map_length. split; [split; assumption|]. destruct (Nat.eqb _ _); [reflexivity|symmetry; apply tile_map].
  - split; [split; assumption|reflexivity].
  - rewrite map_length. split; [split; assumption|]. destruct (Nat.eqb _ _); [reflexivity|symmetry; apply tile_map].
Qed.

Theorem pool_run x0 l : fst x0 = n -> Forall (fun a => Forall (frame_ok n (C :: sp)) (bframes a)) (BStep x0 true :: l) ->
  brun (pb_forward_step C sp c) (pb_forward_steps C sp c) obj_init (BStep x0 true :: l) =
  ('(ys, o') <- brun (p_forward_step n C sp c) (p_forward_steps n C sp c) obj_init (map (bmap (in_batch n)) (BStep x0 true :: l)) ;;
   Ok (map (option_map (map (pair n))) ys, lo n o')).
Proof.
  intros H0 Hl. pose proof (Forall_inv Hl) as H1. pose proof (Forall_inv_tail Hl) as H2.
  exact (sim_first n (frame_ok n (C :: sp)) _ _ _ _ pool_sim pool_keep pool_pad_in (p_p c) x0 l H0 (Forall_inv H1) H2).
Qed.

Theorem pool_stream T X Y m xs : p_forward n C sp c T X = Ok Y -> m <= T ->
  Forall (frame_ok n (C :: sp)) xs -> match xs with x0 :: _ => fst x0 = n | [] => True end ->
  map (in_batch n) xs = pin_frames n C sp T X (seq 0 m) ->
  exists o, feed (fun o x => pb_forward_step C sp c o x true) obj_init xs =
    Ok (map (fun i => option_map (pair n) (scheduled (p_delay c) (p_s c) (pout_frames n C sp c T Y) i)) (seq 0 m), o).
Proof.
  intros HY Hm Hx H0 Hf. destruct (pool_tensor_step n C sp c OK T X Y m HY Hm) as (o & Ho). exists (lo n o).
  change (@obj_init (nat * list K)) with (lo n (@obj_init (list K))).
  refine (eq_trans (sim_feed n (frame_ok n (C :: sp)) _ _ pool_sim pool_keep xs obj_init Hx _) _).
  { destruct xs; exact H0 || exact I. }
  rewrite Hf. refine (eq_trans (f_equal (fun r => bind r _) Ho) _). cbn [bind]. now rewrite map_map.
Qed.

Lemma pool_bad o x : o_buf o <> [] -> fst x <> n -> fst x <> 1 -> pb_fstep C sp c x (Some (lo n o)) = Err RuntimeError.
Proof.
  intros Ho H1 H2. destruct x as [b x]. cbn [fst] in *. unfold pb_fstep. cbn [fst snd].
  destruct (p_space b C sp c x) as [y|e] eqn:E.
  - cbn [bind lo o_buf o_idx o_str]. rewrite (batch_pair n _ Ho), put_raises by assumption. reflexivity.
  - cbn [bind]. unfold p_space in E. destruct (p_ks c); [discriminate|]. unfold poolnd in E.
    destruct (fits _ _ _ _ && _ && _); [discriminate|injection E as <-; reflexivity].
Qed.

Theorem pool_raises x0 l ys o x xs pe upd : fst x0 = n ->
  Forall (fun a => Forall (frame_ok n (C :: sp)) (bframes a)) (BStep x0 true :: l) ->
  brun (pb_forward_step C sp c) (pb_forward_steps C sp c) obj_init (BStep x0 true :: l) = Ok (ys, o) ->
  fst x <> n -> fst x <> 1 ->
  pb_forward_step C sp c o x upd = Err RuntimeError /\ pb_forward_steps C sp c o (x :: xs) pe upd = Err RuntimeError.
Proof.
  intros H0 Hl Hr H1 H2. rewrite (pool_run x0 l H0 Hl) in Hr.
  destruct (brun (p_forward_step n C sp c) _ _ _) as [[zs o']|e] eqn:E; [|discriminate]. cbn [bind] in Hr. injection Hr as _ <-.
  assert (Ho : o_buf o' <> []).
  { refine (inv_first (fun o => o_buf o <> []) _ _ _ _ _ _ _ _ E). intros z s y s' _ Hz.
    unfold p_fstep, nd_fstep in Hz. destruct (p_space n C sp c z); [|discriminate]. cbn [bind] in Hz.
    destruct (setz _ _ _) as [nb|e] eqn:Q; [|discriminate]. cbn [bind] in Hz.
    apply ok_inj in Hz. injection Hz as _ <-. eexists. split; [reflexivity|]. cbn. eapply setz_nonempty. exact Q. }
  apply raise_calls; [|apply pool_bad]; assumption.
Qed.
End PoolB.

(** ** Delay *)
Section DelayB.
Context {K : Type} {SC : Scal K} {SL : ScalLaws K}.
Variables (n d : nat) (fl : fill) (s : list nat).
Hypothesis D1 : 1 <= d.

Lemma delay_sim x st : frame_ok n s x -> good st -> starts n st [x] ->
  db_fstep d fl x (option_map (lo n) st) = lr n (kd_fstep d fl (in_batch n x) st).
Proof.
  intros Hx Hg Hs. unfold db_fstep, kd_fstep. destruct (Nat.eqb_spec d 0); [lia|].
  destruct x as [b x]. pose proof (proj1 Hx) as Hb. cbn [fst snd] in *. unfold bat. cbv zeta.
  assert (Hst : exists o, match st with None => kd_init d fl (in_batch n (b, x)) | Some s => s end = o /\ o_buf o <> [] /\
     match option_map (lo n) st with
     | Some s => s
     | None => Obj (map (fun r => (b, r)) (o_buf (kd_init d fl x))) (o_idx (kd_init d fl x)) (o_str (kd_init d fl x)) end = lo n o).
  { destruct st as [o|]; cbn [option_map]; [exists o; repeat split; exact Hg|].
    cbn in Hs. subst b. eexists. split; [reflexivity|]. rewrite in_batch_same. split; [|reflexivity].
    unfold kd_init. cbn [o_buf]. destruct d; [lia|discriminate]. }
  destruct Hst as (o & -> & Ho & ->). cbn [lo o_buf o_idx o_str]. rewrite (batch_pair n _ Ho), put_in by exact Hb.
  rewrite (getz_map (pair n)). destruct (Z.leb 0 (o_idx o)).
  - destruct (getz (o_buf o) (o_idx o)) as [y|e]; [|reflexivity]. cbn [bind].
    rewrite (setz_map (pair n)). destruct (setz (o_buf o) _ (in_batch n (b, x))) as [nb|e]; reflexivity.
  - cbn [bind]. rewrite (setz_map (pair n)). destruct (setz (o_buf o) _ (in_batch n (b, x))) as [nb|e]; reflexivity.
Qed.
Lemma delay_keep x (st : option (obj (list K))) y st' : kd_fstep d fl x st = Ok (y, st') -> exists t, st' = Some t /\ o_buf t <> [].
Proof.
  unfold kd_fstep. destruct (Nat.eqb_spec d 0); [lia|]. destruct (if Z.leb _ _ then _ else _); [|discriminate]. cbn [bind].
  destruct (setz _ _ _) as [nb|e] eqn:E; [|discriminate]. cbn [bind].
  intros H. apply ok_inj in H. injection H as _ <-. eexists. split; [reflexivity|]. cbn. eapply setz_nonempty. exact E.
Qed.
Lemma delay_pad_in x : frame_ok n s x ->
  frame_ok n s (fst x, kfill fl (snd x)) /\ in_batch n (fst x, kfill fl (snd x)) = kfill fl (in_batch n x).
Proof.
  intros [Hb Hl]. unfold frame_ok, in_batch, kfill, zlike. cbn [fst snd]. destruct fl.
  - rewrite map_length. split; [split; assumption|]. destruct (Nat.eqb _ _); [reflexivity|symmetry; apply tile_map].
  - split; [split; assumption|reflexivity].
  - split; [split; assumption|reflexivity].
Qed.

Lemma kd_run_eq l : forall o, brun (kd_forward_step d fl) (kd_forward_steps d fl) o l =
  brun (fun o x u => co_forward_step obj_get obj_set (kd_fstep d fl) o x u)
       (fun o xs e u => co_forward_steps obj_get obj_set (kd_fstep d fl) (kfill fl) d o xs e u) o (l : list (bcall (list K))).
Proof.
  assert (E : Nat.eqb d 0 = false) by (destruct (Nat.eqb_spec d 0); [lia|reflexivity]).
  induction l as [|a l IH]; intros o; [reflexivity|]. cbn [brun].
  assert (Ha : bdo (kd_forward_step d fl) (kd_forward_steps d fl) o a =
     bdo (fun o x u => co_forward_step obj_get obj_set (kd_fstep d fl) o x u)
         (fun o xs e u => co_forward_steps obj_get obj_set (kd_fstep d fl) (kfill fl) d o xs e u) o a).
  { destruct a; cbn [bdo]; unfold kd_forward_step, kd_forward_steps; rewrite E; reflexivity. }
  rewrite Ha. clear Ha. destruct (bdo _ _ o a) as [[y o1]|e]; [|reflexivity]. cbn [bind]. rewrite IH. reflexivity.
Qed.

Theorem delay_run x0 l : fst x0 = n -> Forall (fun a => Forall (frame_ok n s) (bframes a)) (BStep x0 true :: l) ->
  brun (db_forward_step d fl) (db_forward_steps d fl) obj_init (BStep x0 true :: l) =
  ('(ys, o') <- brun (kd_forward_step d fl) (kd_forward_steps d fl) obj_init (map (bmap (in_batch n)) (BStep x0 true :: l)) ;;
   Ok (map (option_map (map (pair n))) ys, lo n o')).
Proof.
  intros H0 Hl. pose proof (Forall_inv Hl) as H1. pose proof (Forall_inv_tail Hl) as H2. rewrite kd_run_eq.
  exact (sim_first n (frame_ok n s) _ _ _ _ delay_sim (fun x st y st' _ => delay_keep x st y st') delay_pad_in d x0 l H0 (Forall_inv H1) H2).
Qed.

Lemma kd_fifo (xs : list (list K)) :
  exists o, feed (fun o x => co_forward_step obj_get obj_set (kd_fstep d fl) o x true) obj_init xs =
    Ok (map (fun i => if Nat.ltb i d then None else nth_error xs (i - d)) (seq 0 (length xs)), o).
Proof.
  assert (Eb : Nat.eqb d 0 = false) by (destruct (Nat.eqb_spec d 0); [lia|reflexivity]).
  destruct (delay_fifo_thm (F := pf K) d fl ShNo (map FT xs) ltac:(discriminate)) as (o & Ho).
  unfold delay_forward_step in Ho. rewrite Eb in Ho.
  pose proof (s_feed RD RD (rel_obj RD) (rel_obj RD) obj_get obj_get obj_set obj_set (delay_fstep d fl ShNo) (kd_fstep d fl)
    (r_obj_get _) (fun _ _ _ _ _ H => H) (kd_rel d fl) _ _ obj_init obj_init (rd_refls xs) (r_obj_init _)) as HR.
  rewrite Ho, map_length in HR. inversion HR as [a b Hab Ea Ec|]; subst. destruct b as [os' o']. destruct Hab as [Hos Ho']. cbn [fst snd] in *.
  exists o'. do 2 f_equal. symmetry.
  erewrite <- (map_id (map _ (seq 0 _))). etransitivity; [|apply rd_eqso].
  - apply map_ext. intros [u|]; reflexivity.
  - rewrite map_map. erewrite map_ext; [exact Hos|]. intros i. cbn beta. destruct (Nat.ltb i d); [reflexivity|]. symmetry. apply nth_error_map.
Qed.

Theorem delay_stream xs : Forall (frame_ok n s) xs -> match xs with x0 :: _ => fst x0 = n | [] => True end ->
  exists o, feed (fun o x => db_forward_step d fl o x true) obj_init xs =
    Ok (map (fun i => if Nat.ltb i d then None else option_map (fun x => (n, in_batch n x)) (nth_error xs (i - d))) (seq 0 (length xs)), o).
Proof.
  intros Hx H0. destruct (kd_fifo (map (in_batch n) xs)) as (o & Ho). exists (lo n o).
  change (@obj_init (bat K)) with (lo n (@obj_init (list K))).
  refine (eq_trans (sim_feed n (frame_ok n s) _ _ delay_sim (fun x st y st' _ => delay_keep x st y st') xs obj_init Hx _) _).
  { destruct xs; exact H0 || exact I. }
  refine (eq_trans (f_equal (fun r => bind r _) Ho) _). cbn [bind]. rewrite map_map, map_length. do 2 f_equal.
  apply map_ext. intros i. destruct (Nat.ltb i d); [reflexivity|]. rewrite nth_error_map. destruct (nth_error xs (i - d)); reflexivity.
Qed.

Lemma delay_bad o x : o_buf o <> [] -> (o_idx o < Z.of_nat (length (o_buf o)))%Z -> fst x <> n -> fst x <> 1 ->
  db_fstep d fl x (Some (lo n o)) = Err RuntimeError.
Proof.
  intros Ho Hi H1 H2. destruct x as [b x]. cbn [fst] in *. unfold db_fstep, bat.
  cbn [fst snd bind lo o_buf o_idx o_str]. rewrite (batch_pair n _ Ho), put_raises by assumption.
  rewrite (getz_map (pair n)). destruct (Z.leb_spec 0 (o_idx o)) as [Hz|Hz]; [|reflexivity].
  unfold getz. destruct (Z.ltb_spec (o_idx o) 0); [lia|].
  destruct (nth_error (o_buf o) (Z.to_nat (o_idx o))) as [y|] eqn:Q; [reflexivity|]. apply nth_error_None in Q. lia.
Qed.
Definition delay_inv (o : obj (list K)) : Prop := length (o_buf o) = d /\ (o_idx o < Z.of_nat d)%Z.
Lemma delay_inv_step x st y st' : (forall o, st = Some o -> delay_inv o) -> kd_fstep d fl x st = Ok (y, st') -> exists t, st' = Some t /\ delay_inv t.
Proof.
  intros Hi. unfold kd_fstep. destruct (Nat.eqb_spec d 0); [lia|]. set (o := match st with None => _ | Some s => s end).
  assert (Ho : delay_inv o). { unfold o. destruct st; [now apply Hi|]. split; cbn; [apply repeat_length|lia]. }
  clearbody o. destruct (if Z.leb _ _ then _ else _); [|discriminate]. cbn [bind].
  destruct (setz _ _ _) as [nb|e] eqn:E; [|discriminate]. cbn [bind].
  intros H. apply ok_inj in H. injection H as _ <-. eexists. split; [reflexivity|]. destruct Ho as [A1 A2].
  unfold setz in E. destruct (Z.ltb _ _); [discriminate|]. destruct (Nat.ltb _ _); [|discriminate]. injection E as <-.
  split; cbn; [rewrite set_nth_length; exact A1|]. destruct (Z.ltb_spec 0 (o_idx o + 1)); [apply Z.mod_pos_bound; lia|lia].
Qed.

Theorem delay_raises x0 l ys o x xs pe upd : fst x0 = n ->
  Forall (fun a => Forall (frame_ok n s) (bframes a)) (BStep x0 true :: l) ->
  brun (db_forward_step d fl) (db_forward_steps d fl) obj_init (BStep x0 true :: l) = Ok (ys, o) ->
  fst x <> n -> fst x <> 1 ->
  db_forward_step d fl o x upd = Err RuntimeError /\ db_forward_steps d fl o (x :: xs) pe upd = Err RuntimeError.
Proof.
  intros H0 Hl Hr H1 H2. rewrite (delay_run x0 l H0 Hl), kd_run_eq in Hr.
  destruct (brun _ _ _ _) as [[zs o']|e] eqn:E; [|discriminate]. cbn [bind] in Hr. injection Hr as _ <-.
  destruct (inv_first delay_inv _ _ _ delay_inv_step _ _ _ _ E) as [A1 A2].
  assert (Ho : o_buf o' <> []) by (intros Q; rewrite Q in A1; cbn in A1; lia).
  apply raise_calls; [exact Ho|apply delay_bad; try assumption]. rewrite A1. exact A2.
Qed.
End DelayB.
