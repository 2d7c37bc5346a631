(** Derivatives in the sense of analysis: frames are families of real numbers. *)
From Coq Require Import List ZArith Bool Arith Lia Reals Lra.
From Verif Require Import Base Frames CoMod Leaf Rnn Net Spec LeafSpec NetSpec Calls NetDef NetRel Batch.
From Verif Require Import Grad GradSpec GradProof.
Import ListNotations.

Section Real.
Context {I : Type}.   (* the entries of a frame *)

(** There is no real number below all others: padding with minus infinity is not
    covered, and [finf] is a placeholder. *)
#[export] Instance real_frames : Frames (I -> R) :=
  {| f0 := fun _ => 0%R; finf := fun _ => 0%R; fadd a b := fun i => (a i + b i)%R |}.

(** The value at [0] and the derivative there, entry by entry. *)
Definition deriv (g : R -> I -> R) (p : dual (I -> R)) : Prop :=
  forall i, g 0%R i = pri p i /\ derivable_pt_lim (fun t => g t i) 0 (tan p i).

(** A frame that moves along a line. *)
Definition line (p : dual (I -> R)) : R -> I -> R := fun t i => (pri p i + t * tan p i)%R.

(** A linear operation on frames: entry [j] of the result is the sum of finitely
    many entries of the frame, those in [L j], times weights [w j l]. *)
Definition rsum (l : list R) : R := fold_right Rplus 0%R l.
Definition lin (L : I -> list I) (w : I -> I -> R) (x : I -> R) : I -> R :=
  fun j => rsum (map (fun l => (w j l * x l)%R) (L j)).

(** Average pooling with kernel size [k]. *)
Definition ravg (k : nat) (l : list (I -> R)) : I -> R := fun i => (rsum (map (fun x => x i) l) / INR k)%R.

Lemma dpl_eq f g x a b : derivable_pt_lim f x a -> (forall t, f t = g t) -> a = b -> derivable_pt_lim g x b.
Proof. intros H E <-. intros e He. destruct (H e He) as [d Hd]. exists d. intros h H1 H2. rewrite <- !E. auto. Qed.

Theorem real_tangency : tangency deriv.
Proof.
  split.
  - intros i. split; [reflexivity|]. apply derivable_pt_lim_const.
  - intros g h p q Hg Hh i. destruct (Hg i) as [G1 G2], (Hh i) as [H1 H2]. split; cbn; [congruence|].
    apply (derivable_pt_lim_plus (fun t => g t i) (fun t => h t i)); auto.
Qed.

Lemma line_deriv p : deriv (line p) p.
Proof.
  intros i. unfold line. split; [ring|].
  apply (dpl_eq (plus_fct (fct_cte (pri p i)) (mult_fct id (fct_cte (tan p i)))) _ _ (0 + (1 * tan p i + 0 * 0))%R); [|reflexivity|ring].
  apply derivable_pt_lim_plus; [apply derivable_pt_lim_const|].
  replace (1 * tan p i + 0 * 0)%R with (1 * fct_cte (tan p i) 0%R + id 0%R * 0)%R by reflexivity.
  apply derivable_pt_lim_mult; [apply derivable_pt_lim_id|apply derivable_pt_lim_const].
Qed.

Lemma rsum_deriv {A} (l : list A) (f : A -> R -> R) (d : A -> R) :
  (forall a, In a l -> derivable_pt_lim (f a) 0 (d a)) ->
  derivable_pt_lim (fun t => rsum (map (fun a => f a t) l)) 0 (rsum (map d l)).
Proof.
  induction l as [|a l IH]; intros H; cbn [map rsum fold_right]; [apply derivable_pt_lim_const|].
  apply (derivable_pt_lim_plus (f a) (fun t => rsum (map (fun a => f a t) l))); [apply H; now left|].
  apply IH. intros b Hb. apply H. now right.
Qed.
Lemma rsum_plus {A} (l : list A) f g : rsum (map (fun a => (f a + g a)%R) l) = (rsum (map f l) + rsum (map g l))%R.
Proof. induction l as [|a l IH]; cbn [map rsum fold_right]; [ring|]. fold (rsum (map (fun a => (f a + g a)%R) l)). rewrite IH. fold (rsum (map f l)) (rsum (map g l)). ring. Qed.
Lemma rsum_ext {A} (l : list A) f g : (forall a, In a l -> f a = g a) -> rsum (map f l) = rsum (map g l).
Proof. intros H. f_equal. now apply map_ext_in. Qed.

Lemma mult_deriv f g a b : derivable_pt_lim f 0 a -> derivable_pt_lim g 0 b ->
  derivable_pt_lim (fun t => (f t * g t)%R) 0 (f 0%R * b + a * g 0%R)%R.
Proof.
  intros Hf Hg. apply (dpl_eq (mult_fct f g) _ _ (a * g 0%R + f 0%R * b)%R); [|reflexivity|ring]. now apply derivable_pt_lim_mult.
Qed.

(** The product rule for linear operations whose weights move. *)
Theorem lin_deriv L (w : R -> I -> I -> R) (dw : I -> I -> R) g p :
  (forall j l, derivable_pt_lim (fun t => w t j l) 0 (dw j l)) -> deriv g p ->
  deriv (fun t => lin L (w t) (g t)) (Du (lin L (w 0%R) (pri p)) (fadd (lin L (w 0%R) (tan p)) (lin L dw (pri p)))).
Proof.
  intros Hw Hg j. unfold lin. cbn [pri tan fadd real_frames]. split.
  - apply rsum_ext. intros l _. destruct (Hg l) as [-> _]. reflexivity.
  - rewrite <- rsum_plus. apply (rsum_deriv (L j) (fun l t => (w t j l * g t l)%R)). intros l _. destruct (Hg l) as [E D].
    rewrite <- E. apply (mult_deriv (fun t => w t j l) (fun t => g t l)); [apply Hw|exact D].
Qed.

(** A convolution: every tap is such an operation. *)
Definition rconv (k s p : nat) (L : nat -> I -> list I) (w : nat -> I -> I -> R) (b : option (I -> R)) (mo fi : fill) : conv_cfg (I -> R) :=
  {| ck := k; cs := s; cp := p; cW i := lin (L i) (w i); cb := b; cmode := mo; cfill := fi |}.

Lemma deriv_inf : deriv (fun _ => finf) finf.
Proof. intros i. split; [reflexivity|]. apply derivable_pt_lim_const. Qed.

Theorem conv_deriv k s p L (w : R -> nat -> I -> I -> R) dw (b : R -> I -> R) db mo fi :
  (forall i j l, derivable_pt_lim (fun t => w t i j l) 0 (dw i j l)) ->
  (forall j, derivable_pt_lim (fun t => b t j) 0 (db j)) ->
  moves_conv deriv (fun t => rconv k s p L (w t) (Some (b t)) mo fi)
    (dual_conv (rconv k s p L (w 0%R) (Some (b 0%R)) mo fi) (fun i => lin (L i) (dw i)) db).
Proof.
  intros Hw Hb. split; cbn.
  - intros t. repeat split.
  - intros _. apply deriv_inf.
  - intros _. apply deriv_inf.
  - intros i g q Hg. apply (lin_deriv (L i) (fun t => w t i)); auto.
  - exists b. split; [reflexivity|]. intros j. split; [reflexivity|]. apply Hb.
Qed.

(** The chain rule for a function applied to every entry. *)
Theorem act_deriv (f f' : R -> R) g p : (forall x, derivable_pt_lim f x (f' x)) -> deriv g p ->
  deriv (fun t i => f (g t i)) (dual_map (fun x i => f (x i)) (fun x dx i => f' (x i) * dx i)%R p).
Proof.
  intros Hf Hg i. destruct (Hg i) as [E D]. cbn. split; [congruence|].
  apply (derivable_pt_lim_comp (fun t => g t i) f); [exact D|]. rewrite E. apply Hf.
Qed.

(** Linear layers. *)
Theorem linear_deriv L (w : R -> I -> I -> R) dw (b : R -> I -> R) db g p :
  (forall j l, derivable_pt_lim (fun t => w t j l) 0 (dw j l)) -> (forall j, derivable_pt_lim (fun t => b t j) 0 (db j)) -> deriv g p ->
  deriv (fun t => fadd (lin L (w t) (g t)) (b t))
    (Du (fadd (lin L (w 0%R) (pri p)) (b 0%R)) (fadd (fadd (lin L (w 0%R) (tan p)) (lin L dw (pri p))) db)).
Proof.
  intros Hw Hb Hg.
  apply (tg_add deriv real_tangency (fun t => lin L (w t) (g t)) b
           (Du (lin L (w 0%R) (pri p)) (fadd (lin L (w 0%R) (tan p)) (lin L dw (pri p)))) (Du (b 0%R) db)).
  - now apply lin_deriv.
  - intros j. split; [reflexivity|]. apply Hb.
Qed.

Theorem avg_deriv k s p fi : moves_pool deriv
  (fun _ => {| pk := k; ps := s; pp := p; pd := 1; psp := fun x => x; pagg := ravg k; pfill := fi; pmode := Zeros; pfdil := 1 |})
  (dual_pool {| pk := k; ps := s; pp := p; pd := 1; psp := fun x => x; pagg := ravg k; pfill := fi; pmode := Zeros; pfdil := 1 |}).
Proof.
  split; cbn.
  - intros t. repeat split.
  - intros _. apply deriv_inf.
  - intros _. apply deriv_inf.
  - intros g [x dx] H. exact H.
  - intros gs ps H i. unfold ravg. cbn [pri tan].
    assert (X : rsum (map (fun x => x i) (map (at_ 0%R) gs)) = rsum (map (fun x => x i) (map pri ps)) /\
      derivable_pt_lim (fun t => rsum (map (fun x => x i) (map (at_ t) gs))) 0 (rsum (map (fun x => x i) (map tan ps)))).
    { induction H as [|g q gs ps Hg _ [IH1 IH2]]; cbn [map rsum fold_right]; [split; [reflexivity|apply derivable_pt_lim_const]|].
      destruct (Hg i) as [E D]. split.
      - unfold at_ at 1. rewrite E. f_equal. exact IH1.
      - apply (derivable_pt_lim_plus (fun t => g t i) (fun t => rsum (map (fun x => x i) (map (at_ t) gs)))); [exact D|exact IH2]. }
    destruct X as [X1 X2]. split; [now rewrite X1|]. unfold Rdiv.
    apply (dpl_eq (mult_real_fct (/ INR k) (fun t => rsum (map (fun x => x i) (map (at_ t) gs)))) _ _ (/ INR k * rsum (map (fun x => x i) (map tan ps)))%R);
      [|intros t; unfold mult_real_fct; ring|ring].
    now apply derivable_pt_lim_scal.
Qed.

(** Average pooling over time and space: [lin L w] is the average over the windows of a frame. *)
Theorem avg_deriv_spatial k s p L w fi : moves_pool deriv
  (fun _ => {| pk := k; ps := s; pp := p; pd := 1; psp := lin L w; pagg := ravg k; pfill := fi; pmode := Zeros; pfdil := 1 |})
  (dual_pool {| pk := k; ps := s; pp := p; pd := 1; psp := lin L w; pagg := ravg k; pfill := fi; pmode := Zeros; pfdil := 1 |}).
Proof.
  split; cbn.
  - intros t. repeat split.
  - intros _. apply deriv_inf.
  - intros _. apply deriv_inf.
  - intros g [x dx] H j. unfold lin. cbn [pri tan] in *. split.
    + apply rsum_ext. intros l _. destruct (H l) as [E _]. cbn [pri] in E. rewrite <- E. reflexivity.
    + apply (rsum_deriv (L j) (fun l t => (w j l * g t l)%R)). intros l _. destruct (H l) as [E D]. cbn [tan] in D.
      apply (derivable_pt_lim_scal (fun t => g t l) (w j l)). exact D.
  - intros gs ps H i. unfold ravg. cbn [pri tan].
    assert (X : rsum (map (fun x => x i) (map (at_ 0%R) gs)) = rsum (map (fun x => x i) (map pri ps)) /\
      derivable_pt_lim (fun t => rsum (map (fun x => x i) (map (at_ t) gs))) 0 (rsum (map (fun x => x i) (map tan ps)))).
    { induction H as [|g q gs ps Hg _ [IH1 IH2]]; cbn [map rsum fold_right]; [split; [reflexivity|apply derivable_pt_lim_const]|].
      destruct (Hg i) as [E D]. split.
      - unfold at_ at 1. rewrite E. f_equal. exact IH1.
      - apply (derivable_pt_lim_plus (fun t => g t i) (fun t => rsum (map (fun x => x i) (map (at_ t) gs)))); [exact D|exact IH2]. }
    destruct X as [X1 X2]. split; [now rewrite X1|]. unfold Rdiv.
    apply (dpl_eq (mult_real_fct (/ INR k) (fun t => rsum (map (fun x => x i) (map (at_ t) gs)))) _ _ (/ INR k * rsum (map (fun x => x i) (map tan ps)))%R);
      [|intros t; unfold mult_real_fct; ring|ring].
    now apply derivable_pt_lim_scal.
Qed.

(** Sums and products of branches. *)
Definition rsum_red : red (I -> R) := {| r_op a b := fun i => (a i + b i)%R; r_bcast := true; r_min2 := true |}.
Definition rsum_red' : red (dual (I -> R)) := {| r_op a b := fadd a b; r_bcast := true; r_min2 := true |}.
Definition rmul_red : red (I -> R) := {| r_op a b := fun i => (a i * b i)%R; r_bcast := true; r_min2 := true |}.
Definition rmul_red' : red (dual (I -> R)) :=
  {| r_op a b := Du (fun i => pri a i * pri b i)%R (fun i => pri a i * tan b i + tan a i * pri b i)%R; r_bcast := true; r_min2 := true |}.
Theorem sum_deriv : moves_red deriv (fun _ => rsum_red) rsum_red'.
Proof. split; [intros; split; reflexivity|]. intros g h p q. apply real_tangency. Qed.
Theorem mul_deriv : moves_red deriv (fun _ => rmul_red) rmul_red'.
Proof.
  split; [intros; split; reflexivity|]. intros g h p q Hg Hh i. destruct (Hg i) as [G1 G2], (Hh i) as [H1 H2]. cbn.
  split; [congruence|]. rewrite <- G1, <- H1. apply (mult_deriv (fun t => g t i) (fun t => h t i)); auto.
Qed.

(** An Elman cell (torch.nn.RNN, rnn.py:204-228): the new hidden state is also the output. *)
Definition rcell (f : R -> R) L (w : I -> I -> R) L' (u : I -> I -> R) (b : I -> R) : hid (I -> R) -> (I -> R) -> hid (I -> R) * (I -> R) :=
  fun h x => let y := fun i => f (lin L w (nth 0 h f0) i + lin L' u x i + b i)%R in ([y], y).
Definition rcell' (f f' : R -> R) L (w dw : I -> I -> R) L' (u du : I -> I -> R) (b db : I -> R)
  : hid (dual (I -> R)) -> dual (I -> R) -> hid (dual (I -> R)) * dual (I -> R) :=
  fun h x => let k := nth 0 h f0 in
    let a := fun i => (lin L w (pri k) i + lin L' u (pri x) i + b i)%R in
    let y := Du (fun i => f (a i))
      (fun i => f' (a i) * (lin L w (tan k) i + lin L dw (pri k) i + (lin L' u (tan x) i + lin L' du (pri x) i) + db i))%R in
    ([y], y).
Theorem cell_deriv f f' L (w : R -> I -> I -> R) dw L' (u : R -> I -> I -> R) du (b : R -> I -> R) db :
  (forall x, derivable_pt_lim f x (f' x)) ->
  (forall j l, derivable_pt_lim (fun t => w t j l) 0 (dw j l)) -> (forall j l, derivable_pt_lim (fun t => u t j l) 0 (du j l)) ->
  (forall j, derivable_pt_lim (fun t => b t j) 0 (db j)) ->
  moves_cell deriv (fun t => rcell f L (w t) L' (u t) (b t)) (rcell' f f' L (w 0%R) dw L' (u 0%R) du (b 0%R) db).
Proof.
  intros Hf Hw Hu Hb. split; [exists 1; split; reflexivity|]. intros hs ps g p Hh Hg.
  assert (N : deriv (fun t => nth 0 (map (at_ t) hs) f0) (nth 0 ps f0)).
  { destruct Hh; cbn [nth map]; [apply real_tangency|exact H]. }
  pose proof (tg_add deriv real_tangency _ _ _ _ (lin_deriv L w dw _ _ Hw N) (lin_deriv L' u du _ _ Hu Hg)) as S.
  assert (B : deriv b (Du (b 0%R) db)) by (intros j; split; [reflexivity|apply Hb]).
  pose proof (act_deriv f f' _ _ Hf (tg_add deriv real_tangency _ _ _ _ S B)) as A.
  assert (Y : deriv (fun t i => f (lin L (w t) (nth 0 (map (at_ t) hs) f0) i + lin L' (u t) (g t) i + b t i)%R)
    (snd (rcell' f f' L (w 0%R) dw L' (u 0%R) du (b 0%R) db ps p))) by exact A.
  split; [exact Y|]. intros [|[|k]]; [exact Y| |]; apply real_tangency.
Qed.

(** Derivatives are unique. *)
Theorem deriv_unique g p q : deriv g p -> deriv g q -> forall i, pri p i = pri q i /\ tan p i = tan q i.
Proof.
  intros Hp Hq i. destruct (Hp i) as [P1 P2], (Hq i) as [Q1 Q2]. split; [congruence|]. eapply uniqueness_limite; eauto.
Qed.

End Real.
