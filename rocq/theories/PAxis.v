(** C86: converted modules that work along dimensions (Softmax, LayerNorm). *)
From Coq Require Import List ZArith Bool Arith Lia QArith Qcanon.
From Verif Require Import Base Frames Tensor TensorProof Axis AxisProof.
Import ListNotations.
Open Scope nat_scope.

(** What the modules compute, entry by entry: along dimension [d] the entries whose index differs
    from [ix] at position [d] only; LayerNorm the block of the last dimensions that holds the entry. *)
Theorem C86_entry :
  forall (K : Type) (SC : Scal K) dim d g sh (x : list K) ix,
    dimension (length sh) dim = Ok d -> inr ix sh ->
    exists y, dim_module dim g sh x = Ok y /\ length y = size sh
      /\ at_ sh y (map Z.of_nat ix)
         = g (map (fun j => at_ sh x (map Z.of_nat (firstn d ix ++ j :: skipn (S d) ix))) (seq 0 (nth d sh 0))) [nth d ix 0].
Proof. intros K SC dim d g sh x ix Hd Hx. apply dim_entry; [exact Hd| |exact Hx]. pose proof (dimension_all (length sh) dim) as H. rewrite Hd in H. exact (proj1 H). Qed.
Print Assumptions C86_entry.
Theorem C86_layer_norm_entry :
  forall (K : Type) (SC : Scal K) os ns g (x : list K) q p, inr q os -> inr p ns ->
    exists y, layer_norm ns g (os ++ ns) x = Ok y /\ length y = size (os ++ ns)
      /\ at_ (os ++ ns) y (map Z.of_nat (q ++ p)) = g (tab ns (fun r => at_ (os ++ ns) x (map Z.of_nat (q ++ r)))) p.
Proof. intros. apply ln_entry; assumption. Qed.
Print Assumptions C86_layer_norm_entry.

(** The dimension a number means. *)
Theorem C86_dimension :
  forall rank dim,
    match dimension rank dim with
    | Ok d => d < rank /\ (dim = Z.of_nat d \/ dim = Z.of_nat d - Z.of_nat rank)%Z
    | Err e => e = IndexError /\ (dim < - Z.of_nat rank \/ Z.of_nat rank <= dim)%Z
    end.
Proof. exact dimension_all. Qed.
Print Assumptions C86_dimension.

(** Numbers out of range raise IndexError. *)
Theorem C86_wrong_dimension :
  forall (K : Type) (SC : Scal K) dim g sh (x : list K),
    (dim < - Z.of_nat (length sh) \/ Z.of_nat (length sh) <= dim)%Z -> dim_module dim g sh x = Err IndexError.
Proof.
  intros K SC dim g sh x H. apply dim_err. pose proof (dimension_all (length sh) dim) as D.
  destruct (dimension (length sh) dim) as [d|e]; [exfalso; lia|]. destruct D as [-> _]. reflexivity.
Qed.
Print Assumptions C86_wrong_dimension.

(** Along a dimension other than time, the steps are the frames of forward. *)
Theorem C86_other_dimensions :
  forall (K : Type) (SC : Scal K) B C T sp dim d g (X : list K),
    dimension (3 + length sp) dim = Ok d -> d <> 2 ->
    exists y, dim_module dim g (B :: C :: T :: sp) X = Ok y
      /\ forall t, t < T -> dim_module dim g (B :: C :: 1 :: sp) (slice2 B C T sp X t) = Ok (slice2 B C T sp y t).
Proof. intros. eapply dim_agree; eassumption. Qed.
Print Assumptions C86_other_dimensions.

(** The numbers that mean time: 2 and, counted from the end, 2 - rank. *)
Theorem C86_time_numbers :
  forall rank dim, 3 <= rank -> (dimension rank dim = Ok 2 <-> (dim = 2 \/ dim = 2 - Z.of_nat rank)%Z).
Proof. exact dimension_time. Qed.
Print Assumptions C86_time_numbers.

(** Along time, a step sees one entry at a time: each entry is computed from itself alone. *)
Theorem C86_time :
  forall (K : Type) (SC : Scal K) B C sp dim g (x : list K),
    dimension (3 + length sp) dim = Ok 2 -> length x = size (B :: C :: sp) ->
    dim_module dim g (B :: C :: 1 :: sp) x = Ok (map (fun v => g [v] [0]) x).
Proof. intros. apply dim_time; assumption. Qed.
Print Assumptions C86_time.

(** So nn.Softmax along time returns ones for every frame. *)
Theorem C86_softmax_ones :
  forall (K : Type) (SC : Scal K) B C sp dim e div one (x : list K),
    dimension (3 + length sp) dim = Ok 2 -> length x = size (B :: C :: sp) ->
    (forall a, div (e a) (sadd (e a) s0) = one) ->
    dim_module dim (softmax e div) (B :: C :: 1 :: sp) x = Ok (repeat one (length x)).
Proof.
  intros K SC B C sp dim e div one x Hd Lx H1. rewrite dim_time by assumption. f_equal. clear Lx.
  induction x as [|a x IH]; [reflexivity|]. cbn [map length repeat]. rewrite IH. f_equal. apply H1.
Qed.
Print Assumptions C86_softmax_ones.

(** nn.LayerNorm over dimensions behind time: steps are forward. *)
Theorem C86_layer_norm :
  forall (K : Type) (SC : Scal K) B C T sp ns g (X y : list K),
    length ns <= length sp -> layer_norm ns g (B :: C :: T :: sp) X = Ok y ->
    forall t, t < T -> layer_norm ns g (B :: C :: 1 :: sp) (slice2 B C T sp X t) = Ok (slice2 B C T sp y t).
Proof. intros. apply ln_agree; assumption. Qed.
Print Assumptions C86_layer_norm.

(** nn.LayerNorm over time as well: what works on clips of T <> 1 frames raises on every frame. *)
Theorem C86_layer_norm_time_refuted :
  forall (K : Type) (SC : Scal K) B C T sp ns g (X y x : list K),
    length sp < length ns -> length ns <= 3 + length sp -> T <> 1 ->
    layer_norm ns g (B :: C :: T :: sp) X = Ok y -> layer_norm ns g (B :: C :: 1 :: sp) x = Err RuntimeError.
Proof. intros. eapply ln_time; eassumption. Qed.
Print Assumptions C86_layer_norm_time_refuted.

#[local] Instance ex_scal : Scal Qc := {| s0 := 0%Qc; sadd := Qcplus; smul := Qcmult |}.
Lemma seq_nth_map (f : Qc -> Qc) l : map (fun j => f (nth j l s0)) (seq 0 (length l)) = map f l.
Proof.
  induction l as [|a l IH]; [reflexivity|]. cbn [length seq map nth]. f_equal. rewrite <- seq_shift, map_map. exact IH.
Qed.
Lemma ksum_div (l : list Qc) d : ksum (map (fun v => v / d)%Qc l) = (ksum l / d)%Qc.
Proof.
  induction l as [|a l IH]; cbn [map ksum fold_right sadd s0 ex_scal].
  - unfold Qcdiv. ring.
  - unfold ksum in IH. cbn [sadd s0 ex_scal] in IH. rewrite IH. unfold Qcdiv. ring.
Qed.
(** nn.Softmax: the entries along the dimension add up to one and are in the ratio of the exponentials. *)
Theorem C86_softmax :
  forall (e : Qc -> Qc) l, ksum (map e l) <> 0%Qc ->
    ksum (map (fun j => softmax e Qcdiv l [j]) (seq 0 (length l))) = 1%Qc
    /\ forall i j, (softmax e Qcdiv l [i] * e (nth j l 0%Qc) = softmax e Qcdiv l [j] * e (nth i l 0%Qc))%Qc.
Proof.
  intros e l H. split.
  - unfold softmax. cbn [hd]. rewrite (seq_nth_map (fun v => e v / ksum (map e l))%Qc), <- (map_map e (fun v => v / ksum (map e l))%Qc), ksum_div.
    unfold Qcdiv. apply Qcmult_inv_r. exact H.
  - intros i j. unfold softmax, Qcdiv. cbn [hd s0 ex_scal]. ring.
Qed.
Print Assumptions C86_softmax.

(** Concrete instances, with 1 + x * x for exp. *)
Definition ex_e (v : Qc) : Qc := (1 + v * v)%Qc.
Definition ex_q (n : Z) : Qc := Q2Qc (inject_Z n).
Definition ex_out (r : res (list Qc)) : option (list Q) := match r with Ok l => Some (map this l) | Err _ => None end.
Definition ex_X : list Qc := map ex_q [0; 1; 2; 3; 1; 0; 2; 1]%Z.

(** nn.Softmax(dim=-1) on clips of shape (1, 2, 4) is over time: forward and the first step. *)
Theorem C86_softmax_time_refuted :
  exists y, dim_module (-1) (softmax ex_e Qcdiv) [1; 2; 4] ex_X = Ok y
    /\ dim_module (-1) (softmax ex_e Qcdiv) [1; 2; 1] (slice2 1 2 4 [] ex_X 0) <> Ok (slice2 1 2 4 [] y 0).
Proof.
  eexists. split; [reflexivity|]. intros E.
  apply (f_equal ex_out) in E. vm_compute in E. discriminate E.
Qed.
Print Assumptions C86_softmax_time_refuted.

Example C86_softmax_example :
  ex_out (dim_module (-1) (softmax ex_e Qcdiv) [1; 2; 4] ex_X) = Some [1 # 18; 1 # 9; 5 # 18; 5 # 9; 1 # 5; 1 # 10; 1 # 2; 1 # 5]%Q
  /\ ex_out (dim_module (-1) (softmax ex_e Qcdiv) [1; 2; 1] (slice2 1 2 4 [] ex_X 0)) = Some [1; 1]%Q
  /\ ex_out (dim_module 1 (softmax ex_e Qcdiv) [1; 2; 1] (slice2 1 2 4 [] ex_X 0)) = Some [1 # 3; 2 # 3]%Q
  /\ ex_out (dim_module 1 (softmax ex_e Qcdiv) [1; 2; 4] ex_X)
     = Some [1 # 3; 2 # 3; 1 # 2; 5 # 6; 2 # 3; 1 # 3; 1 # 2; 1 # 6]%Q
  /\ dim_module 3 (softmax ex_e Qcdiv) [1; 2; 4] ex_X = Err IndexError.
Proof. vm_compute. repeat split; reflexivity. Qed.

(** nn.LayerNorm of shape [2] on (1, 1, 2, 2): the centred entries times the weights 1 and 3. *)
Definition ex_g (l : list Qc) (p : list nat) : Qc := ((nth (hd O p) l (ex_q 0) - ksum l / ex_q 2) * nth (hd O p) [ex_q 1; ex_q 3] (ex_q 0))%Qc.
Example C86_layer_norm_example :
  ex_out (layer_norm [2] ex_g [1; 1; 2; 2] (map ex_q [0; 4; 1; 7]%Z)) = Some [-2; 6; -3; 9]%Q
  /\ ex_out (layer_norm [2] ex_g [1; 1; 1; 2] (map ex_q [1; 7]%Z)) = Some [-3; 9]%Q
  /\ layer_norm [2; 2] ex_g [1; 1; 1; 2] (map ex_q [1; 7]%Z) = Err RuntimeError.
Proof. vm_compute. repeat split; reflexivity. Qed.
