(** Properties C40 and C49 to C51: transformer encoder layers. *)
From Coq Require Import List ZArith Bool Arith QArith Qcanon.
From Verif Require Import Base Frames CoMod Leaf Attn AttnSpec ZAttn ZFrames
  Trans TransSpec TransProof TransEnc.
Import ListNotations.
Close Scope Q_scope.
Close Scope Qc_scope.
Open Scope nat_scope.

(** Outputs of a run, printable. *)
Definition outs_of {A S} (r : res (list A * S)) : res (list A) :=
  '(o, _) <- r ;; Ok o.
Definition qs_outs {S} (r : res (list (option (vec Qc)) * S)) : res (list (option (list Q))) :=
  '(o, _) <- r ;; Ok (map (option_map (map this)) o).
Definition Q_dec (a b : Q) : {a = b} + {a <> b}.
Proof. decide equality; [apply Pos.eq_dec|apply Z.eq_dec]. Defined.
Definition qss_outs {S} (r : res (list (option (list (vec Qc))) * S))
  : res (list (option (list (list Q)))) :=
  '(o, _) <- r ;; Ok (map show o).

(** C40.  What RetroactiveUnity(d), d >= 1, answers to every frame of every
    stream: None before frame d, the last d+1 frames in order for frames d to
    2d-1, and from frame 2d on a list that lacks frame n-d and has frame d-1 in
    its place further on. *)
Theorem C40_every_step :
  forall (F : Type) (FA : Frames F) d m (xs : list F), 1 <= d ->
    exists outs o',
      feeds (fun o x => unity_forward_step d m o x true) obj_init xs = Ok (outs, o')
      /\ length outs = length xs
      /\ (forall n e, n < length xs ->
          nth n outs e =
          if n <? d then None
          else if n <? 2 * d then Some (window (d + 1) n xs)
          else Some (stale_window d n xs)).
Proof. exact @unity_stream. Qed.
Print Assumptions C40_every_step.

(** So from frame 2d on no step is right, for any stream of distinct frames. *)
Theorem C40_never_right_later :
  forall (F : Type) d n (xs : list F), 1 <= d -> 2 * d <= n -> n < length xs ->
    NoDup xs -> stale_window d n xs <> window (d + 1) n xs.
Proof. exact @stale_wrong. Qed.
Print Assumptions C40_never_right_later.

(** With delay 0 the explicit-state step of a fresh module raises (remainder by
    zero). *)
Theorem C40_delay_zero_raises :
  forall (F : Type) (FA : Frames F) m (x : F), exists e, unity_fstep 0 m x None = Err e.
Proof. exact @unity_zero. Qed.
Print Assumptions C40_delay_zero_raises.

(** forward_step with delay 0 does not get there: whatever the state, every frame of
    every stream comes back alone. *)
Theorem C40_delay_zero_steps :
  forall (F : Type) (FA : Frames F) m upd (xs : list F) (o : obj F),
    feeds (fun o x => unity_forward_step 0 m o x upd) o xs = Ok (map (fun x => Some [x]) xs, o).
Proof. exact @unity_zero_steps. Qed.
Print Assumptions C40_delay_zero_steps.

Example C40_delay_zero_ex :
  (exists e, unity_fstep 0 Zeros 5%Z None = Err e) /\
  feeds (fun o x => unity_forward_step 0 Zeros o x true) obj_init [4; 5]%Z = Ok ([Some [4]; Some [5]]%Z, obj_init).
Proof. split; [eexists|]; reflexivity. Qed.

Example C40_example :
  outs_of (feeds (fun o x => unity_forward_step 3 Zeros o x true) obj_init
             [1; 2; 3; 4; 5; 6; 7; 8; 9; 10]%Z)
  = Ok [None; None; None; Some [1; 2; 3; 4]%Z; Some [2; 3; 4; 5]%Z; Some [3; 4; 5; 6]%Z;
        Some [5; 6; 3; 7]%Z; Some [6; 3; 7; 8]%Z; Some [3; 7; 8; 9]%Z;
        Some [8; 9; 3; 10]%Z].
Proof. vm_compute. reflexivity. Qed.

(** C49.  A fresh retroactive encoder layer with N >= 2, fed any stream: no
    output before token N-1; then, for tokens N-1 to 2N-3, the outputs of forward
    on the last N tokens; later the attention is right but the residual is the
    stale window of C40. *)
Theorem C49_every_step :
  forall (K : Type) (NK : Num K) (NL : NumLaws K) (c : cfg K) g xs, supported c -> 2 <= c_N c ->
    exists outs s',
      feeds (re_layer_step c g) lstate_init xs = Ok (outs, s')
      /\ length outs = length xs
      /\ (forall n d, n < length xs ->
          nth n outs d =
          if n + 1 <? c_N c then None
          else if n <? 2 * (c_N c - 1)
               then Some (re_layer_forward c g (window (c_N c) n xs))
          else Some (map g (map2 fadd (stale_window (c_N c - 1) n xs)
                  (mha_forward c (window (c_N c) n xs) (window (c_N c) n xs)
                     (window (c_N c) n xs))))).
Proof. exact @re_layer_stream. Qed.
Print Assumptions C49_every_step.

Definition ex_xs : list (vec Qc) := map zv [[1; 2]; [3; -1]; [0; 4]; [2; 2]; [-3; 1]; [5; 0]]%Z.
Definition ex_g (x : vec Qc) : vec Qc := map (fun a => (a * z 2)%Qc) x.

Example C49_example :
  supported (ac 3)
  /\ qss_outs (feeds (re_layer_step (ac 3) ex_g) lstate_init (firstn 4 ex_xs))
     = Ok [None; None;
           Some [[(118 # 13)%Q; (26 # 3)%Q]; [(94 # 7)%Q; (2 # 9)%Q]; [6%Q; (408 # 31)%Q]];
           Some [[(3802 # 273)%Q; (12 # 17)%Q]; [(20 # 3)%Q; (514 # 39)%Q];
                 [(440 # 37)%Q; (258 # 29)%Q]]].
Proof. split; [apply ac_supported|vm_compute; reflexivity]. Qed.

(** "Step = forward on the window" fails from token 2(N-1) on. *)
Theorem C49_later_steps_refuted :
  exists (c : cfg Qc) g xs n, supported c /\ 2 <= c_N c /\ c_N c <= n + 1 /\ n < length xs
    /\ exists outs s', feeds (re_layer_step c g) lstate_init xs = Ok (outs, s')
         /\ nth n outs None <> Some (re_layer_forward c g (window (c_N c) n xs)).
Proof.
  exists (ac 3), (fun x => x), ex_xs, 4. split; [apply ac_supported|].
  split; [repeat constructor|]. split; [repeat constructor|]. split; [repeat constructor|].
  destruct (C49_every_step Qc NumQ NumQLaws (ac 3) (fun x => x) ex_xs (ac_supported 3)
              ltac:(repeat constructor)) as (outs & s' & E & _ & N).
  exists outs, s'. split; [exact E|]. rewrite N by (repeat constructor).
  intros A. apply (f_equal show) in A. vm_compute in A. discriminate.
Qed.
Print Assumptions C49_later_steps_refuted.

(** C50.  Single-output encoder layer with single_output_forward=True and any
    query index in range: every step from token N-1 on is the one token that
    forward returns for the last N tokens. *)
Theorem C50_single_output_forward :
  forall (K : Type) (NK : Num K) (c : cfg K) g query_index xs,
    supported c -> 0 < c_N c ->
    (- Z.of_nat (c_N c) <= query_index < Z.of_nat (c_N c))%Z ->
    exists outs s',
      feeds (so_layer_step c g query_index true) lstate_init xs = Ok (outs, s')
      /\ length outs = length xs
      /\ forall n d, n < length xs ->
         if n + 1 <? c_N c then nth n outs d = None
         else exists y, nth n outs d = Some y
                /\ so_layer_forward c g query_index true (window (c_N c) n xs) = Ok [y].
Proof. exact @so_layer_true. Qed.
Print Assumptions C50_single_output_forward.

Example C50_example :
  supported (ac 3)
  /\ qs_outs (feeds (so_layer_step (ac 3) ex_g (-2) true) lstate_init ex_xs)
     = Ok [None; None; Some [(94 # 7)%Q; (2 # 9)%Q]; Some [(20 # 3)%Q; (514 # 39)%Q];
           Some [(432 # 41)%Q; (78 # 17)%Q]; Some [(2 # 3)%Q; (368 # 39)%Q]].
Proof. split; [apply ac_supported|vm_compute; reflexivity]. Qed.

(** With the default settings the step is the last token of forward on the
    window. *)
Theorem C50_default_is_last_of_forward :
  forall (K : Type) (NK : Num K) (c : cfg K) g xs, supported c -> 0 < c_N c ->
    exists outs s',
      feeds (so_layer_step c g (-1) false) lstate_init xs = Ok (outs, s')
      /\ length outs = length xs
      /\ forall n d, n < length xs ->
         if n + 1 <? c_N c then nth n outs d = None
         else exists ys y, nth n outs d = Some y
            /\ so_layer_forward c g (-1) false (window (c_N c) n xs) = Ok (ys ++ [y])
            /\ length ys = c_N c - 1.
Proof. exact @so_layer_last. Qed.
Print Assumptions C50_default_is_last_of_forward.

Example C50_default_example :
  supported (ac 3)
  /\ qs_outs (feeds (so_layer_step (ac 3) ex_g (-1) false) lstate_init (firstn 4 ex_xs))
     = Ok [None; None; Some [6%Q; (408 # 31)%Q]; Some [(440 # 37)%Q; (258 # 29)%Q]].
Proof. split; [apply ac_supported|vm_compute; reflexivity]. Qed.

(** Without single_output_forward the residual is not delayed: for any other
    query index the step adds the newest token to the attention of an older one. *)
Theorem C50_residual_not_delayed :
  forall (K : Type) (NK : Num K) (NL : NumLaws K) (c : cfg K) g query_index xs,
    supported c -> 0 < c_N c ->
    (- Z.of_nat (c_N c) <= query_index < Z.of_nat (c_N c))%Z ->
    exists outs s',
      feeds (so_layer_step c g query_index false) lstate_init xs = Ok (outs, s')
      /\ length outs = length xs
      /\ forall n d, n < length xs ->
         nth n outs d =
         if n + 1 <? c_N c then None
         else Some (g (fadd (nth n xs [])
                (attention c (nth (n - so_delay (c_N c) query_index) xs [])
                   (window (c_N c) n xs) (window (c_N c) n xs)))).
Proof. exact @so_layer_mixed. Qed.
Print Assumptions C50_residual_not_delayed.

(** ... which is no token of forward on the window. *)
Theorem C50_residual_not_delayed_refuted :
  exists (c : cfg Qc) g query_index xs,
    supported c /\ (- Z.of_nat (c_N c) <= query_index < Z.of_nat (c_N c))%Z
    /\ length xs = c_N c
    /\ exists outs s' ys y, feeds (so_layer_step c g query_index false) lstate_init xs = Ok (outs, s')
         /\ nth (c_N c - 1) outs None = Some y
         /\ so_layer_forward c g query_index false xs = Ok ys
         /\ ~ In y ys.
Proof.
  exists (ac 3), (fun x => x), (-2)%Z, (firstn 3 ex_xs). split; [apply ac_supported|].
  split; [cbn; split; [discriminate|reflexivity]|]. split; [reflexivity|].
  destruct (C50_residual_not_delayed Qc NumQ NumQLaws (ac 3) (fun x => x) (-2) (firstn 3 ex_xs)
    (ac_supported 3) ltac:(repeat constructor)
    ltac:(cbn; split; [discriminate|reflexivity])) as (outs & s' & E & _ & N).
  specialize (N 2 None ltac:(repeat constructor)).
  exists outs, s'. eexists _, _. split; [exact E|]. split; [exact N|]. split; [reflexivity|].
  intros H. apply (in_map (map this)) in H. vm_compute in H.
  repeat destruct H as [H|H]; try discriminate; assumption.
Qed.
Print Assumptions C50_residual_not_delayed_refuted.

(** C51.  TransformerEncoder with one layer: every step from token N-1 on is the
    last token of forward on the last N tokens. *)
Theorem C51_one_layer :
  forall (K : Type) (NK : Num K) (mk : nat -> layer K) norm xs,
    supported (y_cfg (mk 0)) -> 0 < c_N (y_cfg (mk 0)) ->
    exists outs s',
      feeds (encoder_step 1 mk norm) (estate_init 1 (mk 0)) xs = Ok (outs, s')
      /\ length outs = length xs
      /\ forall n d, n < length xs ->
         if n + 1 <? c_N (y_cfg (mk 0)) then nth n outs d = None
         else exists ys y,
           encoder_forward 1 mk norm (window (c_N (y_cfg (mk 0))) n xs) = Ok (ys ++ [y])
           /\ length ys = c_N (y_cfg (mk 0)) - 1
           /\ nth n outs d = Some y.
Proof. exact @enc1_stream. Qed.
Print Assumptions C51_one_layer.

(** With two layers: every step from token N-1 on returns something, and up to
    token 2N-3 it is what forward returns for the last N tokens. *)
Theorem C51_two_layers :
  forall (K : Type) (NK : Num K) (NL : NumLaws K) (mk : nat -> layer K) norm xs,
    supported (y_cfg (mk 0)) -> supported (y_cfg (mk 1)) -> 2 <= c_N (y_cfg (mk 0)) ->
    exists outs s',
      feeds (encoder_step 2 mk norm) (estate_init 2 (mk 0)) xs = Ok (outs, s')
      /\ length outs = length xs
      /\ forall n d, n < length xs ->
         (n + 1 < c_N (y_cfg (mk 0)) -> nth n outs d = None)
         /\ (c_N (y_cfg (mk 0)) <= n + 1 -> exists z, nth n outs d = Some z)
         /\ (c_N (y_cfg (mk 0)) <= n + 1 -> n < 2 * (c_N (y_cfg (mk 0)) - 1) ->
             exists z, nth n outs d = Some z
             /\ encoder_forward 2 mk norm (window (c_N (y_cfg (mk 0))) n xs) = Ok [z]).
Proof. exact @enc2_stream. Qed.
Print Assumptions C51_two_layers.

Definition ex_mk (i : nat) : layer Qc := Layer (ac 3) (if i =? 0 then ex_g else fun x => x).

Example C51_example :
  supported (y_cfg (ex_mk 0)) /\ supported (y_cfg (ex_mk 1))
  /\ qs_outs (feeds (encoder_step 1 ex_mk ex_g) (estate_init 1 (ex_mk 0)) (firstn 4 ex_xs))
     = Ok [None; None; Some [12%Q; (816 # 31)%Q]; Some [(880 # 37)%Q; (516 # 29)%Q]]
  /\ qs_outs (feeds (encoder_step 2 ex_mk ex_g) (estate_init 2 (ex_mk 0)) (firstn 3 ex_xs))
     = Ok [None; None; Some [(12883348618736 # 260622121851)%Q;
                               (235983289059988 # 4821992614257)%Q]].
Proof. split; [apply ac_supported|split; [apply ac_supported|]]. split; vm_compute; reflexivity. Qed.

Theorem C51_two_layers_later_refuted :
  exists (mk : nat -> layer Qc) norm xs n,
    supported (y_cfg (mk 0)) /\ supported (y_cfg (mk 1)) /\ 2 <= c_N (y_cfg (mk 0))
    /\ c_N (y_cfg (mk 0)) <= n + 1 /\ n < length xs
    /\ exists outs s' z,
         feeds (encoder_step 2 mk norm) (estate_init 2 (mk 0)) xs = Ok (outs, s')
         /\ nth n outs None = Some z
         /\ encoder_forward 2 mk norm (window (c_N (y_cfg (mk 0))) n xs) <> Ok [z].
Proof.
  exists ex_mk, (fun x => x), (firstn 5 ex_xs), 4.
  split; [apply ac_supported|]. split; [apply ac_supported|].
  split; [repeat constructor|]. split; [repeat constructor|]. split; [repeat constructor|].
  assert (D : match qs_outs (feeds (encoder_step 2 ex_mk (fun x => x))
                               (estate_init 2 (ex_mk 0)) (firstn 5 ex_xs)),
                    encoder_forward 2 ex_mk (fun x => x) (window 3 4 (firstn 5 ex_xs)) with
              | Ok outs, Ok zs =>
                  match nth 4 outs None with
                  | Some y => if list_eq_dec (list_eq_dec Q_dec) (map (map this) zs) [y]
                              then false else true
                  | None => false
                  end
              | _, _ => false
              end = true) by (vm_compute; reflexivity).
  destruct (feeds (encoder_step 2 ex_mk (fun x => x)) (estate_init 2 (ex_mk 0)) (firstn 5 ex_xs))
    as [[outs s']|] eqn:E; [|discriminate D].
  cbn [qs_outs bind] in D.
  change (@None (list Q)) with (option_map (map this) None) in D.
  rewrite map_nth in D.
  destruct (nth 4 outs None) as [y|] eqn:E3; cbn [option_map] in D;
    [|destruct (encoder_forward _ _ _ _); discriminate].
  exists outs, s', y. split; [reflexivity|]. split; [exact E3|].
  change (c_N (y_cfg (ex_mk 0))) with 3.
  intros A. rewrite A in D. cbn [map] in D.
  destruct (list_eq_dec _ _ _) as [_|n]; [discriminate|apply n; reflexivity].
Qed.
Print Assumptions C51_two_layers_later_refuted.

(** Three or more layers cannot be built. *)
Theorem C51_three_layers_raise :
  forall (K : Type) (NK : Num K) (mk : nat -> layer K) norm num_layers xs s x,
    (3 <= num_layers)%Z ->
    encoder_layers num_layers mk = Err AssertionError
    /\ encoder_forward num_layers mk norm xs = Err AssertionError
    /\ encoder_step num_layers mk norm s x = Err AssertionError.
Proof. exact @enc_many. Qed.
Print Assumptions C51_three_layers_raise.

(** Zero or fewer layers silently build the two-layer encoder. *)
Theorem C51_zero_layers_is_two :
  forall (K : Type) (mk : nat -> layer K) num_layers,
    (num_layers <= 0)%Z -> encoder_layers num_layers mk = encoder_layers 2 mk.
Proof. exact @layers_few. Qed.
Print Assumptions C51_zero_layers_is_two.

Example C51_counts_example :
  encoder_layers 5 ex_mk = Err AssertionError
  /\ encoder_layers 0 ex_mk = Ok [(RETROACTIVE, ex_mk 0); (SINGLE_OUTPUT_FORWARD, ex_mk 1)].
Proof. split; reflexivity. Qed.
