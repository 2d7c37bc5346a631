(** Properties C26-C28 and C46: stateless modules, recurrent modules, positional
    encoding. *)
From Coq Require Import List ZArith Bool Arith Lia.
From Verif Require Import Base Frames CoMod Leaf Rnn Net Point PointSpec PointProof ZFrames.
Import ListNotations.

(** C26.  Lambda without time: coherent for every function. *)
Theorem C26_lambda_frame :
  forall (F : Type) (f : val F -> res (val F)),
    let l := {| l_fn := Some f; l_fwd := None; l_step := None; l_steps := None; l_time := false |} in
    coherent (lam_forward l) (lam_forward_steps l) (lam_forward_step l).
Proof. exact @lam_frame_coherent. Qed.
Print Assumptions C26_lambda_frame.

(** Lambda with takes_time=True: exactly when the function splits. *)
Theorem C26_lambda_takes_time :
  forall (F : Type) (f : val F -> res (val F)), clip_fun f ->
    let l := {| l_fn := Some f; l_fwd := None; l_step := None; l_steps := None; l_time := true |} in
    (coherent (lam_forward l) (lam_forward_steps l) (lam_forward_step l) <-> splits f).
Proof. exact @lam_time_coherent. Qed.
Print Assumptions C26_lambda_takes_time.

(** Multiply, Add, Identity, Constant, Zero, One. *)
Theorem C26_elementwise :
  forall (F : Type) (g : F -> F),
    let l := lam_elementwise g in coherent (lam_forward l) (lam_forward_steps l) (lam_forward_step l).
Proof. exact @lam_elementwise_coherent. Qed.
Print Assumptions C26_elementwise.

(** Modules converted by forward_stepping. *)
Theorem C26_forward_stepping :
  forall (F : Type) (f : val F -> res (val F)), clip_fun f ->
    (coherent f (fs_forward_steps f) (fs_forward_step f) <-> splits f).
Proof. exact @fs_coherent. Qed.
Print Assumptions C26_forward_stepping.

(** All of these are the network module [MMap g] for some [g]. *)
Theorem C26_splits_is_framewise :
  forall (F : Type) (f : val F -> res (val F)), clip_fun f -> splits f ->
    exists g : F -> F, forall xs, xs <> [] -> f (VS xs) = Ok (VS (map g xs)).
Proof. exact @splits_map. Qed.
Print Assumptions C26_splits_is_framewise.

Theorem C26_lambda_in_networks :
  forall (F : Type) (FA : Frames F) (f : val F -> res (val F)) (g : F -> F),
    (forall xs, xs <> [] -> f (VS xs) = Ok (VS (map g xs))) ->
    let l := {| l_fn := Some f; l_fwd := None; l_step := None; l_steps := None; l_time := true |} in
    (forall xs, xs <> [] -> lam_forward l (VS xs) = fwd (MMap g) (VS xs)) /\
    (forall xs pe upd, xs <> [] ->
       bind (lam_forward_steps l (VS xs) pe upd) (fun v => Ok (v, MMap g)) = steps (MMap g) (VS xs) pe upd) /\
    (forall x upd, bind (lam_forward_step l (VT x) upd) (fun v => Ok (v, MMap g)) = step (MMap g) (VT x) upd).
Proof. exact @lam_is_map. Qed.
Print Assumptions C26_lambda_in_networks.

(** Lambda's constructor takes a function for all modes, or one for each. *)
Theorem C26_lambda_constructor :
  forall (F : Type) (l : lam F),
    (exists l', mk_lam l = Ok l') <->
    (l_fn l <> None \/ (l_fwd l <> None /\ l_step l <> None /\ l_steps l <> None)).
Proof. exact @mk_lam_iff. Qed.
Print Assumptions C26_lambda_constructor.

(** With one function per mode the module is coherent exactly if these are; a common
    function, if given as well, is not looked at. *)
Theorem C26_lambda_three_functions :
  forall (F : Type) (l : lam F) f g h,
    l_fwd l = Some f -> l_steps l = Some g -> l_step l = Some h ->
    (coherent (lam_forward l) (lam_forward_steps l) (lam_forward_step l)
     <-> coherent f (fun v _ _ => g v) (fun v _ => h v)).
Proof. exact @lam_three. Qed.
Print Assumptions C26_lambda_three_functions.

(** A function of frames: forward and forward_steps give a clip exactly if there is a
    frame and the function gives a frame for each; that clip consists of them. *)
Theorem C26_lambda_clip_iff :
  forall (F : Type) (l : lam F) f xs ys (pe upd : bool),
    l_fn l = Some f -> l_time l = false ->
    (l_fwd l = None ->
     (lam_forward l (VS xs) = Ok (VS ys) <-> xs <> [] /\ Forall2 (fun x y => f (VT x) = Ok (VT y)) xs ys)) /\
    (l_steps l = None ->
     (lam_forward_steps l (VS xs) pe upd = Ok (VS ys) <-> xs <> [] /\ Forall2 (fun x y => f (VT x) = Ok (VT y)) xs ys)).
Proof.
  intros F l f xs ys pe upd Hf Ht. unfold lam_forward, lam_forward_steps.
  split; intros ->; now apply lam_clip_iff.
Qed.
Print Assumptions C26_lambda_clip_iff.
Example C26_lambda_clip_iff_ex :
  let l := {| l_fn := Some (fun v => match v with VT x => if (x <? 0)%Z then Err ValueError else Ok (VT (x * 2)%Z) | _ => Err TypeError end);
              l_fwd := None; l_step := None; l_steps := None; l_time := false |} in
  lam_forward l (VS [1; 2]%Z) = Ok (VS [2; 4]%Z) /\ lam_forward l (VS []) = Err RuntimeError
  /\ lam_forward l (VS [1; -2]%Z) = Err ValueError.
Proof. repeat split. Qed.

(** Linear with channel_dim=1 on (B, C, T): column t of forward is forward_step of
    column t. *)
Theorem C26_linear :
  forall (R : Type) (r0 : R) (radd rmul : R -> R -> R) (c : linear_cfg R) (T : nat) (x : list (list R)),
    lin_dim c = 1%Z -> length x = lin_in c -> length (lin_W c) = length (lin_b c) ->
    exists y, lin_clip r0 radd rmul c T x = Ok y /\ length y = length (lin_b c) /\
      (forall r, In r y -> length r = T) /\
      forall t, t < T -> lin_frame r0 radd rmul c (column r0 t x) = Ok (column r0 t y).
Proof. exact @linear_channel. Qed.
Print Assumptions C26_linear.

(** Reshape, for every shape of two or more dimensions (also with an inferred entry),
    exceptions included. *)
Theorem C26_reshape :
  forall (R : Type) (shape : list Z) (n : nat) (xs : list (tensor R)) (pe upd : bool),
    2 <= length shape -> xs <> [] -> (forall x, In x xs -> length (t_data x) = n) ->
    rs_forward shape xs = mapM (fun x => rs_forward_step shape x upd) xs /\
    rs_forward_steps shape xs pe upd = mapM (fun x => rs_forward_step shape x upd) xs.
Proof. exact @reshape_coherent. Qed.
Print Assumptions C26_reshape.

(** With one dimension the module steps, but forward and forward_steps always raise. *)
Theorem C26_reshape_one_dim :
  forall (R : Type) (d : Z) (n : nat) (xs : list (tensor R)) (pe upd : bool),
    xs <> [] -> (forall x, In x xs -> length (t_data x) = n) -> resolve (Z.of_nat n) [d] <> Err RuntimeError ->
    (forall x, In x xs -> exists y, rs_forward_step [d] x upd = Ok y) /\
    rs_forward [d] xs = Err IndexError /\ rs_forward_steps [d] xs pe upd = Err IndexError.
Proof. exact @reshape_one. Qed.
Print Assumptions C26_reshape_one_dim.
Example C26_reshape_one_dim_ex :
  let x := {| t_dims := [2; 2]; t_data := [1; 2; 3; 4] |}%Z in
  rs_forward_step [-1]%Z x true = Ok {| t_dims := [4]; t_data := [1; 2; 3; 4] |}%Z /\
  rs_forward [-1]%Z [x; x] = Err IndexError.
Proof. split; reflexivity. Qed.

(** A function that mixes time (a running sum) is not coherent. *)
Definition running_sum (v : val Z) : res (val Z) :=
  match v with
  | VS xs => Ok (VS (map (fun n => fold_right Z.add 0%Z (firstn (S n) xs)) (seq 0 (length xs))))
  | _ => Err TypeError
  end.
Theorem C26_time_mixing_refuted :
  clip_fun running_sum /\ ~ coherent running_sum (fs_forward_steps running_sum) (fs_forward_step running_sum).
Proof.
  assert (Hc : clip_fun running_sum) by (intros xs _; eexists; reflexivity).
  split; [exact Hc|]. intros H. apply C26_forward_stepping in H; [|exact Hc]. destruct H as [H _].
  specialize (H [1%Z] [2%Z] _ _ ltac:(discriminate) ltac:(discriminate) eq_refl eq_refl). discriminate.
Qed.
Print Assumptions C26_time_mixing_refuted.

Example C26_example :
  let add2 := lam_elementwise (fun x => x + 2)%Z in
  lam_forward add2 (VS [1; 5]%Z) = Ok (VS [3; 7]%Z) /\ lam_forward_step add2 (VT 5%Z) true = Ok (VT 7%Z) /\
  splits (elementwise (fun x => x + 2)%Z) /\
  lin_clip 0%Z Z.add Z.mul {| lin_W := [[1; 2]; [3; 4]; [0; 1]]%Z; lin_b := [5; 6; 7]%Z; lin_in := 2; lin_dim := 1 |} 2 [[1; 10]; [2; 20]]%Z
    = Ok [[10; 55]; [17; 116]; [9; 27]]%Z /\
  rs_forward [-1; 2]%Z [{| t_dims := [4]; t_data := [1; 2; 3; 4] |}; {| t_dims := [4]; t_data := [5; 6; 7; 8] |}]%Z
    = Ok [{| t_dims := [2; 2]; t_data := [1; 2; 3; 4] |}; {| t_dims := [2; 2]; t_data := [5; 6; 7; 8] |}]%Z.
Proof.
  cbv zeta. split; [reflexivity|]. split; [reflexivity|]. split; [apply elementwise_splits|]. split; reflexivity.
Qed.

(** A Lambda that reverses clips in forward only: accepted, and incoherent. *)
Example C26_three_functions_ex :
  let rv v := match v with VS xs => Ok (VS (rev xs)) | _ => Err TypeError end in
  let l := {| l_fn := None; l_fwd := Some rv; l_step := Some (fun v : val Z => Ok v);
              l_steps := Some (fun v => Ok v); l_time := false |} in
  mk_lam l = Ok l /\ lam_forward l (VS [1; 2]%Z) = Ok (VS [2; 1]%Z) /\
  lam_forward_steps l (VS [1; 2]%Z) false true = Ok (VS [1; 2]%Z) /\
  lam_forward_step l (VT 1%Z) true = Ok (VT 1%Z).
Proof. repeat split. Qed.

(** C46.  Linear with the default channel_dim=-1 on (B, C, T): raises unless T is
    in_features, and mixes time steps if it is. *)
Theorem C46_linear_default_raises :
  forall (R : Type) (r0 : R) (radd rmul : R -> R -> R) (c : linear_cfg R) (T : nat) (x : list (list R)),
    lin_dim c = (-1)%Z -> T <> lin_in c -> lin_clip r0 radd rmul c T x = Err RuntimeError.
Proof. exact @linear_last. Qed.
Print Assumptions C46_linear_default_raises.

(** Which calls succeed, for clips of [T] frames with at least one channel and one frame.
    channel_dim=2 works on clips only. *)
Theorem C46_linear_succeeds :
  forall (R : Type) (r0 : R) (radd rmul : R -> R -> R) (c : linear_cfg R) (T : nat) (x : list (list R)) (v : list R) (upd pe : bool),
    ((exists y, lin_forward_step r0 radd rmul c v upd = Ok y) <->
     (lin_dim c = (-1)%Z \/ lin_dim c = 1%Z) /\ length v = lin_in c) /\
    ((forall r, In r x -> length r = T) -> x <> [] -> T <> 0 ->
     ((exists y, lin_forward_steps r0 radd rmul c T x pe upd = Ok y) <->
      (lin_dim c = 1%Z /\ length x = lin_in c) \/ ((lin_dim c = (-1)%Z \/ lin_dim c = 2%Z) /\ T = lin_in c))).
Proof. intros. split; [apply lin_step_iff|apply lin_steps_iff]. Qed.
Print Assumptions C46_linear_succeeds.
Example C46_linear_succeeds_ex :
  let c := {| lin_W := [[1; 2]]%Z; lin_b := [0]%Z; lin_in := 2; lin_dim := 2 |} in
  lin_forward_steps 0%Z Z.add Z.mul c 2 [[1; 10]; [2; 20]; [3; 30]]%Z false true = Ok [[21]; [42]; [63]]%Z
  /\ lin_forward_step 0%Z Z.add Z.mul c [1; 10]%Z true = Err IndexError.
Proof. split; reflexivity. Qed.

Theorem C46_linear_default_refuted :
  exists (c : linear_cfg Z) (x y : list (list Z)) (z : list Z),
    lin_dim c = (-1)%Z /\ length x = lin_in c /\ (forall r, In r x -> length r = 2) /\
    lin_clip 0%Z Z.add Z.mul c 2 x = Ok y /\
    lin_frame 0%Z Z.add Z.mul c (column 0%Z 0 x) = Ok z /\ z <> column 0%Z 0 y.
Proof.
  exists {| lin_W := [[1; 2]; [3; 4]]%Z; lin_b := [0; 0]%Z; lin_in := 2; lin_dim := -1 |}, [[1; 10]; [2; 20]]%Z.
  do 2 eexists. split; [reflexivity|]. split; [reflexivity|]. split; [intros r [<-|[<-|[]]]; reflexivity|].
  split; [reflexivity|]. split; [reflexivity|]. discriminate.
Qed.
Print Assumptions C46_linear_default_refuted.

(** C27.  RNN, GRU, LSTM: any way of cutting the stream gives the output and the
    hidden state of one torch call on the whole clip, from any hidden state. *)
Theorem C27_rnn_streams :
  forall (F : Type) (FA : Frames F) (c : rnn_cfg F) (ps : list piece),
    (forall p, In p ps -> content p <> []) -> ps <> [] ->
    forall (o : option (list (hid F))) ys h,
      torch_rnn c (concat (map content ps)) o = Ok (ys, h) ->
      run_pieces (rnn_one c) (rnn_many c) o ps = Ok (ys, Some h).
Proof. intros F FA. exact rnn_pieces. Qed.
Print Assumptions C27_rnn_streams.

(** From a clean state every non-empty clip is accepted. *)
Theorem C27_rnn_accepts :
  forall (F : Type) (c : rnn_cfg F) (xs : list F), xs <> [] ->
    exists ys h, torch_rnn c xs None = Ok (ys, h) /\ length ys = length xs.
Proof. exact @rnn_clean_accepts. Qed.
Print Assumptions C27_rnn_accepts.

(** After clean_state, whatever was streamed before, a stream gives the output of
    [forward], which starts from zeros. *)
Theorem C27_rnn_clean_restarts :
  forall (F : Type) (FA : Frames F) (c : rnn_cfg F) (ps qs : list piece) o o' ys zs h,
    run_pieces (rnn_one c) (rnn_many c) o ps = Ok (ys, o') ->
    (forall p, In p qs -> content p <> []) -> qs <> [] ->
    torch_rnn c (concat (map content qs)) None = Ok (zs, h) ->
    run_pieces (rnn_one c) (rnn_many c) (rnn_clean o') qs = Ok (zs, Some h).
Proof. intros F FA c ps qs o o' ys zs h _ Hq Hn. exact (rnn_pieces c qs Hq Hn None zs h). Qed.
Print Assumptions C27_rnn_clean_restarts.

(** update_state=False. *)
Theorem C27_rnn_peek :
  forall (F : Type) (c : rnn_cfg F) (o : option (list (hid F))) (x : F) (xs : list F) (pe : bool) y o1 zs o2,
    rnn_forward_step c o x true = Ok (y, o1) -> rnn_forward_steps c o xs pe true = Ok (zs, o2) ->
    rnn_forward_step c o x false = Ok (y, o) /\ rnn_forward_steps c o xs pe false = Ok (zs, o).
Proof. exact @rnn_peek. Qed.
Print Assumptions C27_rnn_peek.

(** Two layers: h' = 2h + x, then h' = h + 3x; output is the new hidden state. *)
Definition ex_rnn : rnn_cfg Z :=
  {| r_cells := [fun h x => let y := (2 * hd 0 h + x)%Z in ([y], y); fun h x => let y := (hd 0 h + 3 * x)%Z in ([y], y)];
     r_h0 := [0%Z] |}.
Example C27_example :
  torch_rnn ex_rnn [1; 2; 3; 4]%Z None = Ok ([3; 15; 48; 126]%Z, [[26]; [126]]%Z) /\
  run_pieces (rnn_one ex_rnn) (rnn_many ex_rnn) None [One 1; Many [2; 3]; One 4]%Z
    = Ok ([3; 15; 48; 126]%Z, Some [[26]; [126]]%Z).
Proof. split; reflexivity. Qed.

(** C28.  Recycling positional encoding: any stream, however cut into frames and
    clips of at most N frames. *)
Theorem C28_stream :
  forall (F : Type) (FA : Frames F) (c : rpe F) (ps : list piece) (idx : Z),
    (forall p, In p ps -> length (content p) <= p_N c) -> rpe_in c idx ->
    run_pieces (rpe_one c) (rpe_many c) idx ps
    = Ok (encoded c idx (concat (map content ps)),
          ((idx + Z.of_nat (length (concat (map content ps)))) mod Z.of_nat (p_N c))%Z).
Proof. exact @rpe_stream. Qed.
Print Assumptions C28_stream.

(** clean_state restarts the encoding, whatever was streamed before. *)
Theorem C28_clean_restarts :
  forall (F : Type) (FA : Frames F) (c : rpe F) (ps qs : list piece) (idx idx' : Z) ys,
    0 < p_N c -> (forall p, In p qs -> length (content p) <= p_N c) ->
    run_pieces (rpe_one c) (rpe_many c) idx ps = Ok (ys, idx') ->
    run_pieces (rpe_one c) (rpe_many c) (rpe_clean idx') qs
    = Ok (encoded c 0 (concat (map content qs)),
          (Z.of_nat (length (concat (map content qs))) mod Z.of_nat (p_N c))%Z).
Proof.
  intros F FA c ps qs idx idx' ys HN Hq _.
  exact (C28_stream F FA c qs 0 Hq (conj (Z.le_refl 0) (proj1 (Nat2Z.inj_lt 0 _) HN))).
Qed.
Print Assumptions C28_clean_restarts.

Theorem C28_forward :
  forall (F : Type) (FA : Frames F) (c : rpe F) (idx : Z) (xs : list F) (k : option Z),
    rpe_in c idx -> length xs <= p_N c ->
    rpe_forward c idx xs k
    = Ok (encoded c idx xs, ((idx + match k with None => p_upd c | Some k => k end) mod Z.of_nat (p_N c))%Z).
Proof. exact @rpe_forward_value. Qed.
Print Assumptions C28_forward.

Theorem C28_too_long :
  forall (F : Type) (FA : Frames F) (c : rpe F) (idx : Z) (xs : list F) (k : option Z),
    p_N c < length xs -> rpe_forward c idx xs k = Err AssertionError.
Proof. exact @rpe_too_long. Qed.
Print Assumptions C28_too_long.

Theorem C28_peek :
  forall (F : Type) (FA : Frames F) (c : rpe F) (idx : Z) (x : F) (xs : list F) (pe : bool),
    rpe_in c idx -> length xs <= p_N c ->
    (exists y o, rpe_forward_step c idx x true = Ok (y, o) /\ rpe_forward_step c idx x false = Ok (y, idx)) /\
    (exists ys o, rpe_forward_steps c idx xs pe true = Ok (ys, o) /\ rpe_forward_steps c idx xs pe false = Ok (ys, idx)).
Proof. exact @rpe_peek. Qed.
Print Assumptions C28_peek.

(** forward is free of side effects with forward_update_index_steps=0 ... *)
Theorem C28_forward_pure :
  forall (F : Type) (FA : Frames F) (c : rpe F) (idx : Z) (xs : list F),
    rpe_in c idx -> length xs <= p_N c -> p_upd c = 0%Z ->
    exists ys, rpe_forward c idx xs None = Ok (ys, idx).
Proof. exact @rpe_forward_pure. Qed.
Print Assumptions C28_forward_pure.

(** ... but not with the default 1. *)
Theorem C28_forward_pure_refuted :
  exists (c : rpe Z) xs ys idx y y' o o',
    p_upd c = 1%Z /\ rpe_forward c 0 xs None = Ok (ys, idx) /\
    rpe_forward_step c idx 0%Z true = Ok (y, o) /\ rpe_forward_step c 0 0%Z true = Ok (y', o') /\ y <> y'.
Proof.
  exists {| p_N := 3; p_E := fun i => Z.of_nat (10 * i); p_upd := 1 |}, [5]%Z. do 6 eexists.
  split; [reflexivity|]. split; [reflexivity|]. split; [reflexivity|]. split; [reflexivity|]. discriminate.
Qed.
Print Assumptions C28_forward_pure_refuted.

(** Starting a stream with explicit state resets the module's own index. *)
Theorem C28_explicit_state_pure_refuted :
  exists (c : rpe Z) idx x y s idx', rpe_in c idx /\ rpe_fstep c idx x None = Ok (y, s, idx') /\ idx' <> idx.
Proof.
  exists {| p_N := 3; p_E := fun i => Z.of_nat (10 * i); p_upd := 1 |}, 2%Z, 5%Z. do 3 eexists.
  split; [split; [discriminate|reflexivity]|]. split; [reflexivity|discriminate].
Qed.
Print Assumptions C28_explicit_state_pure_refuted.

Example C28_example :
  let c := {| p_N := 3; p_E := fun i => Z.of_nat (10 * i); p_upd := 1 |} in
  run_pieces (rpe_one c) (rpe_many c) 2%Z [One 1; Many [2; 3; 4]; One 5; Many [6]]%Z
  = Ok ([21; 2; 13; 24; 5; 16]%Z, 2%Z).
Proof. reflexivity. Qed.
