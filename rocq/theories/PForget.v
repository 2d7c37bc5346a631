(** C82: attention forgets what its memory held before. *)
From Coq Require Import List ZArith Bool Arith Lia.
From Verif Require Import Base Attn AttnSpec AttnThm Grad GradAttn Forget ForgetProof.
From Verif Require GradAttnProof.
Import ListNotations.

(** A single-output module that holds any memory of the right shape: when it returns
    None depends on its counter alone, and from the N-th token on it returns what
    forward computes on the last N tokens, bit for bit. *)
Theorem C82_single_output_forgets :
  forall (K : Type) (NK : Num K) (c : cfg K) query_index (o : option (mstate (so_sdpa c query_index))) ts h z,
    supported c -> 0 < c_N c -> (- Z.of_nat (c_N c) <= query_index < Z.of_nat (c_N c))%Z ->
    holds (so_rows (c_N c) (so_delay (c_N c) query_index)) (c_N c) (c_H c) o h z ->
    exists outs o' h', m_run c (so_sdpa c query_index) o ts h = Ok (outs, o', h')
      /\ length outs = length ts
      /\ holds (so_rows (c_N c) (so_delay (c_N c) query_index)) (c_N c) (c_H c) o' h' (Z.min 0 (z + Z.of_nat (length ts)))
      /\ (forall n d, n < length ts -> nth n outs d = None <-> (z + Z.of_nat n + 1 < 0)%Z)
      /\ (forall n d, n < length ts -> c_N c <= n + 1 ->
          exists r, nth n outs d = Some r
            /\ so_forward c true query_index (window (c_N c) n (qs_of ts))
                 (window (c_N c) n (ks_of ts)) (window (c_N c) n (vs_of ts)) = Ok r).
Proof. exact @so_forgets. Qed.
Print Assumptions C82_single_output_forgets.

(** A retroactive module, in exact arithmetic: the sums that the memory held are
    subtracted out again after N tokens, whatever they were. *)
Theorem C82_retroactive_forgets :
  forall (K : Type) (NK : Num K) (NL : NumLaws K) (c : cfg K) (o : option (mstate (re_sdpa c))) ts h z,
    supported c -> 2 <= c_N c ->
    holds (re_rows (c_N c)) (c_N c) (c_H c) o h z ->
    exists outs o' h', m_run c (re_sdpa c) o ts h = Ok (outs, o', h')
      /\ length outs = length ts
      /\ holds (re_rows (c_N c)) (c_N c) (c_H c) o' h' (Z.min 0 (z + Z.of_nat (length ts)))
      /\ (forall n d, n < length ts -> nth n outs d = None <-> (z + Z.of_nat n + 1 < 0)%Z)
      /\ (forall n d, n < length ts -> c_N c <= n + 1 ->
          nth n outs d = Some (mha_forward c (window (c_N c) n (qs_of ts))
                 (window (c_N c) n (ks_of ts)) (window (c_N c) n (vs_of ts)))).
Proof. exact @re_forgets. Qed.
Print Assumptions C82_retroactive_forgets.

(** Without any law of arithmetic, as for floating point numbers: two retroactive
    modules with any two memories, NaN included, return the same from token 2N-1 on. *)
Theorem C82_retroactive_forgets_bits :
  forall (K : Type) (NK : Num K) (c : cfg K) (o o' : option (mstate (re_sdpa c))) ts h h' z z',
    supported c -> 2 <= c_N c ->
    holds (re_rows (c_N c)) (c_N c) (c_H c) o h z -> holds (re_rows (c_N c)) (c_N c) (c_H c) o' h' z' ->
    exists outs outs' o1 o1' h1 h1', m_run c (re_sdpa c) o ts h = Ok (outs, o1, h1) /\ m_run c (re_sdpa c) o' ts h' = Ok (outs', o1', h1')
      /\ length outs = length ts /\ length outs' = length ts
      /\ forall n d, n < length ts -> 2 * c_N c - 1 <= n + 1 -> nth n outs d = nth n outs' d /\ nth n outs d <> None.
Proof. exact @re_forgets_bits. Qed.
Print Assumptions C82_retroactive_forgets_bits.

(** All parameters are replaced in the middle of a stream: from N tokens later on the
    outputs are those of forward with the new parameters. *)
Theorem C82_new_parameters_single_output :
  forall (K : Type) (NK : Num K) (c c2 : cfg K) query_index t ts ts2 h,
    supported c -> supported c2 -> c_N c2 = c_N c -> c_H c2 = c_H c -> 0 < c_N c ->
    (- Z.of_nat (c_N c) <= query_index < Z.of_nat (c_N c))%Z ->
    exists outs o h1 outs2 o2 h2,
      m_run c (so_sdpa c query_index) None (t :: ts) h = Ok (outs, o, h1)
      /\ m_run c2 (so_sdpa c2 query_index) o ts2 h1 = Ok (outs2, o2, h2)
      /\ (forall n d, n < length ts2 -> nth n outs2 d = None <-> S (length ts) + n + 1 < c_N c)
      /\ (forall n d, n < length ts2 -> c_N c <= n + 1 ->
          exists r, nth n outs2 d = Some r
            /\ so_forward c2 true query_index (window (c_N c) n (qs_of ts2))
                 (window (c_N c) n (ks_of ts2)) (window (c_N c) n (vs_of ts2)) = Ok r).
Proof.
  intros K NK c c2 qi t ts ts2 h S1 S2 EN EH HN Hq.
  destruct (so_fresh c qi t ts h S1 HN Hq) as (outs & o & h1 & E1 & Ho).
  destruct (so_forgets c2 qi o ts2 h1 (Z.min 0 (Z.of_nat (S (length ts)) - Z.of_nat (c_N c))) S2) as (outs2 & o2 & h2 & E2 & L2 & _ & A & B); [rewrite EN; exact HN|rewrite EN; exact Hq|rewrite EN, EH; exact Ho|].
  rewrite EN in B. exists outs, o, h1, outs2, o2, h2. split; [exact E1|]. split; [exact E2|]. split; [|exact B].
  intros n d Hn. rewrite (A n d Hn). lia.
Qed.
Print Assumptions C82_new_parameters_single_output.

Theorem C82_new_parameters_retroactive :
  forall (K : Type) (NK : Num K) (NL : NumLaws K) (c c2 : cfg K) t ts ts2 h,
    supported c -> supported c2 -> c_N c2 = c_N c -> c_H c2 = c_H c -> 2 <= c_N c ->
    exists outs o h1 outs2 o2 h2,
      m_run c (re_sdpa c) None (t :: ts) h = Ok (outs, o, h1)
      /\ m_run c2 (re_sdpa c2) o ts2 h1 = Ok (outs2, o2, h2)
      /\ (forall n d, n < length ts2 -> nth n outs2 d = None <-> S (length ts) + n + 1 < c_N c)
      /\ (forall n d, n < length ts2 -> c_N c <= n + 1 ->
          nth n outs2 d = Some (mha_forward c2 (window (c_N c) n (qs_of ts2))
                 (window (c_N c) n (ks_of ts2)) (window (c_N c) n (vs_of ts2)))).
Proof.
  intros K NK NL c c2 t ts ts2 h S1 S2 EN EH HN.
  destruct (re_fresh c t ts h S1 HN) as (outs & o & h1 & E1 & Ho).
  destruct (re_forgets c2 o ts2 h1 (Z.min 0 (Z.of_nat (S (length ts)) - Z.of_nat (c_N c))) S2) as (outs2 & o2 & h2 & E2 & L2 & _ & A & B); [rewrite EN; exact HN|rewrite EN, EH; exact Ho|].
  rewrite EN in B. exists outs, o, h1, outs2, o2, h2. split; [exact E1|]. split; [exact E2|]. split; [|exact B].
  intros n d Hn. rewrite (A n d Hn). lia.
Qed.
Print Assumptions C82_new_parameters_retroactive.

(** The memory is detached in the middle of a stream, or was filled under
    torch.no_grad(): gradients are complete again from N tokens later on. *)
Theorem C82_detached_single_output :
  forall (K : Type) (NK : Num K) (c : cfg (dual K)) query_index t ts ts2 h,
    supported c -> 0 < c_N c -> (- Z.of_nat (c_N c) <= query_index < Z.of_nat (c_N c))%Z ->
    exists outs o h1 outs2 o2 h2,
      m_run c (so_sdpa c query_index) None (t :: ts) h = Ok (outs, o, h1)
      /\ m_run c (so_sdpa c query_index) (mem_map (so_map det_num) o) ts2 h1 = Ok (outs2, o2, h2)
      /\ (forall n d, n < length ts2 -> c_N c <= n + 1 ->
          exists r, nth n outs2 d = Some r
            /\ so_forward c true query_index (window (c_N c) n (qs_of ts2))
                 (window (c_N c) n (ks_of ts2)) (window (c_N c) n (vs_of ts2)) = Ok r).
Proof.
  intros K NK c qi t ts ts2 h S1 HN Hq.
  destruct (so_fresh c qi t ts h S1 HN Hq) as (outs & o & h1 & E1 & Ho).
  apply (holds_map _ (so_map det_num)) in Ho; [|apply so_rows_map].
  destruct (so_forgets c qi _ ts2 h1 _ S1 HN Hq Ho) as (outs2 & o2 & h2 & E2 & L2 & _ & _ & B).
  exists outs, o, h1, outs2, o2, h2. auto.
Qed.
Print Assumptions C82_detached_single_output.

Theorem C82_detached_retroactive :
  forall (K : Type) (NK : Num K) (NL : NumLaws K) (c : cfg (dual K)) t ts ts2 h,
    supported c -> 2 <= c_N c ->
    exists outs o h1 outs2 o2 h2,
      m_run c (re_sdpa c) None (t :: ts) h = Ok (outs, o, h1)
      /\ m_run c (re_sdpa c) (mem_map (re_map det_num) o) ts2 h1 = Ok (outs2, o2, h2)
      /\ (forall n d, n < length ts2 -> c_N c <= n + 1 ->
          nth n outs2 d = Some (mha_forward c (window (c_N c) n (qs_of ts2))
                 (window (c_N c) n (ks_of ts2)) (window (c_N c) n (vs_of ts2)))).
Proof.
  intros K NK NL c t ts ts2 h S1 HN.
  destruct (re_fresh c t ts h S1 HN) as (outs & o & h1 & E1 & Ho).
  apply (holds_map _ (re_map det_num)) in Ho; [|apply re_rows_map].
  pose proof (GradAttnProof.dual_numlaws (K := K)) as ND.
  destruct (re_forgets c _ ts2 h1 _ S1 HN Ho) as (outs2 & o2 & h2 & E2 & L2 & _ & _ & B).
  exists outs, o, h1, outs2, o2, h2. auto.
Qed.
Print Assumptions C82_detached_retroactive.

(** *** Examples, over the integers with a polynomial for the exponential *)
#[local] Instance ex_num : Num Z :=
  {| k0 := 0; k1 := 1; kadd := Z.add; kopp := Z.opp; kmul := Z.mul; kdiv := Z.mul; kexp x := x * x + 1 |}%Z.
#[local] Instance ex_laws : NumLaws Z.
Proof. split; intros; cbn [k0 k1 kadd kopp kmul kdiv ex_num]; ring. Qed.

(** One head with one entry, window 3; the parameters are [a]. *)
Definition ex_c (a : Z) : cfg Z :=
  param_cfg 3 1 {| wi j := [[([a; 1], Z.of_nat j)]]; wo := [([1], 0)]; rt := 1 |}%Z.
Definition ex_t (x : Z) : tok Z := ([x; 1], [x; 2], [x; 3])%Z.
Lemma ex_supported a : supported (ex_c a).
Proof. unfold supported, ex_c. cbn. repeat split; lia. Qed.

(** A memory that holds anything, with counter 0. *)
Definition ex_so (x : Z) : option (mstate (so_sdpa (ex_c 1) 0)) := Some ([SoS [[x]; [7]] [[x]; [2]; [3]] [[x]; [x]; [5]]]%Z, 0).
Definition ex_re (x : Z) : option (mstate (re_sdpa (ex_c 1))) :=
  Some ([ReS [x; 8] [[x]; [9]] [[x]; [7]] [[x]; [2]; [3]] [[x]; [x]; [5]]]%Z, 0).
Example C82_example :
  (forall x, holds (so_rows 3 (so_delay 3 0)) 3 1 (ex_so x) [0%Z] 0) /\ (forall x, holds (re_rows 3) 3 1 (ex_re x) [0%Z] 0) /\
  supported (ex_c 1) /\
  match m_run (ex_c 1) (re_sdpa (ex_c 1)) (ex_re 4) (map ex_t [1; 2; 3; 4]%Z) [0%Z] with
  | Ok ([Some a; Some b; Some c; Some d], _, _) =>
      c = mha_forward (ex_c 1) (qs_of (map ex_t [1; 2; 3]%Z)) (ks_of (map ex_t [1; 2; 3]%Z)) (vs_of (map ex_t [1; 2; 3]%Z)) /\ a <> c /\ c <> d
  | _ => False
  end.
Proof.
  split; [|split; [|split; [apply ex_supported|]]].
  - intros x. exists [SoS [[x]; [7]] [[x]; [2]; [3]] [[x]; [x]; [5]]]%Z, 0. repeat split; cbn; auto; try lia. constructor; [repeat split|constructor].
  - intros x. exists [ReS [x; 8] [[x]; [9]] [[x]; [7]] [[x]; [2]; [3]] [[x]; [x]; [5]]]%Z, 0. repeat split; cbn; auto; try lia. constructor; [repeat split|constructor].
  - vm_compute. repeat split; discriminate.
Qed.

(** N - 1 tokens are not enough: for both kinds of modules the output after two tokens
    still depends on what the memory held. *)
Theorem C82_one_token_fewer_refuted :
  exists (c : cfg Z) (o o' : option (mstate (so_sdpa c 0))) (u u' : option (mstate (re_sdpa c))) ts,
    supported c /\ S (length ts) = c_N c /\
    holds (so_rows (c_N c) (so_delay (c_N c) 0)) (c_N c) (c_H c) o [0%Z] 0 /\ holds (so_rows (c_N c) (so_delay (c_N c) 0)) (c_N c) (c_H c) o' [0%Z] 0 /\
    holds (re_rows (c_N c)) (c_N c) (c_H c) u [0%Z] 0 /\ holds (re_rows (c_N c)) (c_N c) (c_H c) u' [0%Z] 0 /\
    (match m_run c (so_sdpa c 0) o ts [0%Z], m_run c (so_sdpa c 0) o' ts [0%Z] with
     | Ok (a, _, _), Ok (b, _, _) => last a None <> last b None
     | _, _ => False
     end) /\
    match m_run c (re_sdpa c) u ts [0%Z], m_run c (re_sdpa c) u' ts [0%Z] with
    | Ok (a, _, _), Ok (b, _, _) => last a None <> last b None
    | _, _ => False
    end.
Proof.
  exists (ex_c 1), (Some ([SoS [[1]; [7]] [[1]; [2]; [3]] [[1]; [1]; [5]]]%Z, 0)), (Some ([SoS [[1]; [7]] [[1]; [2]; [4]] [[1]; [1]; [5]]]%Z, 0)),
    (Some ([ReS [1; 8] [[1]; [9]] [[1]; [7]] [[1]; [2]; [3]] [[1]; [1]; [5]]]%Z, 0)),
    (Some ([ReS [1; 8] [[1]; [9]] [[1]; [7]] [[1]; [2]; [4]] [[1]; [1]; [5]]]%Z, 0)), (map ex_t [1; 2]%Z).
  split; [apply ex_supported|]. split; [reflexivity|].
  repeat split; try (vm_compute; discriminate);
    (eexists _, _; split; [reflexivity|]; cbn; repeat split; auto; try lia; constructor; [repeat split|constructor]).
Qed.
Print Assumptions C82_one_token_fewer_refuted.

Example C82_new_parameters_example :
  supported (ex_c 1) /\ supported (ex_c 2) /\
  match m_run (ex_c 1) (re_sdpa (ex_c 1)) None (map ex_t [1; 2; 3]%Z) [] with
  | Ok (_, o, h) =>
      match m_run (ex_c 2) (re_sdpa (ex_c 2)) o (map ex_t [5; 6; 7]%Z) h with
      | Ok ([Some _; Some _; Some c], _, _) =>
          c = mha_forward (ex_c 2) (qs_of (map ex_t [5; 6; 7]%Z)) (ks_of (map ex_t [5; 6; 7]%Z)) (vs_of (map ex_t [5; 6; 7]%Z))
      | _ => False
      end
  | _ => False
  end.
Proof. split; [apply ex_supported|]. split; [apply ex_supported|]. vm_compute. reflexivity. Qed.

(** Numbers with tangents: after the memory was detached the first output lacks the
    tangents of the older tokens, which the same stream without detaching has. *)
Definition ex_d : cfg (dual Z) :=
  param_cfg 3 1 {| wi j := [[([Du 1 0; Du 1 0], Du (Z.of_nat j) 0)]]; wo := [([Du 1 0], Du 0 0)]; rt := Du 1 0 |}%Z.
Definition ex_dt (x dx : Z) : tok (dual Z) := ([Du x dx; Du 1 0], [Du x dx; Du 2 0], [Du x dx; Du 3 0])%Z.
Example C82_detached_example :
  supported ex_d /\
  match m_run ex_d (so_sdpa ex_d 2) None [ex_dt 1 1; ex_dt 2 0; ex_dt 3 1]%Z [] with
  | Ok (_, o, h) =>
      match m_run ex_d (so_sdpa ex_d 2) (mem_map (so_map det_num) o) [ex_dt 4 0; ex_dt 5 1; ex_dt 6 0]%Z h,
            m_run ex_d (so_sdpa ex_d 2) o [ex_dt 4 0; ex_dt 5 1; ex_dt 6 0]%Z h with
      | Ok ([Some a; Some b; Some c], _, _), Ok ([Some a'; Some b'; Some c'], _, _) =>
          map (map pri) a = map (map pri) a' /\ a <> a' /\ b <> b' /\ c = c' /\ map (map tan) c <> [[0%Z]]
      | _, _ => False
      end
  | _ => False
  end.
Proof. split; [unfold supported, ex_d; cbn; repeat split; lia|]. vm_compute. repeat split; discriminate. Qed.
