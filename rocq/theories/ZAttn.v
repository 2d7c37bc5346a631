(** Concrete attention modules over exact rationals, for the examples. The
    exponential is replaced by the polynomial 1 + x + x^2/2, which is not
    constant and makes every example computable. *)
From Coq Require Import List ZArith Bool Arith Lia QArith Qcanon Field.
From Verif Require Import Base Attn AttnSpec.
Import ListNotations.
Close Scope Q_scope.

#[export] Instance NumQ : Num Qc :=
  {| k0 := 0%Qc; k1 := 1%Qc; kadd := Qcplus; kopp := Qcopp; kmul := Qcmult;
            kdiv := Qcdiv; kexp := fun x => (1 + x + x * x * Q2Qc (1 # 2))%Qc |}.
#[export] Instance NumQLaws : NumLaws Qc.
Proof. split; cbn; intros; unfold Qcdiv; ring. Qed.

(** Whole numbers as rationals, and vectors of them. *)
Definition z (n : Z) : Qc := Q2Qc (inject_Z n).
Definition zv (l : list Z) : vec Qc := map z l.

(** Two heads of dimension one. The projections mix the two entries of a token
    so that queries, keys and values of a token all differ. *)
Definition ac (N : nat) : cfg Qc :=
  Cfg N 2 1 (fun x => (x * Q2Qc (1 # 2))%Qc)
      (fun x => [[nth 0 x 0%Qc]; [nth 1 x 0%Qc]])
      (fun x => [[nth 1 x 0%Qc]; [nth 0 x 0%Qc]])
      (fun x => [[(nth 0 x 0%Qc + nth 1 x 0%Qc)%Qc]; [nth 0 x 0%Qc]])
      (fun hs => concat hs) None true false.

Lemma ac_supported N : supported (ac N).
Proof. unfold supported. cbn. repeat split; auto. Qed.

(** Self-attention on a token. *)
Definition self (x : vec Qc) : tok Qc := (x, x, x).
Definition stream (l : list (list Z)) : list (tok Qc) := map (fun x => self (zv x)) l.
Definition ex_ts := stream [[1; 2]; [3; -1]; [0; 4]; [2; 2]; [-3; 1]; [5; 0]]%Z.

(** Printable values. *)
Definition show (o : option (list (vec Qc))) : option (list (list Q)) :=
  option_map (map (map this)) o.
Definition shows {S} (r : res (list (option (list (vec Qc))) * S * cells))
  : res (list (option (list (list Q)))) :=
  '(outs, _, _) <- r ;; Ok (map show outs).
Definition show1 {S} (r : res (option (list (vec Qc)) * S * cells))
  : res (option (list (list Q))) := '(o, _, _) <- r ;; Ok (show o).

(** State and cells of a module after a stream. *)
Definition after {p} (c : cfg Qc) (ts : list (tok Qc)) : option (mstate p) * cells :=
  match m_run c p None ts [] with Ok (_, o, h) => (o, h) | Err _ => (None, []) end.
