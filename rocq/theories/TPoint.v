(** [co.Linear] (continual/linear.py) and [co.Reshape] (continual/shape.py) on whole tensors
    of any rank. *)
From Coq Require Import List ZArith Bool Arith.
From Verif Require Import Base Attn Frames Tensor TAttn.
From Verif Require Point.
Import ListNotations.

Section TPoint.
Context {K : Type} {SC : Scal K}.

(** torch's reading of a dimension given as a number: negative ones count from the end;
    tensors without dimensions are treated like those with one. *)
Definition axis (n : nat) (d : Z) : res nat :=
  let n := Z.of_nat (Nat.max 1 n) in
  if Z.leb (- n) d && Z.ltb d n then Ok (Z.to_nat (if Z.ltb d 0 then d + n else d))
  else Err IndexError.

(** [x.swapaxes(d1, d2)]. *)
Definition exchange (i j k : nat) : nat := if Nat.eqb k i then j else if Nat.eqb k j then i else k.
Definition exchanged (i j : nat) (l : list nat) : list nat :=
  map (fun k => nth (exchange i j k) l 0) (seq 0 (length l)).
Definition swapaxes (d1 d2 : Z) (x : tens K) : res (tens K) :=
  i <- axis (length (sh x)) d1 ;;
  j <- axis (length (sh x)) d2 ;;
  Ok (T (exchanged i j (sh x))
        (tab (exchanged i j (sh x)) (fun ix => at_ (sh x) (dat x) (map Z.of_nat (exchanged i j ix))))).

(** torch [linear]: over the last dimension. *)
Definition flinear (cin cout : nat) (w : list K) (b : option (list K)) (x : tens K) : res (tens K) :=
  match sh x with
  | [] => Err RuntimeError
  | _ :: _ =>
      if Nat.eqb (last (sh x) 0) cin then
        let s := removelast (sh x) ++ [cout] in
        Ok (T s (tab s (fun ix =>
              let q := removelast ix in
              let o := last ix 0 in
              sadd (bias_at b o)
                   (ksum (map (fun i => smul (at_ [cout; cin] w (map Z.of_nat [o; i]))
                                             (at_ (sh x) (dat x) (map Z.of_nat (q ++ [i])))) (seq 0 cin))))))
      else Err RuntimeError
  end.

(** linear.py:79-88 [forward]. *)
Definition tl_forward (d : Z) (cin cout : nat) (w : list K) (b : option (list K)) (x : tens K) : res (tens K) :=
  x1 <- (if Z.eqb d (-1) then Ok x else swapaxes d (-1) x) ;;
  y <- flinear cin cout w b x1 ;;
  if Z.eqb d (-1) then Ok y else swapaxes d (-1) y.
(** linear.py:90-91 and 96-97. *)
Definition tl_forward_step (d : Z) cin cout w b (x : tens K) (upd : bool) := tl_forward d cin cout w b x.
Definition tl_forward_steps (d : Z) cin cout w b (x : tens K) (pe upd : bool) := tl_forward d cin cout w b x.

(** [x.moveaxis(2, 0)] and [x.moveaxis(0, 2)]. *)
Definition moveaxis20 (x : tens K) : res (tens K) :=
  match sh x with
  | a :: b :: c :: r =>
      Ok (T (c :: a :: b :: r) (tab (c :: a :: b :: r) (fun ix => match ix with
            | k :: i :: j :: q => at_ (sh x) (dat x) (map Z.of_nat (i :: j :: k :: q))
            | _ => s0
            end)))
  | _ => Err IndexError
  end.
Definition moveaxis02 (x : tens K) : res (tens K) :=
  match sh x with
  | c :: a :: b :: r =>
      Ok (T (a :: b :: c :: r) (tab (a :: b :: c :: r) (fun ix => match ix with
            | i :: j :: k :: q => at_ (sh x) (dat x) (map Z.of_nat (k :: i :: j :: q))
            | _ => s0
            end)))
  | _ => Err IndexError
  end.

(** [x.reshape(shape)]: one entry may be -1 and is inferred; the entries keep their
    row-major order. *)
Definition treshape (shape : list Z) (x : tens K) : res (tens K) :=
  d <- Point.resolve (Z.of_nat (length (dat x))) shape ;; Ok (T (map Z.to_nat d) (dat x)).

(** shape.py:48-53 [forward]; [contiguous] changes no values. *)
Definition tr_forward (shape : list Z) (x : tens K) : res (tens K) :=
  match nth_error (sh x) 2 with
  | None => Err IndexError
  | Some t => x1 <- moveaxis20 x ;; x2 <- treshape (Z.of_nat t :: shape) x1 ;; moveaxis02 x2
  end.
(** shape.py:55-56. *)
Definition tr_forward_steps (shape : list Z) (x : tens K) (pe upd : bool) := tr_forward shape x.
(** shape.py:58-65. *)
Definition tr_forward_step (shape : list Z) (x : tens K) (upd : bool) := treshape shape x.

End TPoint.
