(** Names of parameters: what a flattened name is, without reference to the model. *)
From Coq Require Import List String Ascii.
Import ListNotations.
Open Scope string_scope.

(** A part of a name that is a number. *)
Definition numeric (p : string) : Prop :=
  p <> "" /\ forall a, In a (list_ascii_of_string p) -> In a (list_ascii_of_string "0123456789").

(** A part of a name does not contain the separator. *)
Definition undotted (p : string) : Prop := ~ In "."%char (list_ascii_of_string p).

(** [qs] are the parts [ps] without the numbers. *)
Inductive without_numbers : list string -> list string -> Prop :=
| wn_nil : without_numbers [] []
| wn_drop p ps qs : numeric p -> without_numbers ps qs -> without_numbers (p :: ps) qs
| wn_keep p ps qs : ~ numeric p -> without_numbers ps qs -> without_numbers (p :: ps) (p :: qs).
