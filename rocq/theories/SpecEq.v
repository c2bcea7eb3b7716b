(** Specification of == for sudokus. *)
From Verif Require Export Spec.

(** The exceptions that make == False *)
Definition caught (e : exn) : Prop := e = IndexError \/ e = KeyError \/ e = TypeError.
(** [a] has at most the size of [b] and the fields of [a] are the upper left corner of [b]. *)
Definition corner_of (a b : sudoku) : Prop :=
  box_width a * box_height a <= box_width b * box_height b /\ forall p, field a p -> num a p = num b p.
