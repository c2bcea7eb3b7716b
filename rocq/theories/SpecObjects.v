(** When a sudoku of ints stands for a sudoku of arbitrary objects (see MObjects.v). *)
From Verif Require Export Spec MObjects.

(** [t] stands for [s]: a field of [t] is empty iff the object is false; a true object is equal to the objects
    with the same number, and it is found under its number in a dict -- or equal to no int, and then its number is
    none of 1..N.  (For instance True, 1.0 and 1 are all 1; the strings may be -1, -2, ...; None and "" are 0.) *)
Definition stands (O : objects) (s t : sudoku) : Prop :=
  wf s /\ wf t /\ box_size t = box_size s /\
  (forall p, field s p -> truth O (num s p) = negb (num t p =? 0)) /\
  (forall p q, field s p -> field s q -> truth O (num s p) = true ->
     oeq O (num s q) (num s p) = (num t q =? num t p)) /\
  (forall p, field s p -> okey O (num s p) = Ok (Some (num t p)) \/
     okey O (num s p) = Ok None /\ ~ 1 <= num t p <= box_width s * box_height s).

(** [y] is [s] with the numbers of the sudoku of ints [z] in the fields with false objects. *)
Definition fills_in (O : objects) (s y z : sudoku) : Prop :=
  wf y /\ box_size y = box_size s /\
  forall p, field s p -> num y p = if truth O (num s p) then num s p else oint O (num z p).
