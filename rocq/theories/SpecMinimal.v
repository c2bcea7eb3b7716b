(** Specification of sudokus in which every number is needed. *)
From Verif Require Export SpecFind.

(** A unique solution, which is lost with every number that is taken away. *)
Definition irreducible (s : sudoku) : Prop :=
  unique_solution s /\
  forall p t, field s p -> num s p <> 0 -> setitem s (fst p) (snd p) 0 = Ok t -> ~ unique_solution t.

(** Room is left in every row, column and box, and for every number. *)
Definition roomy (s : sudoku) : Prop :=
  (forall k p, field s p -> exists q, unit_at s k p q /\ num s q = 0) /\
  (forall v, 1 <= v <= box_width s * box_height s -> exists r, 0 <= r < box_width s * box_height s /\
     forall c, field s (r, c) -> num s (r, c) <> v) /\
  exists n, count s = Ok n /\ n <= box_width s * box_height s * (box_width s * box_height s - 1).
