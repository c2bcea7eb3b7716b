(** Specification for box sizes with two negative numbers: the grid has rows and columns but no
    boxes, so that its solutions are the Latin squares. *)
From Verif Require Export Spec SpecShell.

(** Two different fields in one row or column. *)
Definition line_peers (p q : coord) : Prop := p <> q /\ (same_row p q \/ same_col p q).

(** No number twice in a row or column. *)
Definition lines_differ (s : sudoku) : Prop :=
  forall p q, field s p -> field s q -> line_peers p q -> num s p <> 0 -> num s p <> num s q.

(** [f] keeps the numbers of [s], fills the empty fields with numbers 1..N and has no number twice
    in a row or column. *)
Definition latin_completion (s : sudoku) (f : grid) : Prop :=
  (forall p, field s p ->
     (num s p <> 0 -> f p = num s p) /\
     (num s p = 0 -> 1 <= f p <= box_width s * box_height s)) /\
  (forall p q, field s p -> field s q -> line_peers p q -> f p <> f q).

(** The sudokus [ys] have the size of [s] and show exactly the grids described by [P], each once. *)
Definition lists_exactly (s : sudoku) (P : grid -> Prop) (ys : list sudoku) : Prop :=
  (forall y, In y ys -> sudoku_ok y /\ box_size y = box_size s /\ P (num y)) /\
  (forall f, P f -> exists y, In y ys /\ shows y f) /\
  ForallOrdPairs (fun a b => exists p, field s p /\ num a p <> num b p) ys.
