(** Specification of patterns of numbers that are too poor for a unique solution. *)
From Verif Require Export SpecEquiv.

Definition row_empty (s : sudoku) (r : Z) : Prop := forall c, field s (r, c) -> num s (r, c) = 0.
Definition column_empty (s : sudoku) (c : Z) : Prop := forall r, field s (r, c) -> num s (r, c) = 0.

(** Fewer than N - 1 numbers; two empty rows of a band, two empty columns of a stack; two empty bands, two empty stacks. *)
Inductive poor (s : sudoku) : Prop :=
| poor_count : forall n, count s = Ok n -> n < box_width s * box_height s - 1 -> poor s
| poor_rows : forall r r', 0 <= r < box_width s * box_height s -> 0 <= r' < box_width s * box_height s -> r <> r' ->
    r / box_height s = r' / box_height s -> row_empty s r -> row_empty s r' -> poor s
| poor_columns : forall c c', 0 <= c < box_width s * box_height s -> 0 <= c' < box_width s * box_height s -> c <> c' ->
    c / box_width s = c' / box_width s -> column_empty s c -> column_empty s c' -> poor s
| poor_bands : forall b b', 0 <= b < box_width s -> 0 <= b' < box_width s -> b <> b' ->
    (forall r, r / box_height s = b \/ r / box_height s = b' -> row_empty s r) -> poor s
| poor_stacks : forall b b', 0 <= b < box_height s -> 0 <= b' < box_height s -> b <> b' ->
    (forall c, c / box_width s = b \/ c / box_width s = b' -> column_empty s c) -> poor s.
