(** Coordinates that count from the end, as Python's lists allow them. *)
From Verif Require Export Spec.

(** A pair of indices that s[row, col] accepts, and the field it denotes. *)
Definition valid_pair (s : sudoku) (p : coord) : Prop :=
  valid_index s (fst p) /\ valid_index s (snd p).
Definition spot (s : sudoku) (p : coord) : coord :=
  (fst p mod (box_width s * box_height s), snd p mod (box_width s * box_height s)).
Definition spots (s : sudoku) (l : list coord) : list coord := map (spot s) l.
Definition from_end (p : coord) : Prop := fst p < 0 \/ snd p < 0.
