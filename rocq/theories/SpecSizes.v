(** Specification of the ratings of the classes and of the classes that can be of use in a sudoku of a given size. *)
From Verif Require Export MRate.

(** analyze.py:22-40: the rating of every class of SOLVERS. *)
Inductive rated : Z -> solver -> Prop :=
| rated_candidates : rated 0 CalculateCandidates
| rated_naked_single : rated 1 NakedSingle
| rated_hidden_single : rated 1 HiddenSingle
| rated_naked_pair : rated 2 (NakedTuple 2)
| rated_hidden_pair : rated 2 (HiddenTuple 2)
| rated_naked_triple : rated 2 (NakedTuple 3)
| rated_hidden_triple : rated 2 (HiddenTuple 3)
| rated_naked_quad : rated 3 (NakedTuple 4)
| rated_hidden_quad : rated 3 (HiddenTuple 4)
| rated_naked_quint : rated 3 (NakedTuple 5)
| rated_hidden_quint : rated 3 (HiddenTuple 5)
| rated_pointing_pair : rated 4 (PointingTuple 2)
| rated_pointing_triple : rated 4 (PointingTuple 3)
| rated_xwing : rated 5 (BasicFish 2)
| rated_swordfish : rated 6 (BasicFish 3)
| rated_jellyfish : rated 7 (BasicFish 4)
| rated_bruteforce : rated 10 Bruteforce.

(** The sizes of steps for a sudoku with boxes of size [w] times [h]: naked tuples and fish of at most half of the numbers and
    lines, hidden tuples of less than half of the numbers, pointing tuples that fit into a line of a box. *)
Definition fits (w h : Z) (cls : solver) : Prop :=
  match cls with
  | NakedTuple n => 2 * Z.of_nat n <= w * h
  | HiddenTuple n => 2 * Z.of_nat n < w * h
  | PointingTuple n => 2 <= w /\ 2 <= h /\ Z.of_nat n <= Z.max w h
  | BasicFish n => 2 * Z.of_nat n <= w * h
  | _ => True
  end.
