(** Specification of the duality of naked and hidden tuples. *)
From Verif Require Export SpecFind.

(** In the unit of kind [k] of [q] the candidates are numbers of the sudoku, and the only candidate of a field is no
    candidate of another field. *)
Definition settled (s : sudoku) (k : kind) (q : coord) : Prop :=
  (forall p v, unit_at s k q p -> In v (cand s p) -> 1 <= v <= box_width s * box_height s) /\
  (forall p p' v, unit_at s k q p -> unit_at s k q p' -> p' <> p -> cand s p = [v] -> ~ In v (cand s p')).

(** No field of this unit with two or more candidates is the only place of a number. *)
Definition no_hidden (s : sudoku) (k : kind) (q : coord) : Prop :=
  forall p v, unit_at s k q p -> (2 <= length (cand s p))%nat -> ~ hidden_value s k p v.

(** Applied to [s], both steps succeed and leave the same sudoku. *)
Definition same_effect (s : sudoku) (a b : step) : Prop :=
  exists a' b' t, apply a s = Ok (a', t) /\ apply b s = Ok (b', t).
