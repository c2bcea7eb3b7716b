(** Specification of what a rating means: a sudoku is solved with the help of hints that are not rated higher. *)
From Verif Require Export SpecFind MRate.

(** The step is found by a class that is not rated higher than [r], whatever the order of Python's sets is. *)
Definition hint_up_to (r : Z) (s : sudoku) (st : step) : Prop :=
  exists o cls ys k, oracle_ok o /\ all_steps o cls s ys /\ In st ys /\ RATINGS cls = Ok k /\ k <= r.

(** Such steps, one after the other, each looked for in the sudoku left by the one before. *)
Inductive play (r : Z) : sudoku -> sudoku -> Prop :=
| play_stop : forall s, play r s s
| play_step : forall s st st' s1 t, hint_up_to r s st -> apply st s = Ok (st', s1) -> play r s1 t -> play r s t.

Definition solvable_with (r : Z) (s : sudoku) : Prop := exists t, play r s t /\ complete t.

(** No hint is left. *)
Definition stuck (r : Z) (s : sudoku) : Prop := forall st, ~ hint_up_to r s st.
