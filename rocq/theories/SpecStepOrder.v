(** The order of Python's tuples, stated by the first place where they differ. *)
From Verif Require Export SpecSolvers.

Definition first_less {A} (less : A -> A -> Prop) (l m : list A) : Prop :=
  (exists x r, m = l ++ x :: r) \/
  (exists p a b l' m', l = p ++ a :: l' /\ m = p ++ b :: m' /\ less a b).

(** First the clues are compared, then the affected fields, then the values. *)
Definition step_less (a b : step) : Prop :=
  first_less lex_lt (clues a) (clues b) \/
  (clues a = clues b /\ first_less lex_lt (affected a) (affected b)) \/
  (clues a = clues b /\ affected a = affected b /\ first_less Z.lt (values a) (values b)).

(** [m] is [l] in ascending order, with repetitions. *)
Definition ascending {A} (less : A -> A -> Prop) (l m : list A) : Prop :=
  Permutation l m /\ StronglySorted (fun a b => ~ less b a) m.
