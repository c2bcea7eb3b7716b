(** Specification of what may depend on the order in which Python iterates over a set. *)
From Verif Require Export SpecSolvers MRate.

(** Only Bruteforce steps. *)
Definition brutes (l : list step) : Prop := forall st, In st l -> st_class st = Bruteforce.

(** Two results of solve(): they fail alike, or they succeed alike, or the steps agree until the sudoku is filled by
    Bruteforce, which takes the same number of steps in both. *)
Definition alike (x y : res (list step * sudoku)) : Prop :=
  x = y \/
  exists c b b' u u', x = Ok (c ++ b, u) /\ y = Ok (c ++ b', u') /\ brutes b /\ brutes b' /\ length b = length b'.
