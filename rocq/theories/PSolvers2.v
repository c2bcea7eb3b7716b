(** Properties C41 (continued) and C88: solve() on arbitrary sudokus.  Statements use only the model functions
    and the specification files; the proofs are in the L*.v files. *)
From Verif Require Import LSolvers5 LSolvers6 LCheck PSolvers.

(** C41: on every sudoku solve() either stops within a number of rounds that depends on the box size only, or never. *)
Theorem C41_stops_or_never : forall o s, oracle_ok o -> wf s ->
  (forall fuel, solve fuel o s = Err OutOfFuel) \/
  (exists l u, forall fuel, (states_bound s + fuel_bound s < fuel)%nat -> solve fuel o s = Ok (l, u)).
Proof. exact C41_decided_proof. Qed.
Print Assumptions C41_stops_or_never.

Example C41_stops_ex : (exists f, solution tup4 f) /\ (exists l u, solve (fuel_bound tup4) o_ex tup4 = Ok (l, u)) /\ solve 40 o_ex dead4 = Err OutOfFuel.
Proof.
  split; [exists (num tup4sol); apply solutionb_ok; vm_compute; reflexivity|].
  split; [eexists; eexists|]; vm_compute; reflexivity.
Qed.

(** C88: solve() never raises an exception; if it returns, the result has the numbers given, every field has a candidate, and it is a complete valid grid if and only if the sudoku has a solution. *)
Theorem C88_any_sudoku : forall o s fuel, oracle_ok o -> wf s ->
  solve fuel o s = Err OutOfFuel \/
  exists l u, solve fuel o s = Ok (l, u) /\ like s u /\
    (forall p, field s p -> num s p <> 0 -> num u p = num s p) /\
    (forall p, field s p -> cand u p <> []) /\
    (valid_grid (box_width s) (box_height s) (num u) <-> exists f, solution s f) /\
    ((exists f, solution u f) <-> exists f, solution s f).
Proof. exact C88_proof. Qed.
Print Assumptions C88_any_sudoku.

(** A sudoku without a solution (two 2s in the last row, one field empty): solve() returns a full grid with conflicts. *)
Definition bad4 : sudoku := of_rows 2 2 [[0;3;2;4];[2;4;1;3];[3;1;4;2];[4;2;3;2]].
Example C88_ex : wf bad4 /\ exists l u, solve 10 o_ex bad4 = Ok (l, u) /\
  s_numbers u = [[1;3;2;4];[2;4;1;3];[3;1;4;2];[4;2;3;2]] /\ is_solved u = Ok false.
Proof. split; [apply wfb_ok; vm_compute; reflexivity|]. eexists; eexists; split; [vm_compute; reflexivity|]. split; [> vm_compute; reflexivity ..]. Qed.
