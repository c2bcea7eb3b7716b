(** solve() with its callback [report] (solvers.py:557-586).  In MSolvers.v the
    steps passed to the callback are returned as a list; here the callback is a
    function: it takes its own state and the step as [find] yields it, it may
    raise an exception, and it may change the step (the object is applied
    afterwards).  Simplified: the callback does not change [solution] itself
    (it has no reference to it but through the frames of the interpreter). *)
From Verif Require Export MSolvers.

Section Report.
Variable W : Type.
Variable report : W -> step -> res (W * step).

(** solvers.py:576-579: report, apply and count every step found; the state of
    the callback, [count] and the solution *)
Fixpoint drive_report (g : gen sudoku step sudoku) (w : W) (s : sudoku) : res (W * Z * sudoku) :=
  match g with
  | Ret _ => Ok (w, 0, s)
  | Raise e => Err e
  | Yield st k =>
      let* (w, st) := report w st in
      let* (_, s) := apply st s in
      let* (w, n, s) := drive_report (k s) w s in
      Ok (w, 1 + n, s)
  end.

(** solvers.py:573-584: one pass of the for loop; False if it was not left with
    break *)
Fixpoint solve_round_report (o : oracle) (l : list solver) (w : W) (s : sudoku) : res (W * bool * sudoku) :=
  match l with
  | [] => Ok (w, false, s)
  | cls :: t =>
      let* (w, count, s) := drive_report (find o cls s) w s in
      if 0 <? count then Ok (w, true, s) else solve_round_report o t w s
  end.

(** solvers.py:572-584: the while loop *)
Fixpoint solve_loop_report (fuel : nat) (o : oracle) (w : W) (s : sudoku) : res (W * sudoku) :=
  match fuel with
  | O => Err OutOfFuel
  | S fuel =>
      let* (w, again, s) := solve_round_report o SOLVERS w s in
      if again : bool then solve_loop_report fuel o w s else Ok (w, s)
  end.

(** solvers.py:557-586 solve(sudoku, report) *)
Definition solve_report (fuel : nat) (o : oracle) (w : W) (s : sudoku) : res (W * sudoku) :=
  let* s := copy s false in
  let* s := init_candidates s true in
  solve_loop_report fuel o w s.
End Report.
