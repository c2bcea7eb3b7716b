(** Model of rate and score in sudokutools/analyze.py. *)
From Verif Require Export MSolvers.

(** analyze.py:22-40 RATINGS; looking up another class raises KeyError *)
Definition RATINGS (cls : solver) : res Z :=
  match cls with
  | CalculateCandidates => Ok 0
  | NakedSingle | HiddenSingle => Ok 1
  | NakedTuple 2 | HiddenTuple 2 | NakedTuple 3 | HiddenTuple 3 => Ok 2
  | NakedTuple 4 | HiddenTuple 4 | NakedTuple 5 | HiddenTuple 5 => Ok 3
  | PointingTuple 2 | PointingTuple 3 => Ok 4
  | BasicFish 2 => Ok 5
  | BasicFish 3 => Ok 6
  | BasicFish 4 => Ok 7
  | Bruteforce => Ok 10
  | _ => Err KeyError
  end.

(** max() of a list; ValueError if it is empty (analyze.py:59-61) *)
Definition py_max (l : list Z) : res Z :=
  match l with
  | [] => Err ValueError
  | x :: t => Ok (fold_left Z.max t x)
  end.

(** analyze.py:43-61 rate.  The try block contains only max() and the list
    of ratings, whose only other exception is KeyError. *)
Definition rate (fuel : nat) (o : oracle) (s : sudoku) : res Z :=
  let* (steps, _) := solve fuel o s in
  let* l := mapM (fun st => RATINGS (st_class st)) steps in
  match py_max l with
  | Err ValueError => Ok 0
  | r => r
  end.

(** analyze.py:64-79 score *)
Definition score (fuel : nat) (o : oracle) (s : sudoku) : res Z :=
  let* (steps, _) := solve fuel o s in
  let* l := mapM (fun st => RATINGS (st_class st)) steps in
  Ok (fold_left Z.add l 0).
