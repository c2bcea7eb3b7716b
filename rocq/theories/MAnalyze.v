(** Model of sudokutools/analyze.py, without rate() and score() (see MRate.v). *)
From Verif Require Export MSolve.

(** analyze.py:120-145 find_conflicts, a generator over the shared sudoku;
    [coords = []] stands for no coordinates given. *)
Definition find_conflicts (s : sudoku) (cs : list coord)
  : gen sudoku (coord * coord * Z) sudoku :=
  let cs := match cs with [] => coords s | _ => cs end in
  gfor (fun s rc =>
          do* value := lift (getitem s (fst rc) (snd rc)) in
          if value =? 0 then Ret s
          else
            do* sur := lift (surrounding_of s (fst rc) (snd rc) false) in
            gfor (fun s ij =>
                    do* v := lift (getitem s (fst ij) (snd ij)) in
                    if v =? value then yield (rc, ij, value) else Ret s)
                 sur s)
       cs s.

(** analyze.py:82-91 is_solved *)
Definition is_solved (s : sudoku) : res bool :=
  let* e := glist (empty s) s in
  match e with
  | _ :: _ => Ok false
  | [] =>
      let* c := glist (find_conflicts s []) s in
      match c with
      | _ :: _ => Ok false
      | [] => Ok true
      end
  end.

(** analyze.py:94-117 is_unique *)
Definition is_unique (ord : list xrow -> list xrow -> list xrow) (s : sudoku) : res bool :=
  let solutions := dlx ord s in
  match gnext solutions with
  | Err StopIteration => Ok false
  | Err e => Err e
  | Ok (_, solutions) =>
      match gnext solutions with
      | Ok _ => Ok false
      | Err StopIteration => Ok true
      | Err e => Err e
      end
  end.
