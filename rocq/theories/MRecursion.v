(** Model of the recursive searches of solve.py and dlx.py with a limit on the depth of the recursion.
    [room] is the number of calls of _do_bruteforce (or of solve in dlx.py) that can be active at the same time
    before Python raises RecursionError (sys.getrecursionlimit() minus the frames of the callers and those of
    the functions called last); RecursionError is [OutOfFuel] here.  The functions are those of MSolve.v and
    MDlx.v, where the depth is sufficient. *)
From Verif Require Export MSolve.

(** solve.py:78-100 bruteforce *)
Definition bruteforce_within (room : nat) (ord : sudoku -> zset -> list Z) (s : sudoku)
  : gen unit sudoku unit :=
  do* b := lift (has_conflict s) in
  if b : bool then Ret tt
  else
    do* solution := lift (copy s false) in
    do* solution := lift (init_candidates solution false) in
    do* _ := gforgen (fun st solution =>
                        do* c := lift (copy solution false) in
                        do* _ := yield c in
                        Ret st)
                     (do_bruteforce room ord solution) (tt, tt) in
    Ret tt.

(** dlx.py:23-54 do_dlx *)
Definition do_dlx_within (room : nat) (ord : list xrow -> list xrow -> list xrow) (s : sudoku)
  : gen unit sudoku unit :=
  let R := box_height s in
  let C := box_width s in
  let N := R * C in
  let Y := build_Y R C in
  do* X := lift (exact_cover (all_keys N) Y) in
  do* X := lift (select_givens s Y (coords s) X) in
  match X with
  | None => Ret tt
  | Some X =>
      do* _ := gforgen (fun '(tt, s) solution =>
                          do* s := lift (write_rows s solution) in
                          do* _ := yield s in
                          Ret (tt, s))
                       (xsolve room ord Y X []) (tt, s) in
      Ret tt
  end.

(** solve.py:64-75 dlx *)
Definition dlx_within (room : nat) (ord : list xrow -> list xrow -> list xrow) (s : sudoku)
  : gen unit sudoku unit :=
  do* solution := lift (copy s false) in
  do* _ := gforgen (fun st solution =>
                      do* c := lift (copy solution false) in
                      do* _ := yield c in
                      Ret st)
                   (do_dlx_within room ord solution) (tt, tt) in
  Ret tt.
