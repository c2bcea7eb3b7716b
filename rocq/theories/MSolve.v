(** Model of sudokutools/solve.py. *)
From Verif Require Export MSudoku PyDict MDlx.

(** solve.py:23-42 calc_candidates *)
Definition calc_candidates (s : sudoku) (row col : Z) : res zset :=
  let* v := getitem s row col in
  if negb (v =? 0) then Ok [v]
  else
    let* sur := surrounding_of s row col false in
    foldM (fun candidates ij =>
             let* v := getitem s (fst ij) (snd ij) in
             Ok (sdiscard zcmp v candidates))
          sur (sof_list zcmp (numbers s)).

(** solve.py:45-61 init_candidates *)
Definition init_candidates (s : sudoku) (filled_only : bool) : res sudoku :=
  foldM (fun s rc =>
           let* v := getitem s (fst rc) (snd rc) in
           if negb filled_only || negb (v =? 0) then
             let* c := calc_candidates s (fst rc) (snd rc) in
             set_candidates s (fst rc) (snd rc) c
           else Ok s)
        (coords s) s.

(** solve.py:64-75 dlx.  [ord] is the iteration order of the sets of dlx.py:70.
    The copy of line 73 is taken when the generator is started; the model takes
    it when it is created. *)
Definition dlx (ord : list xrow -> list xrow -> list xrow) (s : sudoku)
  : gen unit sudoku unit :=
  do* solution := lift (copy s false) in
  do* _ := gforgen (fun st solution =>
                      do* c := lift (copy solution false) in
                      do* _ := yield c in
                      Ret st)
                   (do_dlx ord solution) (tt, tt) in
  Ret tt.

(** solve.py:110-111: sorted by number of candidates, stable *)
Definition sort_by_len (s : sudoku) (l : list coord) : res (list coord) :=
  let* keyed := mapM (fun rc => let* c := get_candidates s (fst rc) (snd rc) in
                                Ok (py_len c, rc)) l in
  Ok (map snd (sort_by (fun a b : Z * coord => fst a <=? fst b) keyed)).

(** solve.py:123-126: the dict saved_candidates and the changed sudoku *)
Definition save_and_remove (s : sudoku) (row col candidate : Z) (sur : list coord)
  : res (list (coord * zset) * sudoku) :=
  let* c := get_candidates s row col in
  foldM (fun '(saved, s) ij =>
           let* c := get_candidates s (fst ij) (snd ij) in
           let saved := dset coord_eqb saved ij c in
           let* s := remove_candidates s (fst ij) (snd ij) [candidate] in
           Ok (saved, s))
        sur ([((row, col), c)], s).

(** solve.py:132-133 *)
Definition restore (s : sudoku) (saved : list (coord * zset)) : res sudoku :=
  foldM (fun s e => set_candidates s (fst (fst e)) (snd (fst e)) (snd e)) saved s.

(** solve.py:103-134 _do_bruteforce.  [ord s cands] is the order in which the
    candidate set of line 119 is enumerated; the generator returns the sudoku
    object as it is left behind. *)
Fixpoint do_bruteforce (fuel : nat) (ord : sudoku -> zset -> list Z) (s : sudoku)
  : gen unit sudoku sudoku :=
  match fuel with
  | O => Raise OutOfFuel
  | S fuel =>
      do* l := lift (glist (empty s) s) in
      do* sorted_empty := lift (sort_by_len s l) in
      match sorted_empty with
      | [] => do* _ := yield s in Ret s
      | (row, col) :: _ =>
          do* cands := lift (get_candidates s row col) in
          gfor (fun s candidate =>
                  do* s := lift (setitem s row col candidate) in
                  do* sur := lift (surrounding_of s row col false) in
                  do* (saved, s) := lift (save_and_remove s row col candidate sur) in
                  do* s := do_bruteforce fuel ord s in
                  do* s := lift (restore s saved) in
                  lift (setitem s row col 0))
               (ord s cands) s
      end
  end.

(** solve.py:90-95: True iff the function returns early *)
Definition has_conflict (s : sudoku) : res bool :=
  anyM (fun rc =>
          let* value := getitem s (fst rc) (snd rc) in
          if negb (value =? 0) then
            let* sur := surrounding_of s (fst rc) (snd rc) false in
            anyM (fun ij => let* v := getitem s (fst ij) (snd ij) in Ok (v =? value)) sur
          else Ok false)
       (coords s).

(** solve.py:78-100 bruteforce *)
Definition bruteforce (ord : sudoku -> zset -> list Z) (s : sudoku)
  : gen unit sudoku unit :=
  do* b := lift (has_conflict s) in
  if b : bool then Ret tt
  else
    do* solution := lift (copy s false) in
    do* solution := lift (init_candidates solution false) in
    do* _ := gforgen (fun st solution =>
                        do* c := lift (copy solution false) in
                        do* _ := yield c in
                        Ret st)
                     (do_bruteforce (S (length (coords s))) ord solution) (tt, tt) in
    Ret tt.
