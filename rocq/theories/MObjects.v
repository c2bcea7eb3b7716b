(** Sudokus whose fields hold arbitrary Python objects (strings, floats, None, lists, ...).  A field holds a reference;
    the numbers of the model are here the names of the objects, so __getitem__, __setitem__ and copy() are those of
    MSudoku.v.  Below are the functions that look at the objects. *)
From Verif Require Export MAnalyze.

(** What the code does with the content of a field.  The operations are taken not to raise, except hash(). (sudoku.py:77-162, analyze.py:120-145, solve.py:23-42, dlx.py:42-53) *)
Record objects : Type := mkObjects {
  truth : Z -> bool;            (* bool(x) *)
  oeq : Z -> Z -> bool;         (* bool(x == y) *)
  one : Z -> Z -> bool;         (* bool(x != y) *)
  okey : Z -> res (option Z);   (* x as (part of) a key among ints: the int it equals, if any; TypeError if not hashable
                                   (a set is not hashable, but discard() accepts it: sets are left out) *)
  oint : Z -> Z                 (* the object that is the int n *)
}.

(** sudoku.py:77-85 empty *)
Definition empty_o (O : objects) (s : sudoku) : gen sudoku coord sudoku :=
  gfor (fun s rc =>
          do* v := lift (getitem s (fst rc) (snd rc)) in
          if negb (truth O v) then yield rc else Ret s)
       (coords s) s.

(** sudoku.py:87-95 filled *)
Definition filled_o (O : objects) (s : sudoku) : gen sudoku coord sudoku :=
  gfor (fun s rc =>
          do* v := lift (getitem s (fst rc) (snd rc)) in
          if truth O v then yield rc else Ret s)
       (coords s) s.

(** sudoku.py:97-103 count *)
Definition count_o (O : objects) (s : sudoku) : res Z :=
  let* l := glist (filled_o O s) s in Ok (py_len l).

(** sudoku.py:105-122 diff *)
Definition diff_o (O : objects) (s other : sudoku) : gen sudoku coord sudoku :=
  gfor (fun s rc =>
          do* a := lift (getitem s (fst rc) (snd rc)) in
          do* b := lift (getitem other (fst rc) (snd rc)) in
          if one O a b then yield rc else Ret s)
       (coords s) s.

(** sudoku.py:144-162 __eq__ for [other] a Sudoku *)
Fixpoint eq_loop_o (O : objects) (s other : sudoku) (l : list coord) : res bool :=
  match l with
  | [] => Ok true
  | rc :: t =>
      let* a := getitem s (fst rc) (snd rc) in
      let* b := getitem other (fst rc) (snd rc) in
      if one O a b then Ok false else eq_loop_o O s other t
  end.
(** sudoku.py:144-162 __eq__ *)
Definition sudoku_eq_o (O : objects) (s other : sudoku) : res bool :=
  match eq_loop_o O s other (coords s) with
  | Ok b => Ok b
  | Err IndexError | Err KeyError | Err TypeError => Ok false
  | Err e => Err e
  end.

(** analyze.py:120-145 find_conflicts *)
Definition find_conflicts_o (O : objects) (s : sudoku) (cs : list coord)
  : gen sudoku (coord * coord * Z) sudoku :=
  let cs := match cs with [] => coords s | _ => cs end in
  gfor (fun s rc =>
          do* value := lift (getitem s (fst rc) (snd rc)) in
          if negb (truth O value) then Ret s
          else
            do* sur := lift (surrounding_of s (fst rc) (snd rc) false) in
            gfor (fun s ij =>
                    do* v := lift (getitem s (fst ij) (snd ij)) in
                    if oeq O v value then yield (rc, ij, value) else Ret s)
                 sur s)
       cs s.

(** analyze.py:82-91 is_solved *)
Definition is_solved_o (O : objects) (s : sudoku) : res bool :=
  let* e := glist (empty_o O s) s in
  match e with
  | _ :: _ => Ok false
  | [] =>
      let* c := glist (find_conflicts_o O s []) s in
      match c with
      | _ :: _ => Ok false
      | [] => Ok true
      end
  end.

(** solve.py:23-42 calc_candidates.  The result is the set with one object ([inl]) or a set of ints ([inr]).  Both
    {x} and discard(x) raise TypeError if x is not hashable. *)
Definition calc_candidates_o (O : objects) (s : sudoku) (row col : Z) : res (Z + zset) :=
  let* v := getitem s row col in
  if truth O v then let* _ := okey O v in Ok (inl v)
  else
    let* sur := surrounding_of s row col false in
    let* l := foldM (fun candidates ij =>
                       let* v := getitem s (fst ij) (snd ij) in
                       let* k := okey O v in
                       match k with
                       | Some n => Ok (sdiscard zcmp n candidates)
                       | None => Ok candidates
                       end)
                    sur (sof_list zcmp (numbers s)) in
    Ok (inr l).

(** dlx.py:42-49: select the rows of the given objects; [None]: KeyError.  Y[(row, col, n)] hashes n and finds the
    row of the int that equals it. *)
Fixpoint select_givens_o (O : objects) (s : sudoku) (Y : ydict) (l : list coord) (X : xdict)
  : res (option xdict) :=
  match l with
  | [] => Ok (Some X)
  | rc :: t =>
      let* v := getitem s (fst rc) (snd rc) in
      if truth O v then
        let* k := okey O v in
        match k with
        | None => Ok None
        | Some n =>
            match select X Y (fst rc, snd rc, n) with
            | Ok (_, X) => select_givens_o O s Y t X
            | Err KeyError => Ok None
            | Err e => Err e
            end
        end
      else select_givens_o O s Y t X
  end.

(** dlx.py:52-53: write a solution (ints) into the sudoku *)
Definition write_rows_o (O : objects) (s : sudoku) (rows : list xrow) : res sudoku :=
  foldM (fun s i => let '(r, c, n) := i in setitem s r c (oint O n)) rows s.

(** dlx.py:23-54 do_dlx *)
Definition do_dlx_o (O : objects) (ord : list xrow -> list xrow -> list xrow) (s : sudoku)
  : gen unit sudoku unit :=
  let R := box_height s in
  let C := box_width s in
  let N := R * C in
  let Y := build_Y R C in
  do* X := lift (exact_cover (all_keys N) Y) in
  do* X := lift (select_givens_o O s Y (coords s) X) in
  match X with
  | None => Ret tt
  | Some X =>
      do* _ := gforgen (fun '(tt, s) solution =>
                          do* s := lift (write_rows_o O s solution) in
                          do* _ := yield s in
                          Ret (tt, s))
                       (xsolve (S (length (coords s))) ord Y X []) (tt, s) in
      Ret tt
  end.

(** solve.py:64-75 dlx *)
Definition dlx_o (O : objects) (ord : list xrow -> list xrow -> list xrow) (s : sudoku)
  : gen unit sudoku unit :=
  do* solution := lift (copy s false) in
  do* _ := gforgen (fun st solution =>
                      do* c := lift (copy solution false) in
                      do* _ := yield c in
                      Ret st)
                   (do_dlx_o O ord solution) (tt, tt) in
  Ret tt.

(** analyze.py:94-117 is_unique *)
Definition is_unique_o (O : objects) (ord : list xrow -> list xrow -> list xrow) (s : sudoku) : res bool :=
  let solutions := dlx_o O ord s in
  match gnext solutions with
  | Err StopIteration => Ok false
  | Err e => Err e
  | Ok (_, solutions) =>
      match gnext solutions with
      | Ok _ => Ok false
      | Err StopIteration => Ok true
      | Err e => Err e
      end
  end.

(** solve.py:45-61 init_candidates with filled_only False.  Simplified: of a set of candidates only the ints are
    stored (as the set with one object belongs to a field that is not empty, nothing below looks at it). *)
Definition init_candidates_o (O : objects) (s : sudoku) : res sudoku :=
  foldM (fun s rc =>
           let* c := calc_candidates_o O s (fst rc) (snd rc) in
           let* l := match c with
                     | inl v => let* k := okey O v in Ok (match k with Some n => [n] | None => [] end)
                     | inr l => Ok l
                     end in
           set_candidates s (fst rc) (snd rc) l)
        (coords s) s.

(** solve.py:103-134 _do_bruteforce.  Simplified: the order [ord] of a set of candidates depends on the set only. *)
Fixpoint do_bruteforce_o (O : objects) (fuel : nat) (ord : zset -> list Z) (s : sudoku)
  : gen unit sudoku sudoku :=
  match fuel with
  | 0%nat => Raise OutOfFuel
  | S fuel =>
      do* l := lift (glist (empty_o O s) s) in
      do* sorted_empty := lift (sort_by_len s l) in
      match sorted_empty with
      | [] => do* _ := yield s in Ret s
      | (row, col) :: _ =>
          do* cands := lift (get_candidates s row col) in
          gfor (fun s candidate =>
                  do* s := lift (setitem s row col (oint O candidate)) in
                  do* sur := lift (surrounding_of s row col false) in
                  do* (saved, s) := lift (save_and_remove s row col candidate sur) in
                  do* s := do_bruteforce_o O fuel ord s in
                  do* s := lift (restore s saved) in
                  lift (setitem s row col (oint O 0)))
               (ord cands) s
      end
  end.

(** solve.py:90-95: True iff bruteforce returns early *)
Definition has_conflict_o (O : objects) (s : sudoku) : res bool :=
  anyM (fun rc =>
          let* value := getitem s (fst rc) (snd rc) in
          if truth O value then
            let* sur := surrounding_of s (fst rc) (snd rc) false in
            anyM (fun ij => let* v := getitem s (fst ij) (snd ij) in Ok (oeq O v value)) sur
          else Ok false)
       (coords s).

(** solve.py:78-100 bruteforce *)
Definition bruteforce_o (O : objects) (ord : zset -> list Z) (s : sudoku) : gen unit sudoku unit :=
  do* b := lift (has_conflict_o O s) in
  if b : bool then Ret tt
  else
    do* solution := lift (copy s false) in
    do* solution := lift (init_candidates_o O solution) in
    do* _ := gforgen (fun st solution =>
                        do* c := lift (copy solution false) in
                        do* _ := yield c in
                        Ret st)
                     (do_bruteforce_o O (S (length (coords s))) ord solution) (tt, tt) in
    Ret tt.
