(** Model of sudokutools/dlx.py (Algorithm X). *)
From Verif Require Export MSudoku PyDict.

(** dlx.py:27-30: the constraints, ("rc", (r, c)) etc. *)
Inductive xkey : Type :=
| RC (r c : Z) | RN (r n : Z) | CN (c n : Z) | BN (b n : Z).

(** dlx.py:58, 84: equality of constraints (the keys of X, [k != j]) *)
Definition xkey_eqb (a b : xkey) : bool :=
  match a, b with
  | RC x y, RC x' y' | RN x y, RN x' y' | CN x y, CN x' y' | BN x y, BN x' y' =>
      (x =? x') && (y =? y')
  | _, _ => false
  end.

(** dlx.py:33-35: the matrix rows (r, c, n) *)
Definition xrow : Type := (Z * Z * Z)%type.
(** dlx.py:33-35, 58: an order of the matrix rows, used to represent sets of rows by sorted lists *)
Definition xrow_cmp : xrow -> xrow -> comparison := pair_cmp (pair_cmp zcmp zcmp) zcmp.
(** dlx.py:32, 81: equality of matrix rows (the keys of Y) *)
Definition xrow_eqb (a b : xrow) : bool := cmp_eqb xrow_cmp a b.

(** dlx.py:58: the dict X: constraint -> set of rows; dlx.py:32: the dict Y: row ->
    list of constraints *)
Definition xdict : Type := list (xkey * list xrow).
(** dlx.py:32: the dict Y: row -> list of constraints *)
Definition ydict : Type := list (xrow * list xkey).

(** dlx.py:27-30 *)
Definition all_keys (n : Z) : list xkey :=
  map (fun rc => RC (fst rc) (snd rc)) (list_prod (py_range n) (py_range n)) ++
  map (fun rn => RN (fst rn) (snd rn)) (list_prod (py_range n) (py_range2 1 (n + 1))) ++
  map (fun cn => CN (fst cn) (snd cn)) (list_prod (py_range n) (py_range2 1 (n + 1))) ++
  map (fun bn => BN (fst bn) (snd bn)) (list_prod (py_range n) (py_range2 1 (n + 1))).

(** dlx.py:34-39: the constraints satisfied by row (r, c, n);
    [R] is the box height, [C] the box width *)
Definition keys_of (R C : Z) (i : xrow) : list xkey :=
  let '(r, c, n) := i in
  let b := (r / R) * R + (c / C) in
  [RC r c; RN r n; CN c n; BN b n].

(** dlx.py:33: product(range(N), range(N), range(1, N + 1)) *)
Definition all_rows (n : Z) : list xrow :=
  list_prod (list_prod (py_range n) (py_range n)) (py_range2 1 (n + 1)).

(** dlx.py:32-39.  Every row occurs once in the product, so [Y[k] = v] always
    appends a new entry. *)
Definition build_Y (R C : Z) : ydict :=
  map (fun i => (i, keys_of R C i)) (all_rows (R * C)).

(** [d[j].add(i)] and [d[k].remove(i)] for a set stored in a dict (dlx.py:61, 96) *)
Definition x_add (X : xdict) (k : xkey) (i : xrow) : res xdict :=
  let* s := dget xkey_eqb X k in
  Ok (dset xkey_eqb X k (sadd xrow_cmp i s)).
(** dlx.py:85: [X[k].remove(i)]; KeyError if there is no such column or row *)
Definition x_remove (X : xdict) (k : xkey) (i : xrow) : res xdict :=
  let* s := dget xkey_eqb X k in
  let* s' := sremove xrow_cmp i s in
  Ok (dset xkey_eqb X k s').

(** dlx.py:57-62 exact_cover *)
Definition exact_cover (X : list xkey) (Y : ydict) : res xdict :=
  let X := map (fun j => (j, [])) X in
  foldM (fun X irow =>
           foldM (fun X j => x_add X j (fst irow)) (snd irow) X)
        Y X.

(** dlx.py:82-85: remove the rows of column [j] from all other columns.  The set
    [X[j]] is not changed by the loop (k != j); it is iterated in canonical
    order, the order has no influence on the result. *)
Definition cover_rows (Y : ydict) (j : xkey) (rows : list xrow) (X : xdict) : res xdict :=
  foldM (fun X i =>
           let* ks := dget xrow_eqb Y i in
           foldM (fun X k => if negb (xkey_eqb k j) then x_remove X k i else Ok X) ks X)
        rows X.

(** dlx.py:79-87 select: the popped columns and the changed X *)
Definition select (X : xdict) (Y : ydict) (r : xrow) : res (list (list xrow) * xdict) :=
  let* js := dget xrow_eqb Y r in
  foldM (fun '(cols, X) j =>
           let* rows := dget xkey_eqb X j in
           let* X := cover_rows Y j rows X in
           let* (s, X) := dpop xkey_eqb X j in
           Ok (cols ++ [s], X))
        js ([], X).

(** dlx.py:93-96 *)
Definition uncover_rows (Y : ydict) (j : xkey) (rows : list xrow) (X : xdict) : res xdict :=
  foldM (fun X i =>
           let* ks := dget xrow_eqb Y i in
           foldM (fun X k => if negb (xkey_eqb k j) then x_add X k i else Ok X) ks X)
        rows X.

(** dlx.py:90-96 deselect (the list [cols] is local to the caller and not used
    afterwards) *)
Definition deselect (X : xdict) (Y : ydict) (r : xrow) (cols : list (list xrow)) : res xdict :=
  let* js := dget xrow_eqb Y r in
  let* (_, X) :=
    foldM (fun '(cols, X) j =>
             let* (s, cols) := list_pop cols in
             let X := dset xkey_eqb X j s in
             let* rows := dget xkey_eqb X j in
             let* X := uncover_rows Y j rows X in
             Ok (cols, X))
          (rev js) (cols, X) in
  Ok X.

(** dlx.py:69: min(X, key=lambda c: len(X[c])): the first minimal one in the order
    of the dict *)
Fixpoint min_key (best : xkey * list xrow) (X : xdict) : xkey :=
  match X with
  | [] => fst best
  | e :: t => min_key (if py_len (snd e) <? py_len (snd best) then e else best) t
  end.

(** dlx.py:65-76 solve.  [ord solution s] is the order in which [list(X[c])]
    enumerates the set [s].  The generator returns the final X (the object is
    shared with the caller).  [solution.append(r)] / [solution.pop()] is
    modelled by passing the longer list to the recursive call. *)
Fixpoint xsolve (fuel : nat) (ord : list xrow -> list xrow -> list xrow)
    (Y : ydict) (X : xdict) (solution : list xrow) : gen unit (list xrow) xdict :=
  match fuel with
  | O => Raise OutOfFuel
  | S fuel =>
      match X with
      | [] => do* _ := yield solution in Ret X
      | e :: t =>
          let c := min_key e t in
          do* rows := lift (dget xkey_eqb X c) in
          gfor (fun X r =>
                  do* (cols, X) := lift (select X Y r) in
                  do* X := xsolve fuel ord Y X (solution ++ [r]) in
                  lift (deselect X Y r cols))
               (ord solution rows) X
      end
  end.

(** dlx.py:42-49: select the rows of the given numbers; [None]: KeyError *)
Fixpoint select_givens (s : sudoku) (Y : ydict) (l : list coord) (X : xdict)
  : res (option xdict) :=
  match l with
  | [] => Ok (Some X)
  | rc :: t =>
      let* n := getitem s (fst rc) (snd rc) in
      if negb (n =? 0) then
        match select X Y (fst rc, snd rc, n) with
        | Ok (_, X) => select_givens s Y t X
        | Err KeyError => Ok None
        | Err e => Err e
        end
      else select_givens s Y t X
  end.

(** dlx.py:52-53: write a solution into the sudoku *)
Definition write_rows (s : sudoku) (rows : list xrow) : res sudoku :=
  foldM (fun s i => let '(r, c, n) := i in setitem s r c n) rows s.

(** dlx.py:23-54 do_dlx.  The state of the loop is the sudoku changed in place. *)
Definition do_dlx (ord : list xrow -> list xrow -> list xrow) (s : sudoku)
  : gen unit sudoku unit :=
  let R := box_height s in
  let C := box_width s in
  let N := R * C in
  let Y := build_Y R C in
  do* X := lift (exact_cover (all_keys N) Y) in
  do* X := lift (select_givens s Y (coords s) X) in
  match X with
  | None => Ret tt
  | Some X =>
      do* _ := gforgen (fun '(tt, s) solution =>
                          do* s := lift (write_rows s solution) in
                          do* _ := yield s in
                          Ret (tt, s))
                       (xsolve (S (length (coords s))) ord Y X []) (tt, s) in
      Ret tt
  end.
