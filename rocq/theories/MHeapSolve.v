(** Model of bruteforce and dlx (sudokutools/solve.py, dlx.py) with explicit objects, see MHeap.v.
    A generator yields a reference together with the heap it leaves behind and is resumed with the
    heap as the consumer left it.  The call of a generator function executes nothing; the functions
    here describe what happens from the first next() on, with the heap of that moment. *)
From Verif Require Export MHeap MSolve.

(** sudoku.py:69-75 __iter__: the box size is read when the iteration starts *)
Definition h_iter (hp : heap) (self : nat) : res (list coord) :=
  let* (w, h, _, _) := deref_sudoku hp self in Ok (h_coords w h).

(** sudoku.py:493-513 surrounding_of uses the box size of the object only *)
Definition h_surrounding_of (hp : heap) (self : nat) (row col : Z) (include : bool) : res (list coord) :=
  let* (w, h, _, _) := deref_sudoku hp self in surrounding_of (mkSudoku w h [] []) row col include.

(** sudoku.py:62 the attribute numbers *)
Definition h_numbers (hp : heap) (self : nat) : res (list Z) :=
  let* (w, h, _, _) := deref_sudoku hp self in Ok (numbers (mkSudoku w h [] [])).

(** sudoku.py:77-85 empty *)
Definition h_empty (hp : heap) (self : nat) : gen heap coord heap :=
  do* l := lift (h_iter hp self) in
  gfor (fun hp rc =>
          do* v := lift (h_getitem hp self (fst rc) (snd rc)) in
          if v =? 0 then yield rc else Ret hp) l hp.

(** solve.py:23-42 calc_candidates *)
Definition h_calc_candidates (hp : heap) (self : nat) (row col : Z) : res zset :=
  let* v := h_getitem hp self row col in
  if negb (v =? 0) then Ok [v]
  else
    let* ns := h_numbers hp self in
    let* sur := h_surrounding_of hp self row col false in
    foldM (fun candidates ij =>
             let* v := h_getitem hp self (fst ij) (snd ij) in
             Ok (sdiscard zcmp v candidates))
          sur (sof_list zcmp ns).

(** solve.py:45-61 init_candidates *)
Definition h_init_candidates (hp : heap) (self : nat) (filled_only : bool) : res heap :=
  let* l := h_iter hp self in
  foldM (fun hp rc =>
           let* v := h_getitem hp self (fst rc) (snd rc) in
           if negb filled_only || negb (v =? 0) then
             let* c := h_calc_candidates hp self (fst rc) (snd rc) in
             h_set_candidates hp self (fst rc) (snd rc) c
           else Ok hp)
        l hp.

(** solve.py:110-111 *)
Definition h_sort_by_len (hp : heap) (self : nat) (l : list coord) : res (list coord) :=
  let* keyed := mapM (fun rc => let* c := h_get_candidates hp self (fst rc) (snd rc) in
                                Ok (py_len c, rc)) l in
  Ok (map snd (sort_by (fun a b : Z * coord => fst a <=? fst b) keyed)).

(** solve.py:123-126: the dict (a local object nobody else refers to) and the changed heap *)
Definition h_save_and_remove (hp : heap) (self : nat) (row col candidate : Z) (sur : list coord)
  : res (list (coord * zset) * heap) :=
  let* c := h_get_candidates hp self row col in
  foldM (fun '(saved, hp) ij =>
           let* c := h_get_candidates hp self (fst ij) (snd ij) in
           let saved := dset coord_eqb saved ij c in
           let* hp := h_remove_candidates hp self (fst ij) (snd ij) [candidate] in
           Ok (saved, hp))
        sur ([((row, col), c)], hp).

(** solve.py:132-133 *)
Definition h_restore (hp : heap) (self : nat) (saved : list (coord * zset)) : res heap :=
  foldM (fun hp e => h_set_candidates hp self (fst (fst e)) (snd (fst e)) (snd e)) saved hp.

(** The order in which the candidates (a set) are enumerated may depend on what the sudoku contains. (solve.py:119) *)
Definition h_order (ord : sudoku -> zset -> list Z) (hp : heap) (self : nat) (cands : zset) : res (list Z) :=
  match h_contents hp self with
  | Some s => Ok (ord s cands)
  | None => Err AttributeError
  end.

(** solve.py:103-134 _do_bruteforce: yields the reference it was given *)
Fixpoint h_do_bruteforce (fuel : nat) (ord : sudoku -> zset -> list Z) (hp : heap) (self : nat)
  : gen heap (nat * heap) heap :=
  match fuel with
  | O => Raise OutOfFuel
  | S fuel =>
      do* l := lift (glist (h_empty hp self) hp) in
      do* sorted_empty := lift (h_sort_by_len hp self l) in
      match sorted_empty with
      | [] => yield (self, hp)
      | (row, col) :: _ =>
          do* cands := lift (h_get_candidates hp self row col) in
          do* todo := lift (h_order ord hp self cands) in
          gfor (fun hp candidate =>
                  do* hp := lift (h_setitem hp self row col candidate) in
                  do* sur := lift (h_surrounding_of hp self row col false) in
                  do* (saved, hp) := lift (h_save_and_remove hp self row col candidate sur) in
                  do* hp := h_do_bruteforce fuel ord hp self in
                  do* hp := lift (h_restore hp self saved) in
                  lift (h_setitem hp self row col 0))
               todo hp
      end
  end.

(** solve.py:90-95 *)
Definition h_has_conflict (hp : heap) (self : nat) : res bool :=
  let* l := h_iter hp self in
  anyM (fun rc =>
          let* value := h_getitem hp self (fst rc) (snd rc) in
          if negb (value =? 0) then
            let* sur := h_surrounding_of hp self (fst rc) (snd rc) false in
            anyM (fun ij => let* v := h_getitem hp self (fst ij) (snd ij) in Ok (v =? value)) sur
          else Ok false)
       l.

(** solve.py:99-100 and 74-75: [for solution in inner: yield solution.copy()] *)
Fixpoint h_copies (inner : gen heap (nat * heap) heap) : gen heap (nat * heap) heap :=
  match inner with
  | Ret hp => Ret hp
  | Raise e => Raise e
  | Yield (solution, hp) k =>
      do* (c, hp) := lift (h_copy hp solution false) in
      do* hp := yield (c, hp) in
      h_copies (k hp)
  end.

(** solve.py:78-100 bruteforce.  The fuel is that of [MSolve.bruteforce]. *)
Definition h_bruteforce (ord : sudoku -> zset -> list Z) (hp : heap) (self : nat)
  : gen heap (nat * heap) heap :=
  do* b := lift (h_has_conflict hp self) in
  if b : bool then Ret hp
  else
    do* (solution, hp) := lift (h_copy hp self false) in
    do* hp := lift (h_init_candidates hp solution false) in
    do* l := lift (h_iter hp self) in
    h_copies (h_do_bruteforce (S (length l)) ord hp solution).

(** A generator that does not look at the heap (the dicts of dlx.py are local to it) (dlx.py:65-76) *)
Fixpoint gclosed {I A R} (g : gen unit A R) : gen I A R :=
  match g with
  | Ret r => Ret r
  | Yield a k => Yield a (fun _ => gclosed (k tt))
  | Raise e => Raise e
  end.

(** dlx.py:42-49 *)
Fixpoint h_select_givens (hp : heap) (self : nat) (Y : ydict) (l : list coord) (X : xdict)
  : res (option xdict) :=
  match l with
  | [] => Ok (Some X)
  | rc :: t =>
      let* n := h_getitem hp self (fst rc) (snd rc) in
      if negb (n =? 0) then
        match select X Y (fst rc, snd rc, n) with
        | Ok (_, X) => h_select_givens hp self Y t X
        | Err KeyError => Ok None
        | Err e => Err e
        end
      else h_select_givens hp self Y t X
  end.

(** dlx.py:52-53 *)
Definition h_write_rows (hp : heap) (self : nat) (rows : list xrow) : res heap :=
  foldM (fun hp i => let '(r, c, n) := i in h_setitem hp self r c n) rows hp.

(** dlx.py:23-54 do_dlx: yields the reference it was given *)
Definition h_do_dlx (ord : list xrow -> list xrow -> list xrow) (hp : heap) (self : nat)
  : gen heap (nat * heap) heap :=
  do* (C, R, _, _) := lift (deref_sudoku hp self) in
  let N := R * C in
  let Y := build_Y R C in
  do* X := lift (exact_cover (all_keys N) Y) in
  do* X := lift (h_select_givens hp self Y (h_coords C R) X) in
  match X with
  | None => Ret hp
  | Some X =>
      do* st := gforgen (fun (st : heap * unit) solution =>
                           do* hp := lift (h_write_rows (fst st) self solution) in
                           do* hp := yield (self, hp) in
                           Ret (hp, tt))
                        (gclosed (xsolve (S (length (h_coords C R))) ord Y X [])) (hp, tt) in
      Ret (fst st)
  end.

(** solve.py:64-75 dlx *)
Definition h_dlx (ord : list xrow -> list xrow -> list xrow) (hp : heap) (self : nat)
  : gen heap (nat * heap) heap :=
  do* (solution, hp) := lift (h_copy hp self false) in
  h_copies (h_do_dlx ord hp solution).

(** A consumer: after each solution it executes a list of statements on the objects it knows
    (those it had, and the solutions it was given), then it calls next() again.  The result:
    what the solutions contained when they were handed over, and the state at the end.
    (If the generator raises an exception, its working copy is lost; the heap of the model is
    then that of the last call of next().) (solve.py:64-100) *)
Fixpoint h_consume (plan : list (list hop)) (g : gen heap (nat * heap) heap) (st : hstate)
  : list (option sudoku) * hstate :=
  match plan with
  | [] => ([], st)
  | ops :: plan =>
      match g with
      | Yield (c, hp) k =>
          let st' := fold_left h_step ops (hp, snd st ++ [c]) in
          let (ys, st'') := h_consume plan (k (fst st')) st' in
          (h_contents hp c :: ys, st'')
      | Ret hp => ([], (hp, snd st))
      | Raise _ => ([], st)
      end
  end.

(** The same with sudokus as values; [sols] are the solutions still to come. (solve.py:64-100) *)
Fixpoint v_consume (plan : list (list hop)) (sols : list sudoku) (l : list sudoku)
  : list sudoku :=
  match plan, sols with
  | ops :: plan, s :: sols => v_consume plan sols (fold_left v_step ops (l ++ [s]))
  | _, _ => l
  end.
