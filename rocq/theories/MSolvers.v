(** Model of sudokutools/solvers.py. *)
From Verif Require Export MSolve.

(** The classes of solvers.py (NakedPair is [NakedTuple 2] etc., see
    solvers.py:303-306, 371-374, 462-463, 530-532). *)
Inductive solver : Type :=
| CalculateCandidates
| NakedSingle
| HiddenSingle
| NakedTuple (n : nat)
| HiddenTuple (n : nat)
| PointingTuple (n : nat)
| BasicFish (n : nat)
| Bruteforce.

(** solvers.py:41-52 Action: one of the three functions with its arguments *)
Inductive action : Type :=
| SetNumber (row col value : Z)
| SetCandidates (row col : Z) (value : list Z)
| RemoveCandidates (row col : Z) (value : list Z).

(** solvers.py:55-72 SolveStep: class and attributes of a step object *)
Record step : Type := mkStep {
  st_class : solver;
  clues : list coord;
  affected : list coord;
  values : list Z;
  actions : list action
}.

(** solvers.py:57-72 SolveStep.__init__ *)
Definition new_step (cls : solver) (clues affected : list coord) (values : list Z) : step :=
  {| st_class := cls;
     clues := py_sorted coord_cmp clues;
     affected := py_sorted coord_cmp affected;
     values := py_sorted zcmp values;
     actions := [] |}.

(** solvers.py:144-146 _SingleFieldStep.__init__ *)
Definition single_step (cls : solver) (row col value : Z) : step :=
  new_step cls [(row, col)] [(row, col)] [value].

(** solvers.py:74-80: comparison of the tuples (clues, affected, values) *)
Definition step_cmp (a b : step) : comparison :=
  pair_cmp (pair_cmp (list_cmp coord_cmp) (list_cmp coord_cmp)) (list_cmp zcmp)
           ((clues a, affected a), values a) ((clues b, affected b), values b).

(** solvers.py:74-76 __eq__ *)
Definition step_eq (a b : step) : bool :=
  match step_cmp a b with Eq => true | _ => false end.
(** solvers.py:78-80 __lt__ *)
Definition step_lt (a b : step) : bool :=
  match step_cmp a b with Lt => true | _ => false end.
(** solvers.py:55 @total_ordering: the methods derived from __lt__ and __eq__ *)
Definition step_le (a b : step) : bool := step_lt a b || step_eq a b.
(** solvers.py:55 @total_ordering: __gt__ *)
Definition step_gt (a b : step) : bool := negb (step_lt a b) && negb (step_eq a b).
(** solvers.py:55 @total_ordering: __ge__ *)
Definition step_ge (a b : step) : bool := negb (step_lt a b).

(** solvers.py:112-113: execution of one action *)
Definition do_action (s : sudoku) (a : action) : res sudoku :=
  match a with
  | SetNumber r c v => setitem s r c v
  | SetCandidates r c vs => set_candidates s r c vs
  | RemoveCandidates r c vs => remove_candidates s r c vs
  end.

(** solvers.py:134-138 CalculateCandidates.build_actions *)
Definition build_calculate (st : step) (s : sudoku) : res (list action) :=
  let* rc := list_get (clues st) 0 in
  Ok [SetCandidates (fst rc) (snd rc) (values st)].

(** solvers.py:161-173 _SingleFieldStep.build_actions *)
Definition build_single (st : step) (s : sudoku) : res (list action) :=
  let* rc := list_get (affected st) 0 in
  let* value := list_get (values st) 0 in
  let* sur := surrounding_of s (fst rc) (snd rc) false in
  foldM (fun acts ij =>
           let* c := get_candidates s (fst ij) (snd ij) in
           Ok (if smem zcmp value c
               then acts ++ [RemoveCandidates (fst ij) (snd ij) [value]] else acts))
        sur [SetNumber (fst rc) (snd rc) value;
             SetCandidates (fst rc) (snd rc) [value]].

(** solvers.py:253-258 NakedTuple.build_actions *)
Definition build_naked (st : step) (s : sudoku) : res (list action) :=
  mapM (fun ij =>
          let* c := get_candidates s (fst ij) (snd ij) in
          Ok (RemoveCandidates (fst ij) (snd ij) (sinter zcmp (sof_list zcmp (values st)) c)))
       (affected st).

(** solvers.py:320-324 HiddenTuple.build_actions *)
Definition build_hidden (st : step) (s : sudoku) : res (list action) :=
  mapM (fun ij =>
          let* c := get_candidates s (fst ij) (snd ij) in
          Ok (RemoveCandidates (fst ij) (snd ij) (sdiff zcmp c (sof_list zcmp (values st)))))
       (affected st).

(** solvers.py:455-460 PointingTuple.build_actions *)
Definition build_pointing (st : step) (s : sudoku) : res (list action) :=
  let* _ := list_get (values st) 0 in
  Ok (map (fun ij => RemoveCandidates (fst ij) (snd ij) (values st)) (affected st)).

(** solvers.py:524-527 BasicFish.build_actions *)
Definition build_fish (st : step) (s : sudoku) : res (list action) :=
  Ok (map (fun ij => RemoveCandidates (fst ij) (snd ij) (values st)) (affected st)).

(** solvers.py:103-105: the build_actions method of the class of the step *)
Definition build_actions (st : step) (s : sudoku) : res (list action) :=
  match st_class st with
  | CalculateCandidates => build_calculate st s
  | NakedSingle | HiddenSingle | Bruteforce => build_single st s
  | NakedTuple _ => build_naked st s
  | HiddenTuple _ => build_hidden st s
  | PointingTuple _ => build_pointing st s
  | BasicFish _ => build_fish st s
  end.

(** solvers.py:107-113 apply: the step (its attribute [actions] is assigned) and
    the changed sudoku *)
Definition apply (st : step) (s : sudoku) : res (step * sudoku) :=
  let* acts := match actions st with
               | [] => build_actions st s
               | l => Ok l
               end in
  let* s' := foldM do_action acts s in
  Ok ({| st_class := st_class st; clues := clues st; affected := affected st;
         values := values st; actions := acts |}, s').

(** * find

    Every find is a generator over the shared sudoku: its local variable [s]
    is the sudoku as the consumer left it.  The iteration orders of Python
    sets that can be observed are given by an oracle: the candidates in
    HiddenSingle.find (solvers.py:214) and the sets in dlx. *)
Record oracle : Type := mkOracle {
  o_hidden : sudoku -> coord -> zset -> list Z;
  o_dlx : sudoku -> list xrow -> list xrow -> list xrow
}.

(** solvers.py:125-132 CalculateCandidates.find *)
Definition calculate_find (s : sudoku) : gen sudoku step sudoku :=
  gfor (fun s rc =>
          do* c := lift (get_candidates s (fst rc) (snd rc)) in
          match c with
          | _ :: _ => Ret s
          | [] =>
              do* vs := lift (calc_candidates s (fst rc) (snd rc)) in
              yield (new_step CalculateCandidates [rc] [rc] vs)
          end)
       (coords s) s.

(** solvers.py:185-191 NakedSingle.find *)
Definition naked_single_find (s : sudoku) : gen sudoku step sudoku :=
  do* st := gforgen (fun st rc =>
               do* c := lift (get_candidates (fst st) (fst rc) (snd rc)) in
               match c with
               | [value] =>
                   do* s := yield (single_step NakedSingle (fst rc) (snd rc) value) in
                   Ret (s, tt)
               | _ => Ret st
               end)
            (empty s) (s, tt) in
  Ret (fst st).

(** solvers.py:208, 267, 333, 394, 471-472: the bound methods row_of, column_of and
    box_of as values *)
Definition unit_func : Type := sudoku -> Z -> Z -> bool -> res (list coord).
(** solvers.py:208, 267, 333, 394, 471-472: row_of *)
Definition f_row : unit_func := fun s r c i => Ok (row_of s r c i).
(** solvers.py:208, 267, 333, 394, 471-472: column_of *)
Definition f_col : unit_func := fun s r c i => Ok (column_of s r c i).
(** solvers.py:208, 267, 333: box_of *)
Definition f_box : unit_func := box_of.

(** solvers.py:210-212: the numbers that are no candidate of [others] *)
Definition hidden_candidates (s : sudoku) (others : list coord) : res zset :=
  foldM (fun cs ij =>
           let* c := get_candidates s (fst ij) (snd ij) in
           Ok (sdiff zcmp cs c))
        others (sof_list zcmp (numbers s)).

(** solvers.py:204-222 HiddenSingle.find.  The state of the loops: the sudoku,
    [yielded_coords] and [found_hidden_single]. *)
Definition hidden_single_find (o : oracle) (s : sudoku) : gen sudoku step sudoku :=
  do* st := gforgen (fun st rc =>
      let '(s, yielded) := st in
      do* (s, yielded, _) :=
        gfor (fun '(s, yielded, found) f =>
                if found : bool then Ret (s, yielded, found)
                else
                  do* others := lift (f s (fst rc) (snd rc) false) in
                  do* cs := lift (hidden_candidates s others) in
                  gfor (fun '(s, yielded, found) value =>
                          if list_in coord_eqb rc yielded then Ret (s, yielded, found)
                          else
                            do* s := yield (single_step HiddenSingle (fst rc) (snd rc) value) in
                            Ret (s, yielded ++ [rc], true))
                       (o_hidden o s rc cs) (s, yielded, false))
             [f_col; f_row; f_box] (s, yielded, false) in
      Ret (s, yielded))
    (empty s) (s, []) in
  Ret (fst st).

(** solvers.py:233-239 Bruteforce.find *)
Definition bruteforce_find (o : oracle) (s : sudoku) : gen sudoku step sudoku :=
  match gnext (dlx (o_dlx o s) s) with
  | Err StopIteration => Ret s
  | Err e => Raise e
  | Ok (solution, _) =>
      do* st := gforgen (fun st rc =>
                   do* v := lift (getitem solution (fst rc) (snd rc)) in
                   do* s := yield (single_step Bruteforce (fst rc) (snd rc) v) in
                   Ret (s, tt))
                (diff s solution) (s, tt) in
      Ret (fst st)
  end.

(** solvers.py:271, 275, 337: equality of lists (or tuples) of fields *)
Definition coords_eqb (a b : list coord) : bool :=
  match list_cmp coord_cmp a b with Eq => true | _ => false end.

(** solvers.py:268-272 and 334-338: the units with an empty field.  The loop does
    not yield, so [sudoku.empty()] sees the sudoku unchanged. *)
Definition units_with_empty (f : unit_func) (s : sudoku) : res (list (list coord)) :=
  let* e := glist (empty s) s in
  foldM (fun clist rc =>
           let* cs := f s (fst rc) (snd rc) true in
           Ok (if list_in coords_eqb cs clist then clist else clist ++ [cs]))
        e [].

(** solvers.py:288-290: the union of the candidates of [fields] *)
Definition union_candidates (s : sudoku) (fields : list coord) : res zset :=
  foldM (fun cs rc =>
           let* c := get_candidates s (fst rc) (snd rc) in
           Ok (sunion zcmp cs c))
        fields [].

(** solvers.py:280-300 NakedTuple.__find_at.  [all_candidates] is passed to the
    step in canonical order (the step sorts it). *)
Definition naked_find_at (n : nat) (s : sudoku) (cs : list coord)
  : gen sudoku step sudoku :=
  do* n_candidates := lift (filterM (fun rc =>
       let* c := get_candidates s (fst rc) (snd rc) in
       Ok ((1 <? py_len c) && (py_len c <=? Z.of_nat n))) cs) in
  gfor (fun s fields =>
          do* all_candidates := lift (union_candidates s fields) in
          if py_len all_candidates <=? Z.of_nat n then
            do* aff := lift (filterM (fun rc =>
                 if list_in coord_eqb rc fields then Ok false
                 else
                   let* c := get_candidates s (fst rc) (snd rc) in
                   Ok (negb (match sinter zcmp all_candidates c with
                             | [] => true | _ => false end))) cs) in
            match aff with
            | [] => Ret s
            | _ => yield (new_step (NakedTuple n) fields aff all_candidates)
            end
          else Ret s)
       (combinations n n_candidates) s.

(** solvers.py:261-277 NakedTuple.find; the state of the loops: the sudoku and
    [yielded_coords] *)
Definition naked_find (n : nat) (s : sudoku) : gen sudoku step sudoku :=
  do* st := gfor (fun (st : sudoku * list (list coord)) f =>
       do* clist := lift (units_with_empty f (fst st)) in
       gfor (fun (st : sudoku * list (list coord)) cs =>
               gforgen (fun st p =>
                          if list_in coords_eqb (clues p) (snd st) then Ret st
                          else
                            do* s := yield p in
                            Ret (s, snd st ++ [clues p]))
                       (naked_find_at n (fst st) cs) st)
            clist st)
    [f_row; f_col; f_box] (s, []) in
  Ret (fst st).

(** solvers.py:345-351: the fields of [cs] with candidate [v].  The dict
    [cand_coords] is a function of the number here (a missing key has the
    default value, the empty set). *)
Definition cand_coords (s : sudoku) (cs : list coord) (v : Z) : res (list coord) :=
  let* l := filterM (fun rc =>
       let* c := get_candidates s (fst rc) (snd rc) in Ok (smem zcmp v c)) cs in
  Ok (sof_list coord_cmp l).

(** solvers.py:344-369 HiddenTuple.__find_at.  The set [max_set] is iterated in
    canonical order: only the number of iterations matters (the step sorts
    [affected]). *)
Definition hidden_find_at (n : nat) (s : sudoku) (cs : list coord)
  : gen sudoku step sudoku :=
  do* table := lift (mapM (fun v => let* l := cand_coords s cs v in Ok (v, l)) (numbers s)) in
  let n_times := filter (fun e => (1 <? py_len (snd e)) && (py_len (snd e) <=? Z.of_nat n))
                        table in
  gfor (fun s entries =>
          let nums := map fst entries in
          let max_set := fold_left (fun m e => sunion coord_cmp m (snd e)) entries [] in
          if py_len max_set <=? Z.of_nat n then
            gfor (fun s _ =>
                    do* aff := lift (filterM (fun rc =>
                         let* c := get_candidates s (fst rc) (snd rc) in
                         Ok (negb (match sdiff zcmp c (sof_list zcmp nums) with
                                   | [] => true | _ => false end))) max_set) in
                    match aff with
                    | [] => Ret s
                    | _ => yield (new_step (HiddenTuple n) cs aff nums)
                    end)
                 max_set s
          else Ret s)
       (combinations n n_times) s.

(** solvers.py:327-341 HiddenTuple.find *)
Definition hidden_find (n : nat) (s : sudoku) : gen sudoku step sudoku :=
  gfor (fun s f =>
          do* clist := lift (units_with_empty f s) in
          gfor (fun s cs => hidden_find_at n s cs) clist s)
       [f_row; f_col; f_box] s.

(** solvers.py:398-399, 427-428, 485-486: the fields of [cs] with candidate [v] *)
Definition fields_with (s : sudoku) (v : Z) (cs : list coord) : res (list coord) :=
  filterM (fun rc => let* c := get_candidates s (fst rc) (snd rc) in
                     Ok (smem zcmp v c)) cs.

(** solvers.py:410-412, 438-440, 445-447, 513-515: the fields of [cs] outside of
    [clues] with candidate [v] *)
Definition fields_with_except (s : sudoku) (v : Z) (clues cs : list coord)
  : res (list coord) :=
  filterM (fun rc =>
             if list_in coord_eqb rc clues then Ok false
             else
               let* c := get_candidates s (fst rc) (snd rc) in
               Ok (smem zcmp v c)) cs.

(** solvers.py:409, 437, 444: [len(set(l)) == 1] for a list of integers *)
Definition all_same (l : list Z) : bool :=
  py_len (sof_list zcmp l) =? 1.

(** solvers.py:393-416 PointingTuple.__find_in_row_and_column *)
Definition pointing_in_row_and_column (n : nat) (s : sudoku) (x : Z)
  : gen sudoku step sudoku :=
  gfor (fun s (f : unit_func) =>
          do* cs := lift (f s x x true) in
          gfor (fun s candidate =>
                  do* clues := lift (fields_with s candidate cs) in
                  if negb (py_len clues =? Z.of_nat n) then Ret s
                  else if all_same (map (fun rc => box_at s (fst rc) (snd rc)) clues) then
                    do* c0 := lift (list_get clues 0) in
                    do* bcs := lift (box_of s (fst c0) (snd c0) true) in
                    do* aff := lift (fields_with_except s candidate clues bcs) in
                    match aff with
                    | [] => Ret s
                    | _ => yield (new_step (PointingTuple n) clues aff [candidate])
                    end
                  else Ret s)
               (numbers s) s)
       [f_row; f_col] s.

(** solvers.py:420-453 PointingTuple.__find_in_box *)
Definition pointing_in_box (n : nat) (s : sudoku) (box : Z) : gen sudoku step sudoku :=
  let row := (box / box_height s) * box_height s in
  let col := (box mod box_height s) * box_width s in
  do* cs := lift (box_of s row col true) in
  gfor (fun s candidate =>
          do* clues := lift (fields_with s candidate cs) in
          if negb (py_len clues =? Z.of_nat n) then Ret s
          else
            do* aff := lift (
              if all_same (map fst clues) then
                let* c0 := list_get clues 0 in
                fields_with_except s candidate clues (row_of s (fst c0) (snd c0) true)
              else if all_same (map snd clues) then
                let* c0 := list_get clues 0 in
                fields_with_except s candidate clues (column_of s (fst c0) (snd c0) true)
              else Ok []) in
            match aff with
            | [] => Ret s
            | _ => yield (new_step (PointingTuple n) clues aff [candidate])
            end)
       (numbers s) s.

(** solvers.py:381-390 PointingTuple.find *)
Definition pointing_find (n : nat) (s : sudoku) : gen sudoku step sudoku :=
  do* s := gfor (fun s box => pointing_in_box n s box) (indices s) s in
  gfor (fun s x => pointing_in_row_and_column n s x) (indices s) s.

(** solvers.py:495-498 the dict other_counts *)
Definition count_others (other : coord -> Z) (base : list coord) : list (Z * Z) :=
  fold_left (fun d rc => dset Z.eqb d (other rc) (dget_default Z.eqb d (other rc) 0 + 1))
            base [].

(** solvers.py:502: [min(l)]: ValueError for an empty list *)
Definition py_min (l : list Z) : res Z :=
  match l with
  | [] => Err ValueError
  | x :: t => Ok (fold_left Z.min t x)
  end.

(** solvers.py:479-522 BasicFish.__find_for_candidate; [other] selects the
    coordinate with index other_offset = (offset + 1) % 2 *)
Definition fish_for_candidate (n : nat) (s : sudoku) (candidate : Z)
    (other : coord -> Z) (base_func cover_func : unit_func) : gen sudoku step sudoku :=
  do* fields := lift (mapM (fun i =>
       let* cs := base_func s i i true in
       let* l := fields_with s candidate cs in Ok (i, l)) (indices s)) in
  let valid := filter (fun e => (2 <=? py_len (snd e)) && (py_len (snd e) <=? Z.of_nat n))
                      fields in
  gfor (fun s entries =>
          let base_fields := concat (map snd entries) in
          let other_counts := count_others other base_fields in
          do* m := lift (py_min (dvalues other_counts)) in
          if m <? 2 then Ret s
          else if Z.of_nat n <? py_len other_counts then Ret s
          else
            do* covered := lift (mapM (fun v => cover_func s v v true) (dkeys other_counts)) in
            do* aff := lift (fields_with_except s candidate base_fields (concat covered)) in
            match aff with
            | [] => Ret s
            | _ => yield (new_step (BasicFish n) base_fields aff [candidate])
            end)
       (combinations n valid) s.

(** solvers.py:470-476 BasicFish.find; variant (0, row_of, column_of) selects the
    column (index 1) as other coordinate and vice versa *)
Definition fish_find (n : nat) (s : sudoku) : gen sudoku step sudoku :=
  gfor (fun s (item : (coord -> Z) * unit_func * unit_func) =>
          let '(other, base_func, cover_func) := item in
          gfor (fun s candidate => fish_for_candidate n s candidate other base_func cover_func)
               (numbers s) s)
       [((snd : coord -> Z), f_row, f_col); ((fst : coord -> Z), f_col, f_row)] s.

(** solvers.py:91-101, 576, 601: the find method of a class *)
Definition find (o : oracle) (cls : solver) (s : sudoku) : gen sudoku step sudoku :=
  match cls with
  | CalculateCandidates => calculate_find s
  | NakedSingle => naked_single_find s
  | HiddenSingle => hidden_single_find o s
  | NakedTuple n => naked_find n s
  | HiddenTuple n => hidden_find n s
  | PointingTuple n => pointing_find n s
  | BasicFish n => fish_find n s
  | Bruteforce => bruteforce_find o s
  end.

(** solvers.py:118-119 and 576-579: apply every step found before asking for the
    next one; the steps and the sudoku that is left *)
Fixpoint drive (g : gen sudoku step sudoku) (s : sudoku) : res (list step * sudoku) :=
  match g with
  | Ret _ => Ok ([], s)
  | Raise e => Err e
  | Yield st k =>
      let* (st, s) := apply st s in
      let* (l, s) := drive (k s) s in
      Ok (st :: l, s)
  end.

(** solvers.py:116-119 apply_all *)
Definition apply_all (o : oracle) (cls : solver) (s : sudoku) : res sudoku :=
  let* (_, s) := drive (find o cls s) s in Ok s.

(** solvers.py:536-554 SOLVERS *)
Definition SOLVERS : list solver :=
  [ CalculateCandidates; NakedSingle; HiddenSingle;
    NakedTuple 2; HiddenTuple 2; NakedTuple 3; HiddenTuple 3;
    NakedTuple 4; HiddenTuple 4; NakedTuple 5; HiddenTuple 5;
    PointingTuple 2; PointingTuple 3;
    BasicFish 2; BasicFish 3; BasicFish 4;
    Bruteforce ].

(** solvers.py:573-582: one pass of the for loop: the steps found by the first
    class that finds any *)
Fixpoint solve_round (o : oracle) (l : list solver) (s : sudoku)
  : res (list step * sudoku) :=
  match l with
  | [] => Ok ([], s)
  | cls :: t =>
      let* (steps, s) := drive (find o cls s) s in
      match steps with
      | [] => solve_round o t s
      | _ => Ok (steps, s)
      end
  end.

(** solvers.py:572-584: the while loop *)
Fixpoint solve_loop (fuel : nat) (o : oracle) (s : sudoku) : res (list step * sudoku) :=
  match fuel with
  | O => Err OutOfFuel
  | S fuel =>
      let* (steps, s) := solve_round o SOLVERS s in
      match steps with
      | [] => Ok ([], s)
      | _ =>
          let* (rest, s) := solve_loop fuel o s in
          Ok (steps ++ rest, s)
      end
  end.

(** solvers.py:557-586 solve: the steps passed to [report] and the solution *)
Definition solve (fuel : nat) (o : oracle) (s : sudoku) : res (list step * sudoku) :=
  let* s := copy s false in
  let* s := init_candidates s true in
  solve_loop fuel o s.

(** solvers.py:589-602 hints *)
Definition hints (o : oracle) (s : sudoku) : gen sudoku step sudoku :=
  gfor (fun s cls => match cls with
                     | Bruteforce => Ret s
                     | _ => find o cls s
                     end)
       SOLVERS s.
