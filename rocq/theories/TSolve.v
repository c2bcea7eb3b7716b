(** The tests of sudokutools/tests/test_solve.py, test_analyze.py and test_generate.py, run on the model.

    The model is run on the concrete data of the project's own tests.  These are tests of the model,
    not proofs about it: they guard against errors in the translation from Python.  The results are computed
    when the file is compiled ([Eval vm_compute]); each test compares the computed result with the expected one. *)
From Coq Require Import String.
From Verif Require Import MCodec TSudoku MAnalyze MGenerate MSolvers PGenerate.
Import ListNotations.
Open Scope string_scope.
Open Scope Z_scope.

(** tests/constants.py:6-16 *)
Definition SOLVE0 : pystr := lit "
    003020600
    900305001
    001806400
    008102900
    700000008
    006708200
    002609500
    800203009
    005010300
    ".
(** tests/constants.py:16-26 *)
Definition SOLUTION0 : pystr := lit "
    483921657
    967345821
    251876493
    548132976
    729564138
    136798245
    372689514
    814253769
    695417382
    ".
(** tests/constants.py:28-38 *)
Definition SOLVE1 : pystr := lit "
    009003008
    010040020
    200700400
    800600700
    090070010
    003004002
    005001007
    030090050
    700400200
    ".
(** tests/constants.py:38-48 *)
Definition SOLUTION1 : pystr := lit "
    469523178
    317948526
    258716439
    821659743
    694372815
    573184962
    945261387
    132897654
    786435291
    ".
(** tests/constants.py:49-59 *)
Definition SOLVE2 : pystr := lit "
    000000000
    000008435
    000030860
    000000218
    060000000
    900154000
    001000040
    008700021
    020900500
    ".
(** tests/constants.py:59-69 *)
Definition SOLUTION2 : pystr := lit "
    835476192
    716298435
    249531867
    574369218
    163827954
    982154673
    351682749
    698745321
    427913586
    ".
(** tests/constants.py:70-77 *)
Definition SOLVE3 : pystr := lit "
    123456
    630001
    500002
    462513
    314625
    251364
    ".
(** tests/constants.py:77-84 *)
Definition SOLUTION3 : pystr := lit "
    123456
    635241
    546132
    462513
    314625
    251364
    ".
(** tests/constants.py:86-96 *)
Definition NON_UNIQUE : pystr := lit "
000000000
000000000
000070000
000000000
000000000
000000000
000000000
000000000
000000000
".
(** tests/constants.py:98-108 *)
Definition UNSOLVABLE0 : pystr := lit "
000000000
000008435
000030860
000000218
060000000
900154000
001000040
008700025
020900500
".
(** tests/constants.py:109-114 *)
Definition UNSOLVABLE1 : pystr := lit "
0014  
1010
3241
0000
".
(** tests/test_solve.py:10-29 *)
Definition CANDIDATES_SOLVE : pystr := lit "
003020600
900305001
001806400
008102900
700000008
006708200
002609500
800203009
005010300|
45,4578,3,49,2,147,6,5789,57,
9,24678,47,3,47,5,78,278,1,
25,257,1,8,79,6,4,23579,2357,
345,345,8,1,3456,2,9,34567,34567,
7,123459,49,459,34569,4,1,13456,8,
1345,13459,6,7,3459,8,2,1345,345,
134,1347,2,6,478,9,5,1478,47,
8,1467,47,2,457,3,17,1467,9,
46,4679,5,4,1,47,3,24678,2467
".
(** tests/test_analyze.py:14-24 *)
Definition CONFLICT_EXAMPLE : pystr := lit "
003020600
900305001
001806400
008102900
700000008
006708200
002609500
800203009
005010300
".
(** tests/test_generate.py:10-20 *)
Definition TEMPLATE : pystr := lit "
111111111
111111111
100000001
100111001
100111001
100111001
100000001
111111111
111111111
".
(** tests/test_generate.py:22-39 *)
Definition TEMPLATE_16x16 : pystr := lit "
1111111111111111
1111111111111111
1111111111111111
1100000000000011
1100111111110011
1100111111110011
1100111111110011
1100111111110011
1100111111110011
1100111111110011
1100111111110011
1100111111110011
1100000000000011
1111111111111111
1111111111111111
1111111111111111
".
(** tests/test_generate.py:41-51 *)
Definition IMPOSSIBLE_TEMPLATE : pystr := lit "
000000000
000000000
000000000
000111000
000111000
000111000
000000000
000000000
000000000
".

Definition ids {A} : A -> list xrow -> list xrow := fun _ l => l.
Definition revs {A} : A -> list xrow -> list xrow := fun _ l => rev l.
Definition brute_ids : sudoku -> zset -> list Z := fun _ l => l.
Definition brute_revs : sudoku -> zset -> list Z := fun _ l => rev l.
Definition all_numbers (r : res (list sudoku)) : res (list (list (list Z))) := let* l := r in Ok (map s_numbers l).
Definition solutions_brute (t : pystr) : res (list (list (list Z))) :=
  let* s := dec t in all_numbers (glist (bruteforce brute_ids s) tt).
Definition solutions_dlx (t : pystr) : res (list (list (list Z))) :=
  let* s := dec t in all_numbers (glist (dlx ids s) tt).
Definition numbers_of (t : pystr) : res (list (list (list Z))) := let* s := dec t in Ok [s_numbers s].

(** BruteforceTests.test_examples and test_examples_count: the list of solutions has the given solution as only member *)
Definition brute_examples_run := Eval vm_compute in
  [(solutions_brute SOLVE0, numbers_of SOLUTION0);
   (solutions_brute SOLVE1, numbers_of SOLUTION1);
   (solutions_brute SOLVE2, numbers_of SOLUTION2);
   (solutions_brute SOLVE3, numbers_of SOLUTION3)].
Example brute_examples : map fst brute_examples_run = map snd brute_examples_run.
Proof. reflexivity. Qed.
(** DLXTests.test_examples and test_examples_count *)
Definition dlx_examples_run := Eval vm_compute in
  [(solutions_dlx SOLVE0, numbers_of SOLUTION0);
   (solutions_dlx SOLVE1, numbers_of SOLUTION1);
   (solutions_dlx SOLVE2, numbers_of SOLUTION2);
   (solutions_dlx SOLVE3, numbers_of SOLUTION3)].
Example dlx_examples : map fst dlx_examples_run = map snd dlx_examples_run.
Proof. reflexivity. Qed.
(** test_yields_nothing *)
Definition yields_nothing_run := Eval vm_compute in
  [((let* s := dec SOLVE0 in let* s := setitem s 0 0 5 in
    let* a := all_numbers (glist (bruteforce brute_ids s) tt) in let* b := all_numbers (glist (dlx ids s) tt) in Ok (List.length a, List.length b)), Ok (0%nat, 0%nat))].
Example yields_nothing : map fst yields_nothing_run = map snd yields_nothing_run.
Proof. reflexivity. Qed.
(** test_reverse_on_non_unique *)
Definition two_differ (g : gen unit sudoku unit) : res bool :=
  let* (a, g) := gnext g in let* (b, _) := gnext g in let* e := sudoku_eq a b in Ok (negb e).
Definition brute_non_unique_run := Eval vm_compute in
  [((let* s := dec NON_UNIQUE in two_differ (bruteforce brute_ids s)), Ok true)].
Example brute_non_unique : map fst brute_non_unique_run = map snd brute_non_unique_run.
Proof. reflexivity. Qed.
Definition dlx_non_unique_run := Eval vm_compute in
  [((let* s := dec NON_UNIQUE in two_differ (dlx ids s)), Ok true)].
Example dlx_non_unique : map fst dlx_non_unique_run = map snd dlx_non_unique_run.
Proof. reflexivity. Qed.
(** test_unsolvable *)
Definition unsolvable (t : pystr) : res (bool * nat * nat) :=
  let* s := dec t in
  let* c := glist (find_conflicts s []) s in
  let* a := glist (bruteforce brute_ids s) tt in
  let* b := glist (dlx ids s) tt in
  Ok (match c with [] => false | _ => true end, List.length a, List.length b).
Definition test_unsolvable_run := Eval vm_compute in
  [(unsolvable UNSOLVABLE0, Ok (true, 0%nat, 0%nat));
   (unsolvable UNSOLVABLE1, Ok (true, 0%nat, 0%nat))].
Example test_unsolvable : map fst test_unsolvable_run = map snd test_unsolvable_run.
Proof. reflexivity. Qed.

(** test_calc_candidates_in_example, test_init_candidates *)
Definition test_calc_candidates_run := Eval vm_compute in
  [(is_ok_true (
  let* s1 := dec CANDIDATES_SOLVE in
  let* s2 := copy s1 false in
  Ok (all_fields s1 (fun r c => is_ok_true (
        let* none := get_candidates s2 r c in
        let* a := calc_candidates s2 r c in
        let* b := get_candidates s1 r c in
        Ok (Zlist_eqb none [] && Zlist_eqb a b))))), true)].
Example test_calc_candidates : map fst test_calc_candidates_run = map snd test_calc_candidates_run.
Proof. reflexivity. Qed.
Definition test_init_candidates_run := Eval vm_compute in
  [((let* s1 := dec CANDIDATES_SOLVE in let* s2 := copy s1 false in let* s2 := init_candidates s2 false in
   Ok (s_candidates s2)), (let* s1 := dec CANDIDATES_SOLVE in Ok (s_candidates s1)))].
Example test_init_candidates : map fst test_init_candidates_run = map snd test_init_candidates_run.
Proof. reflexivity. Qed.
(** test_init_candidates_filled_only: copy() does not copy the candidates *)
Definition test_init_candidates_filled_only_run := Eval vm_compute in
  [(is_ok_true (
  let* s := dec CANDIDATES_SOLVE in
  let* s := copy s false in
  let* s := init_candidates s true in
  Ok (all_fields s (fun r c => is_ok_true (
        let* v := getitem s r c in let* cs := get_candidates s r c in
        Ok (Zlist_eqb cs (if v =? 0 then [] else [v])))))), true)].
Example test_init_candidates_filled_only : map fst test_init_candidates_filled_only_run = map snd test_init_candidates_filled_only_run.
Proof. reflexivity. Qed.

(** tests/test_analyze.py: test_find_conflicts_at, test_find_conflicts, test_find_conflicts_sizes *)
Definition test_find_conflicts_at_run := Eval vm_compute in
  [((
  let* s := dec CONFLICT_EXAMPLE in
  let* a := glist (find_conflicts s [(1, 2)]) s in
  let* s := setitem s 1 2 1 in
  let* b := glist (find_conflicts s [(1, 2)]) s in
  Ok [a; b]), Ok [[]; [((1, 2), (1, 8), 1); ((1, 2), (2, 2), 1)]])].
Example test_find_conflicts_at : map fst test_find_conflicts_at_run = map snd test_find_conflicts_at_run.
Proof. reflexivity. Qed.
Definition test_find_conflicts_run := Eval vm_compute in
  [((let* s := dec CONFLICT_EXAMPLE in let* l := glist (find_conflicts s []) s in Ok (py_len l)), Ok 0)].
Example test_find_conflicts : map fst test_find_conflicts_run = map snd test_find_conflicts_run.
Proof. reflexivity. Qed.
Definition test_find_conflicts_sizes_run := Eval vm_compute in
  [(forallb (fun wh => let s := new_sudoku wh in match glist (find_conflicts s []) s with Ok [] => true | _ => false end) TEST_SIZES &&
  forallb (fun t => match (let* s := dec t in glist (find_conflicts s []) s) with Ok [] => true | _ => false end)
          [SOLVE0; SOLVE1; SOLVE2; SOLVE3], true)].
Example test_find_conflicts_sizes : map fst test_find_conflicts_sizes_run = map snd test_find_conflicts_sizes_run.
Proof. reflexivity. Qed.

(** tests/test_analyze.py: IsSolvedTests, IsUniqueTests *)
Definition test_is_solved_run := Eval vm_compute in
  [((let* a := create_solution co_ex (3, 3) in let* b := generate go_ex 60 SymRotate90 (3, 3) in
   let* x := is_solved a in let* y := is_solved b in Ok (x, y)), Ok (true, false))].
Example test_is_solved : map fst test_is_solved_run = map snd test_is_solved_run.
Proof. reflexivity. Qed.
Definition test_unique_run := Eval vm_compute in
  [(forallb (fun t => is_ok_true (let* s := dec t in is_unique ids s)) [SOLVE0; SOLVE1; SOLVE2; SOLVE3], true)].
Example test_unique : map fst test_unique_run = map snd test_unique_run.
Proof. reflexivity. Qed.
Definition test_non_unique_run := Eval vm_compute in
  [((let* s := dec NON_UNIQUE in is_unique ids s), Ok false)].
Example test_non_unique : map fst test_non_unique_run = map snd test_non_unique_run.
Proof. reflexivity. Qed.

(** Random decisions that differ from try to try *)
Definition rot {A} (k : nat) (l : list A) : list A := List.app (skipn k l) (firstn k l).
Definition co (k : nat) : create_oracle :=
  {| co_row := 5; co_col := 2; co_shuffle := rot k; co_ord := fun _ l => rot (Nat.modulo k (Nat.max 1 (List.length l))) l |}.

(** tests/test_generate.py: CreateSolutionTests for a fixed choice of random numbers, without the largest size *)
Definition test_create_solution_run := Eval vm_compute in
  [(forallb (fun wh => is_ok_true (
    let* s := create_solution (co 3) wh in
    let* n := count s in
    let* c := glist (find_conflicts s []) s in
    Ok ((n =? fst wh ^ 2 * snd wh ^ 2) && match c with [] => true | _ => false end)))
  [(2, 2); (2, 3); (2, 4); (3, 3)], true)].
Example test_create_solution : map fst test_create_solution_run = map snd test_create_solution_run.
Proof. reflexivity. Qed.
(** GenerateTests for a fixed choice of random numbers, without the largest size *)
Definition test_generate_run := Eval vm_compute in
  [(forallb (fun wh => is_ok_true (
    let n := fst wh ^ 2 * snd wh ^ 2 / 2 in
    let* s := generate go_ex n SymRotate90 wh in
    let* c := glist (find_conflicts s []) s in
    let* u := is_unique ids s in
    let* k := count s in
    Ok (match c with [] => u | _ => false end && (n <=? k))))
  [(2, 2); (2, 3); (2, 4); (3, 3)], true)].
Example test_generate : map fst test_generate_run = map snd test_generate_run.
Proof. reflexivity. Qed.
Definition test_generate_invalid_min_run := Eval vm_compute in
  [(forallb (fun wh =>
    match generate go_ex (fst wh ^ 2 * snd wh ^ 2 + 1) SymRotate90 wh with Err ValueError => true | _ => false end)
  TEST_SIZES, true)].
Example test_generate_invalid_min : map fst test_generate_invalid_min_run = map snd test_generate_invalid_min_run.
Proof. reflexivity. Qed.
Definition test_invalid_symmetry_run : list (res sudoku * res sudoku) := Eval vm_compute in
  [(generate go_ex 0 SymOther (3, 3), Err (A:=sudoku) ValueError)].
Example test_invalid_symmetry : map fst test_invalid_symmetry_run = map snd test_invalid_symmetry_run.
Proof. reflexivity. Qed.
(** GenerateFromTemplateTests: test_has_same_pattern, test_fail_from_impossible_template (5 instead of 100 tries), test_fail_from_zero_tries *)
Definition test_has_same_pattern_run := Eval vm_compute in
  [(is_ok_true (
  let* t := dec TEMPLATE in
  let* s := generate_from_template 10 (fun t => (co (Z.to_nat (t + 1)), ids)) t 5 in
  Ok (all_fields t (fun r c => is_ok_true (
        let* a := getitem t r c in let* b := getitem s r c in Ok (Bool.eqb (a =? 0) (b =? 0)))))), true)].
Example test_has_same_pattern : map fst test_has_same_pattern_run = map snd test_has_same_pattern_run.
Proof. reflexivity. Qed.
Definition test_fail_from_impossible_template_run : list (res sudoku * res sudoku) := Eval vm_compute in
  [((let* t := dec IMPOSSIBLE_TEMPLATE in generate_from_template 101 (fun t => (co (Z.to_nat t), ids)) t 5), Err (A:=sudoku) RuntimeError)].
Example test_fail_from_impossible_template : map fst test_fail_from_impossible_template_run = map snd test_fail_from_impossible_template_run.
Proof. reflexivity. Qed.
Definition test_fail_from_zero_tries_run : list (res sudoku * res sudoku) := Eval vm_compute in
  [((let* t := dec TEMPLATE in generate_from_template 101 (fun _ => (co_ex, ids)) t 0), Err (A:=sudoku) RuntimeError)].
Example test_fail_from_zero_tries : map fst test_fail_from_zero_tries_run = map snd test_fail_from_zero_tries_run.
Proof. reflexivity. Qed.
(** test_different_sizes: the box size of the 16x16 template *)
Definition test_different_sizes_run := Eval vm_compute in
  [((let* t := dec TEMPLATE_16x16 in Ok (box_size t)), Ok (4, 4))].
Example test_different_sizes : map fst test_different_sizes_run = map snd test_different_sizes_run.
Proof. reflexivity. Qed.
