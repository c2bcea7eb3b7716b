(** The tests of sudokutools/tests/test_sudoku.py and test_coordinates.py, run on the model.

    The model is run on the concrete data of the project's own tests.  These are tests of the model,
    not proofs about it: they guard against errors in the translation from Python.  The results are computed
    when the file is compiled ([Eval vm_compute]); each test compares the computed result with the expected one. *)
From Coq Require Import String.
From Verif Require Import MCodec MSolve MCoord.
Import ListNotations.
Open Scope string_scope.
Open Scope Z_scope.

(** Sudoku.decode(text) with the default arguments *)
Definition dec (t : pystr) : res sudoku := MCodec.decode t (lit "0") [] (lit "|") (lit ",") None.
(** Sudoku.decode(text, number_sep=" ") *)
Definition dec_sp (t : pystr) : res sudoku := MCodec.decode t (lit "0") (lit " ") (lit "|") (lit ",") None.
Definition newline : pystr := [10].
(** text[1:] *)
Definition cut1 (s : pystr) : pystr := tl s.

(** tests/test_sudoku.py:7-16 *)
Definition EXAMPLE : pystr := lit "
003020600
900305001
001806400
008102900
700000008
006708200
002609500
800203009
005010300".
(** tests/test_sudoku.py:18-29 *)
Definition EXAMPLE_STR : pystr := lit "
    3 |   2   | 6    
9     | 3   5 |     1
    1 | 8   6 | 4    
------+-------+------
    8 | 1   2 | 9    
7     |       |     8
    6 | 7   8 | 2    
------+-------+------
    2 | 6   9 | 5    
8     | 2   3 |     9
    5 |   1   | 3    ".
(** tests/test_sudoku.py:31-36 *)
Definition EXAMPLE_4 : pystr := lit "
0102
2000
3004
0013
".
(** tests/test_sudoku.py:38-43 *)
Definition EXAMPLE_4_STR : pystr := lit "
  1 |   2
2   |    
----+----
3   |   4
    | 1 3".
(** tests/test_sudoku.py:45-62 *)
Definition EXAMPLE_16 : pystr := lit "
0 4 9 6 1 0 12 0 8 0 14 0 0 0 2 3
0 5 0 7 3 2 8 16 9 0 15 11 12 10 4 13
0 8 0 15 0 0 10 11 2 5 1 0 16 6 9 7
10 11 2 3 7 9 6 15 13 16 0 0 0 0 8 0
7 0 5 14 8 6 0 12 15 2 3 0 1 11 0 9
8 16 1 4 0 7 15 14 0 13 11 0 3 12 6 2
15 3 11 13 2 1 5 10 6 9 0 7 4 16 14 0
9 12 6 2 13 11 0 4 14 1 8 16 0 5 10 15
0 14 7 9 15 12 0 0 11 0 10 2 8 0 16 6
0 2 15 8 10 16 1 0 12 4 0 13 9 3 11 0
11 1 10 12 6 0 13 9 16 8 7 14 2 4 0 5
0 6 3 16 14 8 11 2 0 15 9 1 13 0 0 10
2 7 16 0 11 4 14 0 1 10 13 9 15 8 3 12
0 15 4 1 0 13 7 8 3 0 2 6 10 9 5 0
3 13 12 10 16 15 9 1 4 14 5 8 6 2 7 11
6 9 8 0 0 10 2 0 7 12 16 0 14 13 1 4
".
(** tests/test_sudoku.py:64-83 *)
Definition EXAMPLE_16_STR : pystr := lit "
    4  9  6 |  1    12    |  8    14    |        2  3
    5     7 |  3  2  8 16 |  9    15 11 | 12 10  4 13
    8    15 |       10 11 |  2  5  1    | 16  6  9  7
10 11  2  3 |  7  9  6 15 | 13 16       |        8   
------------+-------------+-------------+------------
 7     5 14 |  8  6    12 | 15  2  3    |  1 11     9
 8 16  1  4 |     7 15 14 |    13 11    |  3 12  6  2
15  3 11 13 |  2  1  5 10 |  6  9     7 |  4 16 14   
 9 12  6  2 | 13 11     4 | 14  1  8 16 |     5 10 15
------------+-------------+-------------+------------
   14  7  9 | 15 12       | 11    10  2 |  8    16  6
    2 15  8 | 10 16  1    | 12  4    13 |  9  3 11   
11  1 10 12 |  6    13  9 | 16  8  7 14 |  2  4     5
    6  3 16 | 14  8 11  2 |    15  9  1 | 13       10
------------+-------------+-------------+------------
 2  7 16    | 11  4 14    |  1 10 13  9 | 15  8  3 12
   15  4  1 |    13  7  8 |  3     2  6 | 10  9  5   
 3 13 12 10 | 16 15  9  1 |  4 14  5  8 |  6  2  7 11
 6  9  8    |    10  2    |  7 12 16    | 14 13  1  4".
(** tests/test_sudoku.py:103-122 *)
Definition CANDIDATES_EXAMPLE : pystr := lit "
003020600
900305001
001806400
008102900
700000008
006708200
002609500
800203009
005010300|
45,4578,347,49,2479,147,678,5789,57,
2469,24678,47,34,47,457,78,278,127,
25,257,17,89,79,67,47,23579,2357,
345,345,48,145,3456,24,79,34567,34567,
123457,123459,49,459,34569,4,1,13456,34568,
1345,13459,469,4579,3459,48,12,1345,345,
134,1347,247,46,478,479,1578,1478,47,
1468,1467,47,245,457,347,17,1467,4679,
46,4679,4579,4,1478,47,378,24678,2467
".
(** tests/test_sudoku.py:412-419 *)
Definition EXAMPLE_2x3 : pystr := lit "
000530
204000
150000
000205
500006
000010
".
(** tests/test_sudoku.py:421-428 *)
Definition EXAMPLE_2x3_VIEW : pystr := lit "
  *46   *46 |  *126     5 |     3  *124
    2   *36 |     4  *136 |   *56    *1
    1     5 |  *236   *36 |  *246   *24
------------+-------------+------------
 *346 *1346 |  *136     2 |    *4     5
    5 *1234 |   *13  *134 |   *24     6
 *346 *2346 |  *356  *346 |     1  *234".
(** tests/test_sudoku.py:430-440 *)
Definition EXAMPLE_9x9 : pystr := lit "
003020600
900305001
001806400
008102900
700000008
006708200
002609500
800203009
005010300
".
(** tests/test_sudoku.py:442-453 *)
Definition EXAMPLE_9x9_VIEW : pystr := lit "
45     4578   3      | 49     2      147    | 6      5789   57    
9      24678  47     | 3      47     5      | 78     278    1     
25     257    1      | 8      79     6      | 4      23579  2357  
---------------------+----------------------+---------------------
345    345    8      | 1      3456   2      | 9      34567  34567 
7      123459 49     | 459    34569  4      | 1      13456  8     
1345   13459  6      | 7      3459   8      | 2      1345   345   
---------------------+----------------------+---------------------
134    1347   2      | 6      478    9      | 5      1478   47    
8      1467   47     | 2      457    3      | 17     1467   9     
46     4679   5      | 4      1      47     | 3      24678  2467  ".
(** tests/test_sudoku.py:455-472 *)
Definition EXAMPLE_16x16 : pystr := lit "
0 4 9 6 1 0 12 0 8 0 14 0 0 0 2 3
0 5 0 7 3 2 8 16 9 0 15 11 12 10 4 13
0 8 0 15 0 0 10 11 2 5 1 0 16 6 9 7
10 11 2 3 7 9 6 15 13 16 0 0 0 0 8 0
7 0 5 14 8 6 0 12 15 2 3 0 1 11 0 9
8 16 1 4 0 7 15 14 0 13 11 0 3 12 6 2
15 3 11 13 2 1 5 10 6 9 0 7 4 16 14 0
9 12 6 2 13 11 0 4 14 1 8 16 0 5 10 15
0 14 7 9 15 12 0 0 11 0 10 2 8 0 16 6
0 2 15 8 10 16 1 0 12 4 0 13 9 3 11 0
11 1 10 12 6 0 13 9 16 8 7 14 2 4 0 5
0 6 3 16 14 8 11 2 0 15 9 1 13 0 0 10
2 7 16 0 11 4 14 0 1 10 13 9 15 8 3 12
0 15 4 1 0 13 7 8 3 0 2 6 10 9 5 0
3 13 12 10 16 15 9 1 4 14 5 8 6 2 7 11
6 9 8 0 0 10 2 0 7 12 16 0 14 13 1 4
".
(** tests/test_sudoku.py:474-493 *)
Definition EXAMPLE_16x16_VIEW : pystr := lit "
   *13,16         4         9         6 |         1        *5        12     *5,13 |         8        *7        14       *10 |     *5,11       *15         2         3
    *1,14         5       *14         7 |         3         2         8        16 |         9        *6        15        11 |        12        10         4        13
*12,13,14         8    *13,14        15 |        *4       *14        10        11 |         2         5         1   *3,4,12 |        16         6         9         7
       10        11         2         3 |         7         9         6        15 |        13        16     *4,12     *4,12 |        *5     *1,14         8     *1,14
----------------------------------------+-----------------------------------------+-----------------------------------------+----------------------------------------
        7       *10         5        14 |         8         6       *16        12 |        15         2         3     *4,10 |         1        11       *13         9
        8        16         1         4 |        *9         7        15        14 |     *5,10        13        11     *5,10 |         3        12         6         2
       15         3        11        13 |         2         1         5        10 |         6         9       *12         7 |         4        16        14        *8
        9        12         6         2 |        13        11        *3         4 |        14         1         8        16 |        *7         5        10        15
----------------------------------------+-----------------------------------------+-----------------------------------------+----------------------------------------
  *4,5,13        14         7         9 |        15        12      *3,4      *3,5 |        11        *3        10         2 |         8        *1        16         6
       *5         2        15         8 |        10        16         1      *5,7 |        12         4        *6        13 |         9         3        11       *14
       11         1        10        12 |         6        *3        13         9 |        16         8         7        14 |         2         4       *15         5
     *4,5         6         3        16 |        14         8        11         2 |        *5        15         9         1 |        13        *7       *12        10
----------------------------------------+-----------------------------------------+-----------------------------------------+----------------------------------------
        2         7        16        *5 |        11         4        14      *5,6 |         1        10        13         9 |        15         8         3        12
      *14        15         4         1 |       *12        13         7         8 |         3       *11         2         6 |        10         9         5       *16
        3        13        12        10 |        16        15         9         1 |         4        14         5         8 |         6         2         7        11
        6         9         8     *5,11 |        *5        10         2      *3,5 |         7        12        16       *15 |        14        13         1         4".

(** tests/test_sudoku.py:86-97 EMPTY *)
Definition EMPTY : list coord :=
  [(0, 0); (0, 1); (0, 3); (0, 5); (0, 7); (0, 8);
   (1, 1); (1, 2); (1, 4); (1, 6); (1, 7);
   (2, 0); (2, 1); (2, 4); (2, 7); (2, 8);
   (3, 0); (3, 1); (3, 4); (3, 7); (3, 8);
   (4, 1); (4, 2); (4, 3); (4, 4); (4, 5); (4, 6); (4, 7);
   (5, 0); (5, 1); (5, 4); (5, 7); (5, 8);
   (6, 0); (6, 1); (6, 4); (6, 7); (6, 8);
   (7, 1); (7, 2); (7, 4); (7, 6); (7, 7);
   (8, 0); (8, 1); (8, 3); (8, 5); (8, 7); (8, 8)].
(** tests/test_sudoku.py:118 TEST_SIZES *)
Definition TEST_SIZES : list (Z * Z) := [(2, 2); (2, 3); (2, 4); (3, 3); (4, 4)].

Definition is_ok_true (r : res bool) : bool := match r with Ok true => true | _ => false end.
Definition all_fields (s : sudoku) (f : Z -> Z -> bool) : bool := forallb (fun rc => f (fst rc) (snd rc)) (coords s).
Definition Zlist_eqb (a b : list Z) : bool := match list_cmp zcmp a b with Eq => true | _ => false end.
Definition coords_same (a b : list coord) : bool := match list_cmp coord_cmp a b with Eq => true | _ => false end.
Definition res_eqb {A} (eqb : A -> A -> bool) (r : res A) (a : A) : bool := match r with Ok x => eqb x a | Err _ => false end.

(** test_init, test_len, test_iter *)
Definition test_init_run := Eval vm_compute in
  [(forallb (fun wh => let s := new_sudoku wh in
    all_fields s (fun r c => res_eqb Z.eqb (getitem s r c) 0 && res_eqb Zlist_eqb (get_candidates s r c) []) &&
    (py_len (coords s) =? fst wh ^ 2 * snd wh ^ 2) && (sudoku_len s =? fst wh ^ 2 * snd wh ^ 2))
  TEST_SIZES, true)].
Example test_init : map fst test_init_run = map snd test_init_run.
Proof. reflexivity. Qed.

(** test_decode_valid: the numbers in the order of the text *)
Definition test_decode_valid_run := Eval vm_compute in
  [((let* s := dec EXAMPLE in Ok (concat (s_numbers s))), Ok (map (fun c => c - 48) (filter (fun c => negb (c =? 10)) EXAMPLE)))].
Example test_decode_valid : map fst test_decode_valid_run = map snd test_decode_valid_run.
Proof. reflexivity. Qed.

(** test_decode_candidates.  (The second assertion of the test compares frozensets with an empty dict and can not fail; here
    every field has candidates.) *)
Definition test_decode_candidates_run := Eval vm_compute in
  [(is_ok_true (
  let* s := dec CANDIDATES_EXAMPLE in
  let* c := get_candidates s 0 1 in
  Ok (Zlist_eqb c [4; 5; 7; 8] &&
      all_fields s (fun r c => match get_candidates s r c with Ok (_ :: _) => true | _ => false end))), true)].
Example test_decode_candidates : map fst test_decode_candidates_run = map snd test_decode_candidates_run.
Proof. reflexivity. Qed.

(** test_decode_length_4 *)
Definition test_decode_length_4_run := Eval vm_compute in
  [((let* s := dec EXAMPLE_4 in let* t := sudoku_str s in Ok (t, box_size s)), Ok (cut1 EXAMPLE_4_STR, (2, 2)))].
Example test_decode_length_4 : map fst test_decode_length_4_run = map snd test_decode_length_4_run.
Proof. reflexivity. Qed.

(** test_decode_length_16 *)
Definition test_decode_length_16_run := Eval vm_compute in
  [((let* s := dec_sp EXAMPLE_16 in let* t := sudoku_str s in Ok (t, box_size s)), Ok (cut1 EXAMPLE_16_STR, (4, 4)))].
Example test_decode_length_16 : map fst test_decode_length_16_run = map snd test_decode_length_16_run.
Proof. reflexivity. Qed.

(** test_encode *)
Definition test_encode_run := Eval vm_compute in
  [((let* s := dec EXAMPLE in encode s [] [] false), Ok (replace_char 10 [] EXAMPLE))].
Example test_encode : map fst test_encode_run = map snd test_encode_run.
Proof. reflexivity. Qed.

(** test_str *)
Definition test_str_run := Eval vm_compute in
  [((let* s := dec EXAMPLE in sudoku_str s), Ok (cut1 EXAMPLE_STR))].
Example test_str : map fst test_str_run = map snd test_str_run.
Proof. reflexivity. Qed.

(** test_empty_fields_in_new_sudoku, test_empty_fields_in_changed_sudoku *)
Definition test_empty_new_run := Eval vm_compute in
  [((let s := new_sudoku (3, 3) in let* l := glist (empty s) s in Ok (py_len l)), Ok 81)].
Example test_empty_new : map fst test_empty_new_run = map snd test_empty_new_run.
Proof. reflexivity. Qed.
Definition test_empty_changed_run := Eval vm_compute in
  [((let* s := setitem (new_sudoku (3, 3)) 0 0 4 in let* l := glist (empty s) s in Ok (py_len l)), Ok 80)].
Example test_empty_changed : map fst test_empty_changed_run = map snd test_empty_changed_run.
Proof. reflexivity. Qed.

(** test_empty_example *)
Definition test_empty_example_run := Eval vm_compute in
  [((let* s := dec EXAMPLE in glist (empty s) s), Ok EMPTY)].
Example test_empty_example : map fst test_empty_example_run = map snd test_empty_example_run.
Proof. reflexivity. Qed.

(** sudoku[r, c] -= 1 *)
Definition decrease (s : sudoku) (r c : Z) : res sudoku := let* v := getitem s r c in setitem s r c (v - 1).

(** test_diff *)
Definition test_diff_run := Eval vm_compute in
  [((
  let* s2 := dec EXAMPLE in
  let* s1 := decrease s2 2 3 in
  let* s1 := decrease s1 4 2 in
  glist (diff s1 s2) s1), Ok [(2, 3); (4, 2)])].
Example test_diff : map fst test_diff_run = map snd test_diff_run.
Proof. reflexivity. Qed.

(** test_equal, test_equal_independent_from_candidates, test_unequal_after_change *)
Definition test_equal_run := Eval vm_compute in
  [(is_ok_true (let* s1 := dec EXAMPLE in let* s2 := dec EXAMPLE in sudoku_eq s1 s2), true)].
Example test_equal : map fst test_equal_run = map snd test_equal_run.
Proof. reflexivity. Qed.
Definition test_equal_independent_from_candidates_run := Eval vm_compute in
  [(is_ok_true (
  let* s1 := dec EXAMPLE in let* s2 := dec EXAMPLE in
  let* s1 := set_candidates s1 0 0 [3; 4] in sudoku_eq s1 s2), true)].
Example test_equal_independent_from_candidates : map fst test_equal_independent_from_candidates_run = map snd test_equal_independent_from_candidates_run.
Proof. reflexivity. Qed.
Definition test_unequal_after_change_run := Eval vm_compute in
  [((let* s1 := dec EXAMPLE in let* s2 := dec EXAMPLE in let* s1 := decrease s1 2 3 in sudoku_eq s1 s2), Ok false)].
Example test_unequal_after_change : map fst test_unequal_after_change_run = map snd test_unequal_after_change_run.
Proof. reflexivity. Qed.

(** test_cannot_change_candidates_from_outside, test_remove_candidates *)
Definition test_set_candidates_run := Eval vm_compute in
  [((let* s := set_candidates (new_sudoku (3, 3)) 0 0 [3; 2; 1] in get_candidates s 0 0), Ok [1; 2; 3])].
Example test_set_candidates : map fst test_set_candidates_run = map snd test_set_candidates_run.
Proof. reflexivity. Qed.
Definition test_remove_candidates_run := Eval vm_compute in
  [((
  let* s := set_candidates (new_sudoku (3, 3)) 0 0 [1; 2; 3; 4] in
  let* s := remove_candidates s 0 0 [2; 4] in
  get_candidates s 0 0), Ok [1; 3])].
Example test_remove_candidates : map fst test_remove_candidates_run = map snd test_remove_candidates_run.
Proof. reflexivity. Qed.

(** A member of a list of fields *)
Definition field_in (rc : coord) (l : list coord) : bool := existsb (coord_eqb rc) l.
Definition without (s : sudoku) (l : res (list coord)) (n : Z) (r c : Z) : bool :=
  match l with Ok l => (py_len l =? n) && negb (field_in (r, c) l) | Err _ => false end.

(** test_row_of, test_column_of, test_region_of, test_surrounding_of *)
Definition test_row_of_run := Eval vm_compute in
  [(forallb (fun wh => let s := new_sudoku wh in
    all_fields s (fun r c =>
      let l := MSudoku.row_of s r c true in
      (py_len l =? py_len (numbers s)) && forallb (fun j => field_in (r, j) l) (indices s) &&
      without s (Ok (MSudoku.row_of s r c false)) (py_len (numbers s) - 1) r c))
  TEST_SIZES, true)].
Example test_row_of : map fst test_row_of_run = map snd test_row_of_run.
Proof. reflexivity. Qed.
Definition test_column_of_run := Eval vm_compute in
  [(forallb (fun wh => let s := new_sudoku wh in
    all_fields s (fun r c =>
      let l := MSudoku.column_of s r c true in
      (py_len l =? py_len (numbers s)) && forallb (fun i => field_in (i, c) l) (indices s) &&
      without s (Ok (MSudoku.column_of s r c false)) (py_len (numbers s) - 1) r c))
  TEST_SIZES, true)].
Example test_column_of : map fst test_column_of_run = map snd test_column_of_run.
Proof. reflexivity. Qed.
Definition test_region_of_run := Eval vm_compute in
  [(forallb (fun wh => let s := new_sudoku wh in
    all_fields s (fun r c =>
      is_ok_true (let* l := MSudoku.box_of s r c true in
        let r0 := r - r mod box_height s in let c0 := c - c mod box_width s in
        Ok ((py_len l =? py_len (numbers s)) &&
            forallb (fun i => forallb (fun j => field_in (r0 + i, c0 + j) l) (py_range (box_width s)))
                    (py_range (box_height s)) &&
            without s (MSudoku.box_of s r c false) (py_len (numbers s) - 1) r c))))
  TEST_SIZES, true)].
Example test_region_of : map fst test_region_of_run = map snd test_region_of_run.
Proof. reflexivity. Qed.
Definition test_surrounding_of_run := Eval vm_compute in
  [(forallb (fun wh => let s := new_sudoku wh in
    let n := 3 * box_width s * box_height s - (box_width s + box_height s) in
    all_fields s (fun r c =>
      is_ok_true (let* l := MSudoku.surrounding_of s r c true in
        let* b := MSudoku.box_of s r c true in
        Ok ((py_len l =? n) &&
            forallb (fun rc => field_in rc l) (MSudoku.row_of s r c true ++ MSudoku.column_of s r c true ++ b) &&
            without s (MSudoku.surrounding_of s r c false) (n - 1) r c))))
  TEST_SIZES, true)].
Example test_surrounding_of : map fst test_surrounding_of_run = map snd test_surrounding_of_run.
Proof. reflexivity. Qed.

(** test_surrounding_of_examples *)
Definition test_surrounding_of_examples_run := Eval vm_compute in
  [((let* l := MSudoku.surrounding_of (new_sudoku (3, 2)) 1 1 true in Ok (py_sorted coord_cmp l)), Ok [(0, 0); (0, 1); (0, 2); (1, 0); (1, 1); (1, 2); (1, 3); (1, 4); (1, 5); (2, 1); (3, 1); (4, 1); (5, 1)])].
Example test_surrounding_of_examples : map fst test_surrounding_of_examples_run = map snd test_surrounding_of_examples_run.
Proof. reflexivity. Qed.

(** test_box_at *)
Definition test_box_at_run := Eval vm_compute in
  [(forallb (fun wh => let s := new_sudoku wh in
    let l := concat (map (fun i => concat (map (fun _ => concat (map (fun x =>
               repeat (x + i * box_height s) (Z.to_nat (box_width s))) (py_range (box_height s))))
             (py_range (box_height s)))) (py_range (box_width s))) in
    Zlist_eqb l (map (fun rc => MSudoku.box_at s (fst rc) (snd rc)) (coords s)))
  TEST_SIZES, true)].
Example test_box_at : map fst test_box_at_run = map snd test_box_at_run.
Proof. reflexivity. Qed.

(** ViewTests.test_9x9, test_16x16, test_2x3 *)
Definition test_view_9x9_run := Eval vm_compute in
  [((let* s := dec EXAMPLE_9x9 in let* s := init_candidates s false in view s true None [] false), Ok (cut1 EXAMPLE_9x9_VIEW))].
Example test_view_9x9 : map fst test_view_9x9_run = map snd test_view_9x9_run.
Proof. reflexivity. Qed.
Definition test_view_16x16_run := Eval vm_compute in
  [((let* s := dec_sp EXAMPLE_16x16 in let* s := init_candidates s false in view s true None (lit "*") true), Ok (cut1 EXAMPLE_16x16_VIEW))].
Example test_view_16x16 : map fst test_view_16x16_run = map snd test_view_16x16_run.
Proof. reflexivity. Qed.
Definition test_view_2x3_run := Eval vm_compute in
  [((
  let* s := MCodec.decode EXAMPLE_2x3 (lit "0") [] (lit "|") (lit ",") (Some (2, 3)) in
  let* s := init_candidates s false in view s true None (lit "*") true), Ok (cut1 EXAMPLE_2x3_VIEW))].
Example test_view_2x3 : map fst test_view_2x3_run = map snd test_view_2x3_run.
Proof. reflexivity. Qed.

(** tests/test_coordinates.py: the fields of a grid of indices, grouped by index *)
Definition grouped (grid : list (list Z)) (k : Z) : list coord :=
  concat (map (fun ir => concat (map (fun jv => if snd jv =? k then [(fst ir, fst jv)] else [])
                                     (combine (py_range (py_len (snd ir))) (snd ir))))
              (combine (py_range (py_len grid)) grid)).
(** tests/test_coordinates.py:5-26 BOXES_3x3 and BOXES_5x2 *)
Definition BOXES_3x3 : list (list Z) :=
  let r k := [k; k; k; k + 1; k + 1; k + 1; k + 2; k + 2; k + 2] in [r 0; r 0; r 0; r 3; r 3; r 3; r 6; r 6; r 6].
Definition BOXES_5x2 : list (list Z) :=
  let r k := [k; k; k; k; k; k + 1; k + 1; k + 1; k + 1; k + 1] in [r 0; r 0; r 2; r 2; r 4; r 4; r 6; r 6; r 8; r 8].
(** tests/test_coordinates.py:28-51 PARTS_3x3 and PARTS_5x2 *)
Definition PARTS_3x3 : list (list Z) :=
  let r k := [k; k + 1; k + 2; k; k + 1; k + 2; k; k + 1; k + 2] in [r 0; r 3; r 6; r 0; r 3; r 6; r 0; r 3; r 6].
Definition PARTS_5x2 : list (list Z) :=
  let r k := [k; k + 1; k + 2; k + 3; k + 4; k; k + 1; k + 2; k + 3; k + 4] in
  [r 0; r 5; r 0; r 5; r 0; r 5; r 0; r 5; r 0; r 5].
Definition test_the_box_run := Eval vm_compute in
  [(forallb (fun k => res_eqb coords_same (the_box k 3 3) (grouped BOXES_3x3 k)) (py_range 9) &&
  forallb (fun k => res_eqb coords_same (the_box k 5 2) (grouped BOXES_5x2 k)) (py_range 10), true)].
Example test_the_box : map fst test_the_box_run = map snd test_the_box_run.
Proof. reflexivity. Qed.
Definition test_the_part_run := Eval vm_compute in
  [(forallb (fun k => res_eqb coords_same (the_part k 3 3) (grouped PARTS_3x3 k)) (py_range 9) &&
  forallb (fun k => res_eqb coords_same (the_part k 5 2) (grouped PARTS_5x2 k)) (py_range 10), true)].
Example test_the_part : map fst test_the_part_run = map snd test_the_part_run.
Proof. reflexivity. Qed.

(** The examples in the docstrings of coordinates.py:178, 205, 229, 258 *)
Definition doc_the_box_run := Eval vm_compute in
  [(the_box 0 3 3, Ok [(0, 0); (0, 1); (0, 2); (1, 0); (1, 1); (1, 2); (2, 0); (2, 1); (2, 2)])].
Example doc_the_box : map fst doc_the_box_run = map snd doc_the_box_run.
Proof. reflexivity. Qed.
Definition doc_the_column_run := Eval vm_compute in
  [(the_column 1 3 3, Ok [(0, 1); (1, 1); (2, 1); (3, 1); (4, 1); (5, 1); (6, 1); (7, 1); (8, 1)])].
Example doc_the_column : map fst doc_the_column_run = map snd doc_the_column_run.
Proof. reflexivity. Qed.
Definition doc_the_part_run := Eval vm_compute in
  [(the_part 1 3 3, Ok [(0, 1); (0, 4); (0, 7); (3, 1); (3, 4); (3, 7); (6, 1); (6, 4); (6, 7)])].
Example doc_the_part : map fst doc_the_part_run = map snd doc_the_part_run.
Proof. reflexivity. Qed.
Definition doc_the_row_run := Eval vm_compute in
  [(the_row 1 3 3, Ok [(1, 0); (1, 1); (1, 2); (1, 3); (1, 4); (1, 5); (1, 6); (1, 7); (1, 8)])].
Example doc_the_row : map fst doc_the_row_run = map snd doc_the_row_run.
Proof. reflexivity. Qed.
