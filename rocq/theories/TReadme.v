(** The examples of README.md, run on the model.

    As in the other [T*.v] files these are tests of the model, not proofs about it. *)
From Coq Require Import String.
From Verif Require Import MCodec TSudoku MAnalyze MSolvers MStepText PSolvers.
Import ListNotations.
Open Scope string_scope.
Open Scope Z_scope.

(** README.md:70-78 *)
Definition FIRST : pystr := lit "000030000
005009602
008004013
020060000
703040106
000080090
210300800
306800700
000020000".
(** README.md:93-93 *)
Definition FIRST_encoded : pystr := lit "000030000005009602008004013020060000703040106000080090210300800306800700000020000".
(** README.md:95-105 *)
Definition FIRST_shown : pystr := lit "      |   3   |      
    5 |     9 | 6   2
    8 |     4 |   1 3
------+-------+------
  2   |   6   |      
7   3 |   4   | 1   6
      |   8   |   9  
------+-------+------
2 1   | 3     | 8    
3   6 | 8     | 7    
      |   2   |      ".
(** README.md:120-130 *)
Definition FIRST_candidates : pystr := lit "  *1469   *4679  *12479 |  *12567       3 *125678 |    *459   *4578  *45789
    *14    *347       5 |     *17     *17       9 |       6    *478       2
    *69    *679       8 |   *2567     *57       4 |     *59       1       3
------------------------+-------------------------+------------------------
 *14589       2    *149 |   *1579       6   *1357 |    *345  *34578   *4578
      7    *589       3 |    *259       4     *25 |       1    *258       6
  *1456    *456     *14 |   *1257       8  *12357 |   *2345       9    *457
------------------------+-------------------------+------------------------
      2       1    *479 |       3    *579    *567 |       8    *456    *459
      3    *459       6 |       8    *159     *15 |       7    *245   *1459
  *4589  *45789    *479 | *145679       2   *1567 |   *3459   *3456   *1459".
(** README.md:232-242 *)
Definition FIRST_solved : pystr := lit "1 9 2 | 6 3 8 | 5 7 4
4 3 5 | 7 1 9 | 6 8 2
6 7 8 | 2 5 4 | 9 1 3
------+-------+------
9 2 1 | 5 6 7 | 4 3 8
7 8 3 | 9 4 2 | 1 5 6
5 6 4 | 1 8 3 | 2 9 7
------+-------+------
2 1 9 | 3 7 6 | 8 4 5
3 4 6 | 8 9 5 | 7 2 1
8 5 7 | 4 2 1 | 3 6 9".
(** README.md:160-168 *)
Definition SECOND : pystr := lit "000000006
002040007
090100008
700200000
000070900
189006000
050000030
000000800
000032140".
(** README.md:191-199 *)
Definition CONFLICTS : pystr := lit "020000006
002040007
090100008
700200000
000070900
189006000
050000030
000000800
300032140".
(** README.md:257-265 *)
Definition THIRD : pystr := lit "400305020
908010000
000000000
003000062
500020000
080700000
700000500
005003004
000408103".
(** README.md:293-303 *)
Definition THIRD_shown : pystr := lit "4     | 3   5 |   2  
9   8 |   1   |      
3     |       |      
------+-------+------
    3 | 5     |   6 2
5     |   2   |      
  8   | 7 3   |      
------+-------+------
7 3 4 |       | 5    
8 1 5 |     3 | 2   4
      | 4 5 8 | 1 7 3".
(** README.md:379-394 *)
Definition LARGE : pystr := lit "0 4 9 6 1 0 12 0 8 0 14 0 0 0 2 3
0 5 0 7 3 2 8 16 9 0 15 11 12 10 4 13
0 8 0 15 0 0 10 11 2 5 1 0 16 6 9 7
10 11 2 3 7 9 6 15 13 16 0 0 0 0 8 0
7 0 5 14 8 6 0 12 15 2 3 0 1 11 0 9
8 16 1 4 0 7 15 14 0 13 11 0 3 12 6 2
15 3 11 13 2 1 5 10 6 9 0 7 4 16 14 0
9 12 6 2 13 11 0 4 14 1 8 16 0 5 10 15
0 14 7 9 15 12 0 0 11 0 10 2 8 0 16 6
0 2 15 8 10 16 1 0 12 4 0 13 9 3 11 0
11 1 10 12 6 0 13 9 16 8 7 14 2 4 0 5
0 6 3 16 14 8 11 2 0 15 9 1 13 0 0 10
2 7 16 0 11 4 14 0 1 10 13 9 15 8 3 12
0 15 4 1 0 13 7 8 3 0 2 6 10 9 5 0
3 13 12 10 16 15 9 1 4 14 5 8 6 2 7 11
6 9 8 0 0 10 2 0 7 12 16 0 14 13 1 4".
(** README.md:408-426 *)
Definition LARGE_shown : pystr := lit "    4  9  6 |  1    12    |  8    14    |        2  3
    5     7 |  3  2  8 16 |  9    15 11 | 12 10  4 13
    8    15 |       10 11 |  2  5  1    | 16  6  9  7
10 11  2  3 |  7  9  6 15 | 13 16       |        8   
------------+-------------+-------------+------------
 7     5 14 |  8  6    12 | 15  2  3    |  1 11     9
 8 16  1  4 |     7 15 14 |    13 11    |  3 12  6  2
15  3 11 13 |  2  1  5 10 |  6  9     7 |  4 16 14   
 9 12  6  2 | 13 11     4 | 14  1  8 16 |     5 10 15
------------+-------------+-------------+------------
   14  7  9 | 15 12       | 11    10  2 |  8    16  6
    2 15  8 | 10 16  1    | 12  4    13 |  9  3 11   
11  1 10 12 |  6    13  9 | 16  8  7 14 |  2  4     5
    6  3 16 | 14  8 11  2 |    15  9  1 | 13       10
------------+-------------+-------------+------------
 2  7 16    | 11  4 14    |  1 10 13  9 | 15  8  3 12
   15  4  1 |    13  7  8 |  3     2  6 | 10  9  5   
 3 13 12 10 | 16 15  9  1 |  4 14  5  8 |  6  2  7 11
 6  9  8    |    10  2    |  7 12 16    | 14 13  1  4".

(** README.md, Parsing and printing *)
Definition readme_parsing_run := Eval vm_compute in [(let* s := dec FIRST in let* t := MCodec.encode s [] [] false in let* u := sudoku_str s in Ok (t, u), Ok (FIRST_encoded, FIRST_shown))].
Example readme_parsing : map fst readme_parsing_run = map snd readme_parsing_run.
Proof. reflexivity. Qed.

(** README.md, Printing sudokus with candidates, Calculating candidates *)
Definition readme_candidates_run := Eval vm_compute in [(let* s := dec FIRST in let* s := init_candidates s false in let* t := view s true None (lit "*") true in let* c := calc_candidates s 0 8 in Ok (t, c), Ok (FIRST_candidates, [4; 5; 7; 8; 9]))].
Example readme_candidates : map fst readme_candidates_run = map snd readme_candidates_run.
Proof. reflexivity. Qed.

(** README.md, Checking sudokus *)
Definition readme_unique_run := Eval vm_compute in [(let* s := dec SECOND in let* u := is_unique (fun _ l => l) s in Ok (u, Z.of_nat (length (gyields (bruteforce (fun _ l => l) s) tt))), Ok (false, 1540))].
Example readme_unique : map fst readme_unique_run = map snd readme_unique_run.
Proof. reflexivity. Qed.

(** README.md, Checking sudokus *)
Definition readme_conflicts_run := Eval vm_compute in [(let* s := dec CONFLICTS in glist (find_conflicts s []) s, Ok [((0, 1), (1, 2), 2); ((1, 2), (0, 1), 2); ((8, 0), (8, 4), 3); ((8, 4), (8, 0), 3)])].
Example readme_conflicts : map fst readme_conflicts_run = map snd readme_conflicts_run.
Proof. reflexivity. Qed.

(** README.md, Solving sudokus *)
Definition readme_solving_run := Eval vm_compute in [(let* s := dec FIRST in mapM sudoku_str (gyields (bruteforce (fun _ l => l) s) tt), Ok [FIRST_solved])].
Example readme_solving : map fst readme_solving_run = map snd readme_solving_run.
Proof. reflexivity. Qed.

(** README.md:282-291, Solving sudokus *)
Definition readme_steps_run := Eval vm_compute in [(let* s := dec THIRD in let* s := apply_all o_ex CalculateCandidates s in let* (l, s) := drive (MSolvers.find o_ex HiddenSingle s) s in let* l := mapM step_str l in let* t := sudoku_str s in Ok (l, t), Ok ([lit "HiddenSingle at (2, 0): 3";
  lit "HiddenSingle at (3, 3): 5";
  lit "HiddenSingle at (5, 4): 3";
  lit "HiddenSingle at (6, 1): 3";
  lit "HiddenSingle at (6, 2): 4";
  lit "HiddenSingle at (7, 0): 8";
  lit "HiddenSingle at (7, 1): 1";
  lit "HiddenSingle at (7, 6): 2";
  lit "HiddenSingle at (8, 4): 5";
  lit "HiddenSingle at (8, 7): 7"], THIRD_shown))].
Example readme_steps : map fst readme_steps_run = map snd readme_steps_run.
Proof. reflexivity. Qed.

(** README.md, Different sudoku sizes *)
Definition readme_sizes_run := Eval vm_compute in [(let* s := dec_sp LARGE in let* t := sudoku_str s in Ok (box_size s, t), Ok ((4, 4), LARGE_shown))].
Example readme_sizes : map fst readme_sizes_run = map snd readme_sizes_run.
Proof. reflexivity. Qed.
