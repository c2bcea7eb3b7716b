(** The tests of sudokutools/tests/test_solvers.py, run on the model.

    The model is run on the concrete data of the project's own tests.  These are tests of the model,
    not proofs about it: they guard against errors in the translation from Python.  The results are computed
    when the file is compiled ([Eval vm_compute]); each test compares the computed result with the expected one. *)
From Coq Require Import String.
From Verif Require Import MCodec TSudoku MAnalyze MSolvers PSolvers.
Import ListNotations.
Open Scope string_scope.
Open Scope Z_scope.

(** tests/test_solvers.py:18-28 *)
Definition SOLVERS_EXAMPLE : pystr := lit "
000070005
600051807
000800040
002000301
010002000
030000090
509000012
800000406
004006000
".
(** tests/test_solvers.py:137-147 *)
Definition XWING_EXAMPLE : pystr := lit "
500010070
840000000
603500000
000030005
000107000
030040210
070950400
000004502
000000900
".
(** tests/test_solvers.py:153-163 *)
Definition SWORDFISH_EXAMPLE : pystr := lit " 
000900000
040058006
509004000
000000040
650000203
020600008
900740000
007000800
003009005
".
(** tests/test_solvers.py:177-187 *)
Definition JELLYFISH_EXAMPLE : pystr := lit "
900080000
000014580
007090200
108940020
009030000
050000030
300000670
021050300
000000100
".

Definition start (t : pystr) : res sudoku := let* s := dec t in init_candidates s false.
(** A step without its actions *)
Definition shown (st : step) : solver * list coord * list coord * list Z := (st_class st, clues st, affected st, values st).
(** sorted(cls.find(sudoku))[:1] *)
Definition first_of (s : sudoku) (cls : solver) : res (list (solver * list coord * list coord * list Z)) :=
  let* l := glist (MSolvers.find o_ex cls s) s in
  Ok (map shown (firstn 1 (py_sorted step_cmp l))).
Definition row_coords (r : Z) : list coord := map (fun c => (r, c)) (py_range 9).
Definition column_coords (c : Z) : list coord := map (fun r => (r, c)) (py_range 9).

(** tests/test_solvers.py:32-71 FIRST_STEPS, 78-86 test_simple *)
Definition FIRST_STEPS : list step :=
  [ single_step NakedSingle 1 2 3;
    new_step (NakedTuple 2) [(2, 5); (2, 8)] [(2, 0); (2, 1); (2, 2); (2, 4); (2, 6)] [3; 9];
    new_step (NakedTuple 3) [(3, 0); (4, 0); (5, 0)] [(0, 0); (2, 0); (8, 0)] [4; 7; 9];
    new_step (NakedTuple 4) [(7, 1); (7, 2); (8, 0); (8, 1)] [(6, 1)] [1; 2; 3; 7];
    new_step (NakedTuple 5) [(3, 7); (4, 6); (4, 7); (4, 8); (5, 8)] [(5, 6)] [4; 5; 6; 7; 8];
    single_step HiddenSingle 5 6 2;
    new_step (HiddenTuple 2) (column_coords 8) [(8, 8)] [3; 9];
    new_step (HiddenTuple 3) (column_coords 0) [(0, 0); (2, 0); (8, 0)] [1; 2; 3];
    new_step (HiddenTuple 4) (column_coords 1) [(0, 1); (1, 1); (2, 1); (3, 1)] [4; 5; 8; 9];
    new_step (HiddenTuple 5) (column_coords 1) [(0, 1); (1, 1); (2, 1); (3, 1); (6, 1)] [4; 5; 6; 8; 9];
    new_step (PointingTuple 2) [(0, 7); (1, 7)] [(0, 6); (2, 6)] [2];
    new_step (PointingTuple 3) [(6, 3); (6, 4); (6, 5)] [(7, 3); (7, 4); (7, 5); (8, 3); (8, 4)] [3];
    single_step Bruteforce 0 0 1 ].
Definition test_simple_run := Eval vm_compute in
  [((let* s := start SOLVERS_EXAMPLE in mapM (fun f => first_of s (st_class f)) FIRST_STEPS), Ok (map (fun f => [shown f]) FIRST_STEPS))].
Example test_simple : map fst test_simple_run = map snd test_simple_run.
Proof. reflexivity. Qed.

(** FishTests.test_xwing, test_swordfish, test_jellyfish: all steps in the order in which they are found *)
Definition fishes (t : pystr) (n : nat) : res (list (solver * list coord * list coord * list Z)) :=
  let* s := start t in let* l := glist (MSolvers.find o_ex (BasicFish n) s) s in Ok (map shown l).
Definition test_xwing_run := Eval vm_compute in
  [(fishes XWING_EXAMPLE 2, Ok [shown (new_step (BasicFish 2) [(4, 1); (4, 2); (8, 1); (8, 2)] [(5, 2)] [5])])].
Example test_xwing : map fst test_xwing_run = map snd test_xwing_run.
Proof. reflexivity. Qed.
Definition test_swordfish_run := Eval vm_compute in
  [(fishes SWORDFISH_EXAMPLE 3, Ok [shown (new_step (BasicFish 3) [(0, 6); (0, 8); (7, 0); (7, 8); (8, 0); (8, 6)] [(5, 0)] [4]);
      shown (new_step (BasicFish 3) [(1, 6); (1, 7); (4, 4); (4, 7); (5, 4); (5, 6); (5, 7)] [(3, 4); (3, 6); (7, 7)] [9])])].
Example test_swordfish : map fst test_swordfish_run = map snd test_swordfish_run.
Proof. reflexivity. Qed.
Definition test_jellyfish_run := Eval vm_compute in
  [(fishes JELLYFISH_EXAMPLE 4, Ok [shown (new_step (BasicFish 4)
        [(0, 2); (0, 3); (0, 5); (0, 8); (1, 2); (1, 3); (1, 8); (2, 3); (2, 5); (2, 8); (8, 3); (8, 5)]
        [(0, 1); (1, 1); (2, 1)] [3])])].
Example test_jellyfish : map fst test_jellyfish_run = map snd test_jellyfish_run.
Proof. reflexivity. Qed.

(** test_apply_all for the example of the module: apply_all() of all solvers until no field is empty *)
Fixpoint apply_until (fuel : nat) (s : sudoku) : res sudoku :=
  match fuel with
  | O => Err OutOfFuel
  | S fuel =>
      let* e := glist (empty s) s in
      match e with
      | [] => Ok s
      | _ => let* s := foldM (fun s cls => apply_all o_ex cls s) SOLVERS s in apply_until fuel s
      end
  end.
Definition test_apply_all_run := Eval vm_compute in
  [((let* s := dec SOLVERS_EXAMPLE in let* u := apply_until 5 s in Ok (s_numbers u)), (let* s := dec SOLVERS_EXAMPLE in let* (u, _) := gnext (bruteforce (fun _ l => l) s) in Ok (s_numbers u)))].
Example test_apply_all : map fst test_apply_all_run = map snd test_apply_all_run.
Proof. reflexivity. Qed.
