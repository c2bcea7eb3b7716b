(** Data for C123: for every kind of filled sudoku with at most four rows some other ones, from which it is known where clues are needed,
    and how the filled sudokus with first row 1, 2, ... arise from these kinds by moving rows, columns and numbers. *)
From Verif Require Import PyBase.


Definition kinds_1_1 : list (list Z * list (list Z)) :=
  [([1],
    [])].

Definition moves_1_1 : list (nat * list Z * list Z * list Z * list Z * list Z * list Z) :=
  [(0%nat, [0], [0], [0], [0], [1], [1])].

Definition kinds_2_1 : list (list Z * list (list Z)) :=
  [([1; 2; 2; 1],
    [[2; 1; 1; 2]])].

Definition moves_2_1 : list (nat * list Z * list Z * list Z * list Z * list Z * list Z) :=
  [(0%nat, [0; 1], [0; 1], [0; 1], [0; 1], [1; 2], [1; 2])].

Definition kinds_3_1 : list (list Z * list (list Z)) :=
  [([1; 2; 3; 2; 3; 1; 3; 1; 2],
    [[2; 3; 1; 1; 2; 3; 3; 1; 2];
     [3; 1; 2; 2; 3; 1; 1; 2; 3];
     [2; 1; 3; 3; 2; 1; 1; 3; 2];
     [2; 1; 3; 1; 3; 2; 3; 2; 1];
     [3; 2; 1; 1; 3; 2; 2; 1; 3];
     [3; 2; 1; 2; 1; 3; 1; 3; 2];
     [1; 3; 2; 3; 2; 1; 2; 1; 3];
     [1; 3; 2; 2; 1; 3; 3; 2; 1];
     [1; 2; 3; 3; 1; 2; 2; 3; 1]])].

Definition moves_3_1 : list (nat * list Z * list Z * list Z * list Z * list Z * list Z) :=
  [(0%nat, [0; 1; 2], [0; 1; 2], [0; 1; 2], [0; 1; 2], [1; 2; 3], [1; 2; 3]);
   (0%nat, [0; 1; 2], [0; 1; 2], [0; 2; 1], [0; 2; 1], [1; 3; 2], [1; 3; 2])].

Definition kinds_4_1 : list (list Z * list (list Z)) :=
  [([1; 2; 3; 4; 2; 1; 4; 3; 3; 4; 1; 2; 4; 3; 2; 1],
    [[2; 1; 3; 4; 1; 2; 4; 3; 3; 4; 1; 2; 4; 3; 2; 1];
     [3; 2; 1; 4; 2; 1; 4; 3; 1; 4; 3; 2; 4; 3; 2; 1];
     [4; 2; 3; 1; 2; 1; 4; 3; 3; 4; 1; 2; 1; 3; 2; 4];
     [1; 3; 2; 4; 2; 1; 4; 3; 3; 4; 1; 2; 4; 2; 3; 1];
     [1; 4; 3; 2; 2; 1; 4; 3; 3; 2; 1; 4; 4; 3; 2; 1];
     [1; 2; 4; 3; 2; 1; 3; 4; 3; 4; 1; 2; 4; 3; 2; 1];
     [1; 2; 3; 4; 4; 1; 2; 3; 3; 4; 1; 2; 2; 3; 4; 1];
     [1; 2; 3; 4; 3; 1; 4; 2; 2; 4; 1; 3; 4; 3; 2; 1];
     [1; 2; 3; 4; 2; 4; 1; 3; 3; 1; 4; 2; 4; 3; 2; 1];
     [1; 2; 3; 4; 2; 3; 4; 1; 3; 4; 1; 2; 4; 1; 2; 3];
     [1; 2; 3; 4; 2; 1; 4; 3; 4; 3; 1; 2; 3; 4; 2; 1];
     [1; 2; 3; 4; 2; 1; 4; 3; 3; 4; 2; 1; 4; 3; 1; 2];
     [2; 3; 1; 4; 4; 1; 3; 2; 3; 2; 4; 1; 1; 4; 2; 3];
     [3; 1; 2; 4; 2; 4; 3; 1; 4; 2; 1; 3; 1; 3; 4; 2];
     [2; 4; 3; 1; 3; 1; 2; 4; 1; 3; 4; 2; 4; 2; 1; 3];
     [4; 1; 3; 2; 2; 3; 1; 4; 1; 4; 2; 3; 3; 2; 4; 1];
     [3; 2; 4; 1; 1; 4; 2; 3; 2; 3; 1; 4; 4; 1; 3; 2];
     [4; 2; 1; 3; 1; 3; 4; 2; 3; 1; 2; 4; 2; 4; 3; 1];
     [1; 3; 4; 2; 4; 2; 1; 3; 2; 4; 3; 1; 3; 1; 2; 4];
     [1; 4; 2; 3; 3; 2; 4; 1; 4; 1; 3; 2; 2; 3; 1; 4]]);
   ([1; 2; 3; 4; 2; 1; 4; 3; 3; 4; 2; 1; 4; 3; 1; 2],
    [[2; 1; 3; 4; 1; 2; 4; 3; 3; 4; 2; 1; 4; 3; 1; 2];
     [1; 2; 4; 3; 2; 1; 3; 4; 3; 4; 2; 1; 4; 3; 1; 2];
     [1; 2; 3; 4; 2; 1; 4; 3; 4; 3; 2; 1; 3; 4; 1; 2];
     [1; 2; 3; 4; 2; 1; 4; 3; 3; 4; 1; 2; 4; 3; 2; 1];
     [3; 4; 2; 1; 2; 1; 4; 3; 1; 2; 3; 4; 4; 3; 1; 2];
     [4; 3; 1; 2; 2; 1; 4; 3; 3; 4; 2; 1; 1; 2; 3; 4];
     [3; 2; 1; 4; 4; 1; 2; 3; 2; 4; 3; 1; 1; 3; 4; 2];
     [3; 2; 1; 4; 2; 3; 4; 1; 1; 4; 2; 3; 4; 1; 3; 2];
     [4; 2; 3; 1; 3; 1; 4; 2; 1; 4; 2; 3; 2; 3; 1; 4];
     [4; 2; 3; 1; 2; 4; 1; 3; 3; 1; 2; 4; 1; 3; 4; 2];
     [1; 3; 2; 4; 3; 1; 4; 2; 2; 4; 3; 1; 4; 2; 1; 3];
     [1; 3; 2; 4; 2; 4; 1; 3; 3; 2; 4; 1; 4; 1; 3; 2];
     [1; 4; 3; 2; 4; 1; 2; 3; 3; 2; 4; 1; 2; 3; 1; 4];
     [1; 4; 3; 2; 2; 3; 4; 1; 3; 1; 2; 4; 4; 2; 1; 3];
     [1; 2; 3; 4; 3; 4; 2; 1; 2; 1; 4; 3; 4; 3; 1; 2];
     [1; 2; 3; 4; 4; 3; 1; 2; 3; 4; 2; 1; 2; 1; 4; 3];
     [3; 4; 1; 2; 2; 1; 4; 3; 4; 2; 3; 1; 1; 3; 2; 4];
     [3; 4; 1; 2; 2; 1; 4; 3; 1; 3; 2; 4; 4; 2; 3; 1];
     [4; 3; 2; 1; 2; 1; 4; 3; 1; 4; 3; 2; 3; 2; 1; 4];
     [4; 3; 2; 1; 2; 1; 4; 3; 3; 2; 1; 4; 1; 4; 3; 2];
     [2; 3; 1; 4; 4; 1; 3; 2; 3; 4; 2; 1; 1; 2; 4; 3];
     [2; 3; 1; 4; 4; 1; 2; 3; 3; 2; 4; 1; 1; 4; 3; 2];
     [2; 3; 1; 4; 3; 1; 4; 2; 1; 4; 2; 3; 4; 2; 3; 1];
     [3; 1; 2; 4; 2; 4; 3; 1; 1; 2; 4; 3; 4; 3; 1; 2];
     [3; 1; 2; 4; 2; 4; 1; 3; 4; 2; 3; 1; 1; 3; 4; 2];
     [3; 1; 2; 4; 2; 3; 4; 1; 1; 4; 3; 2; 4; 2; 1; 3];
     [2; 4; 3; 1; 3; 1; 2; 4; 1; 2; 4; 3; 4; 3; 1; 2];
     [2; 4; 3; 1; 4; 1; 2; 3; 3; 2; 1; 4; 1; 3; 4; 2];
     [2; 4; 3; 1; 3; 1; 4; 2; 1; 3; 2; 4; 4; 2; 1; 3];
     [4; 1; 3; 2; 2; 3; 1; 4; 3; 4; 2; 1; 1; 2; 4; 3];
     [4; 1; 3; 2; 2; 4; 1; 3; 3; 2; 4; 1; 1; 3; 2; 4];
     [4; 1; 3; 2; 2; 3; 4; 1; 1; 4; 2; 3; 3; 2; 1; 4];
     [3; 2; 4; 1; 1; 4; 2; 3; 2; 1; 3; 4; 4; 3; 1; 2];
     [4; 2; 1; 3; 1; 3; 4; 2; 3; 4; 2; 1; 2; 1; 3; 4];
     [3; 2; 4; 1; 4; 1; 2; 3; 1; 4; 3; 2; 2; 3; 1; 4];
     [4; 2; 1; 3; 3; 1; 4; 2; 2; 4; 3; 1; 1; 3; 2; 4];
     [3; 2; 4; 1; 2; 4; 1; 3; 1; 3; 2; 4; 4; 1; 3; 2];
     [4; 2; 1; 3; 2; 3; 4; 1; 3; 1; 2; 4; 1; 4; 3; 2];
     [3; 2; 1; 4; 1; 4; 2; 3; 2; 3; 4; 1; 4; 1; 3; 2];
     [3; 2; 1; 4; 1; 3; 4; 2; 2; 4; 3; 1; 4; 1; 2; 3];
     [3; 2; 1; 4; 4; 1; 3; 2; 1; 4; 2; 3; 2; 3; 4; 1];
     [3; 2; 1; 4; 2; 4; 3; 1; 4; 1; 2; 3; 1; 3; 4; 2];
     [4; 2; 3; 1; 1; 4; 2; 3; 3; 1; 4; 2; 2; 3; 1; 4];
     [4; 2; 3; 1; 1; 3; 4; 2; 3; 1; 2; 4; 2; 4; 1; 3];
     [4; 2; 3; 1; 3; 1; 2; 4; 2; 4; 1; 3; 1; 3; 4; 2];
     [4; 2; 3; 1; 2; 3; 1; 4; 1; 4; 2; 3; 3; 1; 4; 2];
     [1; 3; 4; 2; 4; 2; 1; 3; 3; 4; 2; 1; 2; 1; 3; 4];
     [1; 4; 2; 3; 3; 2; 4; 1; 2; 1; 3; 4; 4; 3; 1; 2];
     [1; 3; 4; 2; 4; 1; 2; 3; 2; 4; 3; 1; 3; 2; 1; 4];
     [1; 4; 2; 3; 3; 1; 4; 2; 4; 2; 3; 1; 2; 3; 1; 4];
     [1; 3; 4; 2; 2; 4; 1; 3; 3; 1; 2; 4; 4; 2; 3; 1];
     [1; 4; 2; 3; 2; 3; 4; 1; 3; 2; 1; 4; 4; 1; 3; 2];
     [1; 3; 2; 4; 4; 2; 1; 3; 2; 4; 3; 1; 3; 1; 4; 2];
     [1; 3; 2; 4; 3; 2; 4; 1; 2; 4; 1; 3; 4; 1; 3; 2];
     [1; 3; 2; 4; 4; 1; 3; 2; 3; 2; 4; 1; 2; 4; 1; 3];
     [1; 3; 2; 4; 2; 4; 3; 1; 3; 1; 4; 2; 4; 2; 1; 3];
     [1; 4; 3; 2; 4; 2; 1; 3; 3; 1; 2; 4; 2; 3; 4; 1];
     [1; 4; 3; 2; 3; 2; 4; 1; 4; 1; 2; 3; 2; 3; 1; 4];
     [1; 4; 3; 2; 3; 1; 2; 4; 2; 3; 4; 1; 4; 2; 1; 3];
     [1; 4; 3; 2; 2; 3; 1; 4; 3; 2; 4; 1; 4; 1; 2; 3];
     [1; 2; 3; 4; 3; 4; 1; 2; 2; 3; 4; 1; 4; 1; 2; 3];
     [1; 2; 3; 4; 3; 4; 1; 2; 4; 1; 2; 3; 2; 3; 4; 1];
     [1; 2; 3; 4; 4; 3; 2; 1; 2; 4; 1; 3; 3; 1; 4; 2];
     [1; 2; 3; 4; 4; 3; 2; 1; 3; 1; 4; 2; 2; 4; 1; 3]])].

Definition moves_4_1 : list (nat * list Z * list Z * list Z * list Z * list Z * list Z) :=
  [(0%nat, [0; 1; 2; 3], [0; 1; 2; 3], [0; 1; 2; 3], [0; 1; 2; 3], [1; 2; 3; 4], [1; 2; 3; 4]);
   (1%nat, [0; 1; 2; 3], [0; 1; 2; 3], [0; 1; 2; 3], [0; 1; 2; 3], [1; 2; 3; 4], [1; 2; 3; 4]);
   (1%nat, [0; 1; 2; 3], [0; 1; 2; 3], [0; 1; 3; 2], [0; 1; 3; 2], [1; 2; 4; 3], [1; 2; 4; 3]);
   (0%nat, [0; 1; 2; 3], [0; 1; 2; 3], [0; 1; 3; 2], [0; 1; 3; 2], [1; 2; 4; 3], [1; 2; 4; 3]);
   (1%nat, [0; 2; 1; 3], [0; 2; 1; 3], [0; 2; 1; 3], [0; 2; 1; 3], [1; 3; 2; 4], [1; 3; 2; 4]);
   (1%nat, [0; 3; 1; 2], [0; 2; 3; 1], [0; 2; 1; 3], [0; 2; 1; 3], [1; 3; 2; 4], [1; 3; 2; 4]);
   (1%nat, [0; 3; 1; 2], [0; 2; 3; 1], [0; 3; 1; 2], [0; 2; 3; 1], [1; 3; 4; 2], [1; 4; 2; 3]);
   (1%nat, [0; 2; 1; 3], [0; 2; 1; 3], [0; 3; 1; 2], [0; 2; 3; 1], [1; 3; 4; 2], [1; 4; 2; 3]);
   (1%nat, [0; 3; 1; 2], [0; 2; 3; 1], [0; 3; 2; 1], [0; 3; 2; 1], [1; 4; 3; 2], [1; 4; 3; 2]);
   (1%nat, [0; 2; 1; 3], [0; 2; 1; 3], [0; 3; 2; 1], [0; 3; 2; 1], [1; 4; 3; 2], [1; 4; 3; 2]);
   (0%nat, [0; 1; 2; 3], [0; 1; 2; 3], [0; 2; 1; 3], [0; 2; 1; 3], [1; 3; 2; 4], [1; 3; 2; 4]);
   (1%nat, [0; 1; 2; 3], [0; 1; 2; 3], [0; 2; 1; 3], [0; 2; 1; 3], [1; 3; 2; 4], [1; 3; 2; 4]);
   (1%nat, [0; 1; 2; 3], [0; 1; 2; 3], [0; 2; 3; 1], [0; 3; 1; 2], [1; 4; 2; 3], [1; 3; 4; 2]);
   (0%nat, [0; 1; 2; 3], [0; 1; 2; 3], [0; 2; 3; 1], [0; 3; 1; 2], [1; 4; 2; 3], [1; 3; 4; 2]);
   (1%nat, [0; 2; 1; 3], [0; 2; 1; 3], [0; 1; 2; 3], [0; 1; 2; 3], [1; 2; 3; 4], [1; 2; 3; 4]);
   (1%nat, [0; 3; 1; 2], [0; 2; 3; 1], [0; 1; 2; 3], [0; 1; 2; 3], [1; 2; 3; 4], [1; 2; 3; 4]);
   (1%nat, [0; 3; 1; 2], [0; 2; 3; 1], [0; 2; 3; 1], [0; 3; 1; 2], [1; 4; 2; 3], [1; 3; 4; 2]);
   (1%nat, [0; 2; 1; 3], [0; 2; 1; 3], [0; 2; 3; 1], [0; 3; 1; 2], [1; 4; 2; 3], [1; 3; 4; 2]);
   (1%nat, [0; 2; 1; 3], [0; 2; 1; 3], [0; 1; 3; 2], [0; 1; 3; 2], [1; 2; 4; 3], [1; 2; 4; 3]);
   (1%nat, [0; 3; 1; 2], [0; 2; 3; 1], [0; 1; 3; 2], [0; 1; 3; 2], [1; 2; 4; 3], [1; 2; 4; 3]);
   (0%nat, [0; 1; 2; 3], [0; 1; 2; 3], [0; 3; 1; 2], [0; 2; 3; 1], [1; 3; 4; 2], [1; 4; 2; 3]);
   (1%nat, [0; 1; 2; 3], [0; 1; 2; 3], [0; 3; 1; 2], [0; 2; 3; 1], [1; 3; 4; 2], [1; 4; 2; 3]);
   (1%nat, [0; 1; 2; 3], [0; 1; 2; 3], [0; 3; 2; 1], [0; 3; 2; 1], [1; 4; 3; 2], [1; 4; 3; 2]);
   (0%nat, [0; 1; 2; 3], [0; 1; 2; 3], [0; 3; 2; 1], [0; 3; 2; 1], [1; 4; 3; 2], [1; 4; 3; 2])].

Definition kinds_2_2 : list (list Z * list (list Z)) :=
  [([1; 2; 3; 4; 3; 4; 1; 2; 2; 1; 4; 3; 4; 3; 2; 1],
    [[2; 1; 3; 4; 3; 4; 1; 2; 1; 2; 4; 3; 4; 3; 2; 1];
     [3; 2; 1; 4; 1; 4; 3; 2; 2; 1; 4; 3; 4; 3; 2; 1];
     [1; 4; 3; 2; 3; 2; 1; 4; 2; 1; 4; 3; 4; 3; 2; 1];
     [1; 2; 4; 3; 3; 4; 1; 2; 2; 1; 3; 4; 4; 3; 2; 1];
     [1; 2; 3; 4; 4; 3; 1; 2; 2; 1; 4; 3; 3; 4; 2; 1];
     [1; 2; 3; 4; 3; 4; 2; 1; 2; 1; 4; 3; 4; 3; 1; 2];
     [1; 2; 3; 4; 3; 4; 1; 2; 4; 1; 2; 3; 2; 3; 4; 1];
     [1; 2; 3; 4; 3; 4; 1; 2; 2; 3; 4; 1; 4; 1; 2; 3];
     [4; 2; 3; 1; 3; 1; 4; 2; 2; 4; 1; 3; 1; 3; 2; 4];
     [1; 3; 2; 4; 2; 4; 1; 3; 3; 1; 4; 2; 4; 2; 3; 1];
     [3; 1; 2; 4; 4; 2; 1; 3; 2; 4; 3; 1; 1; 3; 4; 2];
     [2; 4; 3; 1; 1; 3; 4; 2; 3; 1; 2; 4; 4; 2; 1; 3];
     [4; 2; 1; 3; 3; 1; 2; 4; 1; 3; 4; 2; 2; 4; 3; 1];
     [1; 3; 4; 2; 2; 4; 3; 1; 4; 2; 1; 3; 3; 1; 2; 4]]);
   ([1; 2; 3; 4; 3; 4; 1; 2; 2; 3; 4; 1; 4; 1; 2; 3],
    [[3; 2; 1; 4; 1; 4; 3; 2; 2; 3; 4; 1; 4; 1; 2; 3];
     [1; 4; 3; 2; 3; 2; 1; 4; 2; 3; 4; 1; 4; 1; 2; 3];
     [1; 2; 3; 4; 3; 4; 1; 2; 4; 3; 2; 1; 2; 1; 4; 3];
     [1; 2; 3; 4; 3; 4; 1; 2; 2; 1; 4; 3; 4; 3; 2; 1];
     [2; 1; 3; 4; 4; 3; 1; 2; 3; 2; 4; 1; 1; 4; 2; 3];
     [2; 1; 3; 4; 3; 4; 2; 1; 1; 3; 4; 2; 4; 2; 1; 3];
     [4; 2; 3; 1; 3; 1; 4; 2; 2; 3; 1; 4; 1; 4; 2; 3];
     [1; 3; 2; 4; 2; 4; 1; 3; 3; 2; 4; 1; 4; 1; 3; 2];
     [1; 2; 4; 3; 4; 3; 1; 2; 2; 4; 3; 1; 3; 1; 2; 4];
     [1; 2; 4; 3; 3; 4; 2; 1; 2; 3; 1; 4; 4; 1; 3; 2];
     [2; 1; 4; 3; 3; 4; 1; 2; 4; 2; 3; 1; 1; 3; 2; 4];
     [2; 1; 4; 3; 3; 4; 1; 2; 1; 3; 2; 4; 4; 2; 3; 1];
     [3; 1; 2; 4; 4; 2; 1; 3; 2; 3; 4; 1; 1; 4; 3; 2];
     [3; 1; 2; 4; 2; 4; 1; 3; 1; 3; 4; 2; 4; 2; 3; 1];
     [2; 4; 3; 1; 1; 3; 4; 2; 3; 2; 1; 4; 4; 1; 2; 3];
     [2; 4; 3; 1; 3; 1; 4; 2; 1; 3; 2; 4; 4; 2; 1; 3];
     [4; 2; 1; 3; 3; 1; 2; 4; 2; 3; 4; 1; 1; 4; 3; 2];
     [4; 2; 1; 3; 3; 1; 4; 2; 2; 4; 3; 1; 1; 3; 2; 4];
     [4; 2; 3; 1; 1; 3; 4; 2; 2; 4; 1; 3; 3; 1; 2; 4];
     [4; 2; 3; 1; 3; 1; 2; 4; 1; 3; 4; 2; 2; 4; 1; 3];
     [1; 3; 4; 2; 2; 4; 3; 1; 3; 2; 1; 4; 4; 1; 2; 3];
     [1; 3; 4; 2; 2; 4; 1; 3; 4; 2; 3; 1; 3; 1; 2; 4];
     [1; 3; 2; 4; 4; 2; 1; 3; 2; 4; 3; 1; 3; 1; 4; 2];
     [1; 3; 2; 4; 2; 4; 3; 1; 3; 1; 4; 2; 4; 2; 1; 3];
     [1; 2; 3; 4; 4; 3; 2; 1; 3; 1; 4; 2; 2; 4; 1; 3];
     [1; 2; 3; 4; 4; 3; 2; 1; 2; 4; 1; 3; 3; 1; 4; 2]]);
   ([1; 2; 3; 4; 3; 4; 2; 1; 2; 1; 4; 3; 4; 3; 1; 2],
    [[2; 1; 3; 4; 3; 4; 2; 1; 1; 2; 4; 3; 4; 3; 1; 2];
     [1; 2; 4; 3; 3; 4; 2; 1; 2; 1; 3; 4; 4; 3; 1; 2];
     [1; 2; 3; 4; 4; 3; 2; 1; 2; 1; 4; 3; 3; 4; 1; 2];
     [1; 2; 3; 4; 3; 4; 1; 2; 2; 1; 4; 3; 4; 3; 2; 1];
     [3; 4; 2; 1; 1; 2; 3; 4; 2; 1; 4; 3; 4; 3; 1; 2];
     [3; 2; 1; 4; 1; 4; 2; 3; 2; 3; 4; 1; 4; 1; 3; 2];
     [4; 2; 3; 1; 3; 1; 2; 4; 2; 4; 1; 3; 1; 3; 4; 2];
     [1; 3; 2; 4; 2; 4; 3; 1; 3; 1; 4; 2; 4; 2; 1; 3];
     [1; 4; 3; 2; 3; 2; 4; 1; 4; 1; 2; 3; 2; 3; 1; 4];
     [1; 2; 3; 4; 3; 4; 2; 1; 4; 3; 1; 2; 2; 1; 4; 3];
     [3; 1; 2; 4; 4; 2; 3; 1; 2; 4; 1; 3; 1; 3; 4; 2];
     [2; 3; 1; 4; 1; 4; 2; 3; 3; 1; 4; 2; 4; 2; 3; 1];
     [2; 4; 3; 1; 1; 3; 2; 4; 3; 1; 4; 2; 4; 2; 1; 3];
     [4; 1; 3; 2; 3; 2; 4; 1; 2; 4; 1; 3; 1; 3; 2; 4];
     [3; 2; 4; 1; 1; 4; 3; 2; 4; 1; 2; 3; 2; 3; 1; 4];
     [4; 2; 1; 3; 3; 1; 2; 4; 2; 3; 4; 1; 1; 4; 3; 2];
     [3; 2; 1; 4; 4; 1; 2; 3; 2; 4; 3; 1; 1; 3; 4; 2];
     [3; 2; 1; 4; 1; 4; 2; 3; 4; 1; 3; 2; 2; 3; 4; 1];
     [4; 2; 3; 1; 3; 1; 4; 2; 1; 4; 2; 3; 2; 3; 1; 4];
     [4; 2; 3; 1; 3; 1; 2; 4; 1; 3; 4; 2; 2; 4; 1; 3];
     [1; 3; 4; 2; 2; 4; 3; 1; 4; 1; 2; 3; 3; 2; 1; 4];
     [1; 4; 2; 3; 3; 2; 1; 4; 2; 3; 4; 1; 4; 1; 3; 2];
     [1; 3; 2; 4; 2; 4; 1; 3; 3; 2; 4; 1; 4; 1; 3; 2];
     [1; 3; 2; 4; 2; 4; 3; 1; 4; 2; 1; 3; 3; 1; 4; 2];
     [1; 4; 3; 2; 2; 3; 4; 1; 3; 1; 2; 4; 4; 2; 1; 3];
     [1; 4; 3; 2; 3; 2; 4; 1; 2; 3; 1; 4; 4; 1; 2; 3]])].

Definition moves_2_2 : list (nat * list Z * list Z * list Z * list Z * list Z * list Z) :=
  [(0%nat, [0; 1; 2; 3], [0; 1; 2; 3], [0; 1; 2; 3], [0; 1; 2; 3], [1; 2; 3; 4], [1; 2; 3; 4]);
   (1%nat, [0; 1; 2; 3], [0; 1; 2; 3], [0; 1; 2; 3], [0; 1; 2; 3], [1; 2; 3; 4], [1; 2; 3; 4]);
   (1%nat, [0; 1; 2; 3], [0; 1; 2; 3], [1; 0; 3; 2], [1; 0; 3; 2], [2; 1; 4; 3], [2; 1; 4; 3]);
   (0%nat, [0; 1; 3; 2], [0; 1; 3; 2], [0; 1; 2; 3], [0; 1; 2; 3], [1; 2; 3; 4], [1; 2; 3; 4]);
   (2%nat, [0; 1; 2; 3], [0; 1; 2; 3], [0; 1; 2; 3], [0; 1; 2; 3], [1; 2; 3; 4], [1; 2; 3; 4]);
   (2%nat, [0; 1; 3; 2], [0; 1; 3; 2], [0; 1; 2; 3], [0; 1; 2; 3], [1; 2; 3; 4], [1; 2; 3; 4]);
   (2%nat, [0; 1; 2; 3], [0; 1; 2; 3], [0; 1; 3; 2], [0; 1; 3; 2], [1; 2; 4; 3], [1; 2; 4; 3]);
   (2%nat, [0; 1; 3; 2], [0; 1; 3; 2], [0; 1; 3; 2], [0; 1; 3; 2], [1; 2; 4; 3], [1; 2; 4; 3]);
   (0%nat, [0; 1; 2; 3], [0; 1; 2; 3], [0; 1; 3; 2], [0; 1; 3; 2], [1; 2; 4; 3], [1; 2; 4; 3]);
   (1%nat, [0; 1; 2; 3], [0; 1; 2; 3], [0; 1; 3; 2], [0; 1; 3; 2], [1; 2; 4; 3], [1; 2; 4; 3]);
   (1%nat, [0; 1; 2; 3], [0; 1; 2; 3], [1; 0; 2; 3], [1; 0; 2; 3], [2; 1; 3; 4], [2; 1; 3; 4]);
   (0%nat, [0; 1; 3; 2], [0; 1; 3; 2], [0; 1; 3; 2], [0; 1; 3; 2], [1; 2; 4; 3], [1; 2; 4; 3])].
