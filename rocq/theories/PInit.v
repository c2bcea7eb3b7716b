(** Properties C112: arguments of Sudoku().  Statements use only the model functions and the
    specification files; the proofs are in the L*.v files. *)
From Verif Require Import LBase SpecInit LInit.

(** C112: a tuple or list of two ints (or bools) gives the empty sudoku with boxes of that size. *)
Theorem C112_pair : forall v w h x y, v = PTuple [w; h] \/ v = PList [w; h] -> is_int w x -> is_int h y ->
  exists o, sudoku_init v = Ok o /\ describes o (new_sudoku (x, y)).
Proof. exact pair_accepted. Qed.
Print Assumptions C112_pair.

(** C112: nothing else is accepted but dicts with two entries, among them those for 0 and 1, whose values are ints. *)
Theorem C112_accepted : forall v, (exists o, sudoku_init v = Ok o) <->
  (exists w h x y, (v = PTuple [w; h] \/ v = PList [w; h]) /\ is_int w x /\ is_int h y) \/
  (exists l a b x y, v = PDict l /\ length l = 2%nat /\ entry l 0 a /\ entry l 1 b /\ is_int a x /\ is_int b y).
Proof. exact accepted_iff. Qed.
Print Assumptions C112_accepted.

(** C112: all other arguments raise ValueError or TypeError; it is ValueError exactly for collections (tuple, list, set, str, dict) that do not have two elements and for dicts with two entries without one for 0 or without one for 1. *)
Theorem C112_errors : forall v e, sudoku_init v = Err e -> e = ValueError \/ e = TypeError.
Proof. exact init_errors. Qed.
Print Assumptions C112_errors.
Theorem C112_value_error : forall v, sudoku_init v = Err ValueError <->
  (exists n, holds_n v n /\ n <> 2%nat) \/ (exists l, v = PDict l /\ length l = 2%nat /\ (no_entry l 0 \/ no_entry l 1)).
Proof. exact value_error_iff. Qed.
Print Assumptions C112_value_error.

(** C112: that a sudoku that could be created has box_width * box_height rows is refuted: the dict {0: 3, 1: 3} is accepted, the keys become width and height of the boxes, the values decide about the rows. *)
Theorem C112_dict_refuted : exists v o, sudoku_init v = Ok o /\ length (r_rows o) = 9%nat /\
  r_box_width o = PInt 0 /\ r_box_height o = PInt 1.
Proof. exists (PDict [(PInt 0, PInt 3); (PInt 1, PInt 3)]). eexists. splits; [> vm_compute; reflexivity ..]. Qed.
Print Assumptions C112_dict_refuted.

Example C112_ex :
  (exists o, sudoku_init (PList [PInt 2; PBool true]) = Ok o /\ r_rows o = [[0; 0]; [0; 0]] /\ r_numbers_attr o = [1; 2]) /\
  sudoku_init (PTuple [PInt 3; PInt 3; PInt 3]) = Err ValueError /\ sudoku_init (PInt 3) = Err TypeError /\
  sudoku_init (PStr (lit "33")) = Err TypeError /\ sudoku_init (PStr (lit "3x3")) = Err ValueError /\
  sudoku_init (PTuple [PFloat (Some 3); PInt 3]) = Err TypeError /\ sudoku_init (PSet [PInt 2; PInt 3]) = Err TypeError /\
  sudoku_init (PDict [(PInt 2, PInt 3); (PInt 3, PInt 3)]) = Err ValueError.
Proof. splits; try (vm_compute; reflexivity). eexists. splits; [> vm_compute; reflexivity ..]. Qed.
