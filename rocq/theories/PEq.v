(** Property C100: == of a sudoku and any object.  Statements use only the model functions and the
    specification files; the proofs are in the L*.v files. *)
From Verif Require Import LEq.

(** C100: s == other is True if other[row, col] is the number in s for every field of s. *)
Theorem C100_true : forall s get, wf s ->
  (object_eq s get = Ok true <-> forall p, field s p -> get (fst p) (snd p) = Ok (Some (num s p))).
Proof. exact object_eq_true. Qed.
Print Assumptions C100_true.

(** C100: it raises an exception exactly if the access to a field of other raises that exception, it is none of IndexError, KeyError and TypeError, and all fields before it are equal. *)
Theorem C100_raises : forall s get e, wf s ->
  (object_eq s get = Err e <-> exists p, field s p /\ get (fst p) (snd p) = Err e /\ ~ caught e /\
     forall q, field s q -> lex_lt q p -> get (fst q) (snd q) = Ok (Some (num s q))).
Proof. exact object_eq_raise. Qed.
Print Assumptions C100_raises.

(** C100: for two sudokus the result is True exactly if the first is the upper left corner of the second (the same numbers, for the same size), else False. *)
Theorem C100_sudokus : forall a b, wf a -> wf b ->
  (corner_of a b -> sudoku_eq a b = Ok true) /\ (~ corner_of a b -> sudoku_eq a b = Ok false).
Proof.
  intros a b Wa Wb. pose proof (sudoku_eq_corner a b Wa Wb) as [H1 H2]. split; auto. intros N.
  destruct (sudoku_eq_total a b Wa Wb) as [[] E]; auto. exfalso; auto.
Qed.
Print Assumptions C100_sudokus.

(** C07: == is a preorder; it is symmetric for a pair of sudokus exactly if they have the same size or the smaller one is no corner of the other. *)
Theorem C07_eq_preorder_partial : forall a b c, wf a -> wf b -> wf c ->
  sudoku_eq a a = Ok true /\ (sudoku_eq a b = Ok true -> sudoku_eq b c = Ok true -> sudoku_eq a c = Ok true) /\
  (sudoku_eq a b = sudoku_eq b a <->
   box_width a * box_height a = box_width b * box_height b \/ (~ corner_of a b /\ ~ corner_of b a)).
Proof.
  intros a b c Wa Wb Wc. pose proof (C100_sudokus a b Wa Wb) as [T1 F1]. pose proof (C100_sudokus b a Wb Wa) as [T2 F2].
  split; [|split; [|split]].
  - apply sudoku_eq_corner; auto. split; [lia|auto].
  - rewrite !sudoku_eq_corner by auto. intros [L1 H1] [L2 H2]. split; [lia|]. intros p Hp. rewrite H1 by auto. apply H2.
    destruct Hp as [X Y]. split; lia.
  - intros E. destruct (sudoku_eq a b) as [[]|e] eqn:E1.
    + symmetry in E. apply sudoku_eq_corner in E1, E; auto. left. destruct E1, E. lia.
    + right. symmetry in E. split; intros C; [apply T1 in C|apply T2 in C]; congruence.
    + destruct (sudoku_eq_total a b Wa Wb) as [x X]. congruence.
  - intros [E|[N1 N2]]; [apply C07_partial_proof; auto|]. rewrite F1, F2; auto.
Qed.
Print Assumptions C07_eq_preorder_partial.

(** A dict with the right number for one field only, one whose numbers are all right but for a last one that is no number, and an object that raises ValueError at (1, 1); the empty 4x4 sudoku is a corner of the empty 9x9 sudoku. *)
Example C100_ex :
  object_eq ex4 (fun r c => if (r =? 0) && (c =? 0) then Ok (Some (num ex4 (0, 0))) else Err KeyError) = Ok false /\
  object_eq ex4 (fun r c => if (r =? 3) && (c =? 3) then Ok None else Ok (Some (num ex4 (r, c)))) = Ok false /\
  object_eq ex4 (fun r c => Ok (Some (num ex4 (r, c)))) = Ok true /\
  object_eq ex4 (fun r c => if (r =? 1) && (c =? 1) then Err ValueError else Ok (Some (num ex4 (r, c)))) = Err ValueError /\
  corner_of (new_sudoku (2, 2)) (new_sudoku (3, 3)) /\ ~ corner_of ex4 (new_sudoku (3, 3)).
Proof.
  split; [vm_compute; reflexivity|]. split; [vm_compute; reflexivity|]. split; [vm_compute; reflexivity|]. split; [vm_compute; reflexivity|].
  assert (W2 : wf (new_sudoku (2, 2))) by (apply new_sudoku_wf; lia). assert (W3 : wf (new_sudoku (3, 3))) by (apply new_sudoku_wf; lia).
  split.
  - apply (proj1 (sudoku_eq_corner _ _ W2 W3)). vm_compute. reflexivity.
  - intros H. apply (proj2 (sudoku_eq_corner _ _ ex4_wf W3)) in H. vm_compute in H. discriminate H.
Qed.
