(** Properties C81-C87: exactly which steps the find methods of solvers.py report.  Statements use only the model functions
    and the specification files; the proofs are in the L*.v files. *)
From Verif Require Import LFind6 LCheck PSolvers.

(** C81: CalculateCandidates reports exactly the fields without candidates, in reading order, with the possible numbers. *)
Theorem C81_calculate : forall o s, wf s -> exists fs ys, all_steps o CalculateCandidates s ys /\
  lists fs (fun p => field s p /\ cand s p = []) /\
  Forall2 (fun p st => exists vals, step_is CalculateCandidates [p] [p] vals st /\
    (num s p <> 0 -> vals = [num s p]) /\
    (num s p = 0 -> listsz vals (fun v => 1 <= v <= box_width s * box_height s /\
       forall q, field s q -> peers (box_width s) (box_height s) p q -> num s q <> v))) fs ys.
Proof. exact calculate_all. Qed.
Print Assumptions C81_calculate.

(** C81: NakedSingle reports exactly the empty fields with one candidate, in reading order. *)
Theorem C81_naked_single : forall o s, wf s -> exists fs ys, all_steps o NakedSingle s ys /\
  lists fs (fun p => field s p /\ num s p = 0 /\ exists v, cand s p = [v]) /\
  Forall2 (fun p st => exists v, cand s p = [v] /\ step_is NakedSingle [p] [p] [v] st) fs ys.
Proof. exact naked_single_all. Qed.
Print Assumptions C81_naked_single.

Example C81_ex : wf ex4i /\ found NakedSingle ex4i = [([(0, 2)], [(0, 2)], [3]); ([(1, 1)], [(1, 1)], [4]); ([(2, 1)], [(2, 1)], [1]); ([(3, 2)], [(3, 2)], [2])] /\
  length (found CalculateCandidates ex4) = 16%nat /\ found CalculateCandidates ex4i = [].
Proof. split; [apply samples_ok|]. vm_compute. auto. Qed.

(** C82: HiddenSingle reports exactly the empty fields with a hidden number, in reading order, each once: a column is preferred to a row, a row to a box. *)
Theorem C82_hidden_single : forall o s, oracle_ok o -> wf s -> exists fs ys, all_steps o HiddenSingle s ys /\
  lists fs (fun p => field s p /\ num s p = 0 /\ exists k v, hidden_value s k p v) /\
  Forall2 (fun p st => exists k v, hidden_value s k p v /\
    (forall k' v', tried_before_hidden k' k -> ~ hidden_value s k' p v') /\
    step_is HiddenSingle [p] [p] [v] st) fs ys.
Proof. exact hidden_single_all. Qed.
Print Assumptions C82_hidden_single.

(** C82: a sudoku without candidates: every empty field is reported, with a number that depends on the order of the set only. *)
Theorem C82_without_candidates : forall o s, oracle_ok o -> wf s -> (forall p, field s p -> cand s p = []) ->
  exists fs ys, all_steps o HiddenSingle s ys /\ lists fs (fun p => field s p /\ num s p = 0) /\
  Forall2 (fun p st => exists v, 1 <= v <= box_width s * box_height s /\ step_is HiddenSingle [p] [p] [v] st) fs ys.
Proof. exact hidden_single_blank. Qed.
Print Assumptions C82_without_candidates.

(** Without candidates the numbers may be wrong: [ex4] has the number 1 in its first field. *)
Example C82_ex : wf ex4i /\ found HiddenSingle ex4i = [([(0, 0)], [(0, 0)], [1]); ([(0, 2)], [(0, 2)], [3]); ([(1, 1)], [(1, 1)], [4]); ([(1, 3)], [(1, 3)], [2]);
    ([(2, 1)], [(2, 1)], [1]); ([(2, 3)], [(2, 3)], [3]); ([(3, 0)], [(3, 0)], [4]); ([(3, 2)], [(3, 2)], [2])] /\
  In ([(0, 0)], [(0, 0)], [4]) (found HiddenSingle ex4) /\ num ex4sol (0, 0) = 1 /\ is_solved ex4sol = Ok true.
Proof. split; [apply samples_ok|]. vm_compute. tauto. Qed.

(** C83: NakedTuple reports every set of clues that is a naked tuple in some unit, once, for the first kind of unit (row, column, box) in which it is one. *)
Theorem C83_naked_tuple : forall o n s, wf s -> exists ys, all_steps o (NakedTuple n) s ys /\
  NoDup (map clues ys) /\
  (forall st, In st ys -> exists k q cl aff vals, naked_tuple s n k q cl aff vals /\ step_is (NakedTuple n) cl aff vals st /\
     forall k' q' aff' vals', tried_before_naked k' k -> ~ naked_tuple s n k' q' cl aff' vals') /\
  (forall k q cl aff vals, naked_tuple s n k q cl aff vals -> exists st, In st ys /\ clues st = cl).
Proof. exact naked_all. Qed.
Print Assumptions C83_naked_tuple.

Example C83_ex : wf tup4i /\ found (NakedTuple 2) tup4i = [([(2, 1); (3, 1)], [(0, 1); (1, 1)], [1; 2]); ([(0, 0); (1, 0)], [(0, 1); (1, 1)], [1; 2])].
Proof. split; [apply samples_ok|]. vm_compute. reflexivity. Qed.

(** C84: HiddenTuple reports exactly the hidden tuples, each as often in a row as it has places. *)
Theorem C84_hidden_tuple : forall o n s, wf s -> exists ys, all_steps o (HiddenTuple n) s ys /\
  (forall st, In st ys <-> exists k q places cl aff vals, hidden_tuple s n k q places cl aff vals /\ step_is (HiddenTuple n) cl aff vals st) /\
  (forall st k q places cl aff vals, hidden_tuple s n k q places cl aff vals -> step_is (HiddenTuple n) cl aff vals st ->
     exists a b, ys = a ++ repeat st (length places) ++ b).
Proof. exact hidden_all. Qed.
Print Assumptions C84_hidden_tuple.

(** C84: that is at least twice. *)
Theorem C84_at_least_twice : forall s n k q places cl aff vals, wf s -> hidden_tuple s n k q places cl aff vals -> (2 <= length places)%nat.
Proof. exact hidden_twice. Qed.
Print Assumptions C84_at_least_twice.

Example C84_ex : wf tup4i /\ found (HiddenTuple 2) tup4i =
  [([(0, 1); (1, 1); (2, 1); (3, 1)], [(0, 1); (1, 1)], [3; 4]); ([(0, 1); (1, 1); (2, 1); (3, 1)], [(0, 1); (1, 1)], [3; 4]);
   ([(0, 0); (0, 1); (1, 0); (1, 1)], [(0, 1); (1, 1)], [3; 4]); ([(0, 0); (0, 1); (1, 0); (1, 1)], [(0, 1); (1, 1)], [3; 4])].
Proof. split; [apply samples_ok|]. vm_compute. reflexivity. Qed.

(** C85: PointingTuple reports exactly the pointing tuples, none twice. *)
Theorem C85_pointing_tuple : forall o n s, wf s -> exists ys, all_steps o (PointingTuple n) s ys /\
  (forall st, In st ys <-> exists k k2 q v cl aff, pointing_kinds n k k2 /\ pointing s n k k2 q v cl aff /\
     step_is (PointingTuple n) cl aff [v] st) /\
  ((2 <= n)%nat -> NoDup ys).
Proof. exact pointing_all. Qed.
Print Assumptions C85_pointing_tuple.

Example C85_ex : wf tup4i /\ found (PointingTuple 2) tup4i =
  [([(2, 1); (3, 1)], [(0, 1); (1, 1)], [1]); ([(2, 1); (3, 1)], [(0, 1); (1, 1)], [2]); ([(0, 0); (1, 0)], [(0, 1); (1, 1)], [1]); ([(0, 0); (1, 0)], [(0, 1); (1, 1)], [2])].
Proof. split; [apply samples_ok|]. vm_compute. reflexivity. Qed.

(** C86: BasicFish reports exactly the fish, none twice. *)
Theorem C86_fish : forall o n s, wf s -> n <> O -> exists ys, all_steps o (BasicFish n) s ys /\ NoDup ys /\
  (forall st, In st ys <-> exists line other v lines cov cl aff,
     ((line = fst /\ other = snd) \/ (line = snd /\ other = fst)) /\
     fish s n line other v lines cov cl aff /\ step_is (BasicFish n) cl aff [v] st).
Proof. exact fish_all. Qed.
Print Assumptions C86_fish.

Example C86_ex : wf fish4 /\ found (BasicFish 2) fish4 =
  [([(0, 0); (0, 2); (2, 0); (2, 2)], [(1, 0); (1, 2); (3, 0); (3, 2)], [1]); ([(1, 1); (1, 3); (3, 1); (3, 3)], [(1, 0); (1, 2); (3, 0); (3, 2)], [1])].
Proof. split; [apply samples_ok|]. vm_compute. reflexivity. Qed.

(** C87: Bruteforce reports the numbers of one solution for exactly the empty fields in reading order, nothing without a solution. *)
Theorem C87_bruteforce : forall o s, oracle_ok o -> wf s -> exists ys, all_steps o Bruteforce s ys /\
  ((forall f, ~ solution s f) -> ys = []) /\
  ((exists f, solution s f) -> exists f fs, solution s f /\ lists fs (fun p => field s p /\ num s p = 0) /\
     Forall2 (fun p st => step_is Bruteforce [p] [p] [f p] st) fs ys).
Proof. exact bruteforce_all. Qed.
Print Assumptions C87_bruteforce.

Example C87_ex : wf ex4i /\ (exists f, solution ex4i f) /\ length (found Bruteforce ex4i) = 12%nat.
Proof. split; [apply samples_ok|]. split; [exists (num ex4sol); apply (proj2 (proj1 samples_ok))|]. vm_compute. reflexivity. Qed.
