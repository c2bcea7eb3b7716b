(** Properties C13-C17: candidates, conflicts, is_solved.  Statements use only the model functions and Spec.v; the
    proofs are in the L*.v files. *)
From Verif Require Import LSolve LCheck.

(** The specification of a complete correct grid (numbers 1..N, peers differ) is the textbook one (each number exactly once in every row, column and box). *)
Theorem spec_valid_grid : forall w h f, 1 <= w -> 1 <= h -> (valid_grid w h f <-> latin w h f).
Proof. exact C13_unit_proof. Qed.
Print Assumptions spec_valid_grid.

(** C13: calc_candidates. *)
Theorem C13_calc_candidates : forall s r c, wf s -> field s (r, c) ->
  exists l, calc_candidates s r c = Ok l /\ StronglySorted Z.lt l /\
    (num s (r, c) <> 0 -> forall n, In n l <-> n = num s (r, c)) /\
    (num s (r, c) = 0 -> forall n, In n l <-> 1 <= n <= NN s /\
       forall q, field s q -> peers (box_width s) (box_height s) (r, c) q -> num s q <> n).
Proof. exact C13_proof. Qed.
Print Assumptions C13_calc_candidates.

Example C13_ex : calc_candidates ex4 0 2 = Ok [3] /\ calc_candidates ex4 1 0 = Ok [3; 4] /\
  calc_candidates ex4 3 1 = Ok [3] /\ field ex4 (1, 0) /\ num ex4 (1, 0) = 0.
Proof. repeat split; try reflexivity; simpl; lia. Qed.

(** C14: init_candidates. *)
Theorem C14_init_candidates : forall s b, wf s ->
  exists t, init_candidates s b = Ok t /\ wf t /\ box_size t = box_size s /\
    (forall r c, field s (r, c) -> getitem t r c = getitem s r c) /\
    (forall r c, field s (r, c) -> b = false \/ num s (r, c) <> 0 ->
       get_candidates t r c = calc_candidates s r c) /\
    (forall r c, field s (r, c) -> b = true -> num s (r, c) = 0 ->
       get_candidates t r c = get_candidates s r c).
Proof. exact C14_proof. Qed.
Print Assumptions C14_init_candidates.

Example C14_ex : exists t, init_candidates ex4 true = Ok t /\ get_candidates t 0 1 = Ok [2] /\
  get_candidates t 0 0 = Ok [].
Proof. eexists; repeat split; [> vm_compute; reflexivity ..]. Qed.

(** C15: candidates never lose a solution. *)
Theorem C15_no_solution_lost : forall s f r c, wf s -> solution s f -> field s (r, c) ->
  exists l, calc_candidates s r c = Ok l /\ In (f (r, c)) l.
Proof. exact C15_proof. Qed.
Print Assumptions C15_no_solution_lost.

Example C15_ex : wf ex4 /\ solution ex4 (num ex4sol).
Proof. split; [apply ex4_wf | apply ex4_solution]. Qed.

(** C16: find_conflicts ([cs = []] is the call without coordinates). *)
Theorem C16_find_conflicts : forall s cs, wf s -> (forall p, In p cs -> field s p) ->
  exists l, glist (find_conflicts s cs) s = Ok l /\
    (forall p q v, In (p, q, v) l <->
       (cs = [] \/ In p cs) /\ field s p /\ field s q /\
       peers (box_width s) (box_height s) p q /\ v <> 0 /\ num s p = v /\ num s q = v) /\
    (NoDup cs -> NoDup l).
Proof. exact C16_proof. Qed.
Print Assumptions C16_find_conflicts.

Example C16_ex : wf ex4c /\
  glist (find_conflicts ex4c []) ex4c = Ok [((0, 0), (2, 0), 1); ((2, 0), (0, 0), 1)] /\
  glist (find_conflicts ex4c [(2, 0)]) ex4c = Ok [((2, 0), (0, 0), 1)].
Proof. split; [apply ex4c_wf | vm_compute; auto]. Qed.

(** C17 for numbers in 0..N: is_solved means that every row, column and box contains each of 1..N exactly once. *)
Theorem C17_is_solved : forall s, wf s -> in_range s ->
  exists b, is_solved s = Ok b /\ (b = true <-> latin (box_width s) (box_height s) (num s)).
Proof. exact C17_partial_proof. Qed.
Print Assumptions C17_is_solved.

(** is_solved for arbitrary numbers: complete and without conflicts. *)
Theorem C17_is_solved_any : forall s, wf s ->
  exists b, is_solved s = Ok b /\ (b = true <-> complete s /\ conflict_free s).
Proof. exact C17_general_proof. Qed.
Print Assumptions C17_is_solved_any.

(** The range hypothesis is needed. *)
Theorem C17_range_needed_refuted : exists s, wf s /\ is_solved s = Ok true /\
  ~ latin (box_width s) (box_height s) (num s).
Proof. exact C17_refuted_proof. Qed.
Print Assumptions C17_range_needed_refuted.

Example C17_ex : wf ex6 /\ in_range ex6 /\ is_solved ex6 = Ok true /\ is_solved ex4 = Ok false.
Proof. split; [apply ex6_wf|]. split; [apply in_rangeb_ok; vm_compute; reflexivity | vm_compute; auto]. Qed.
