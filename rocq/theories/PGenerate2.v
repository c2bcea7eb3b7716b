(** Property C98: which puzzles generate can return.  Statements use only the
    model functions and the specification files; the proofs are in the L*.v
    files. *)
From Verif Require Import LGenerate2 LCheck PGenerate.

(** C98: given the created solution, the order in which the fields are tried is the
    only random decision left, and the possible results are exactly the
    puzzles described by [puzzle_of]. *)
Theorem C98_generate_results : forall co ord m y w h sol s, 1 <= w -> 1 <= h -> create_admissible co ->
  (forall k p l, Permutation (ord k p l) l) ->
  m <= w ^ 2 * h ^ 2 -> y <> SymOther -> create_solution co (w, h) = Ok sol ->
  ((exists sh, (forall l, Permutation (sh l) l) /\
      generate {| go_create := co; go_shuffle := sh; go_ord := ord |} m y (w, h) = Ok s) <->
   puzzle_of sol m y s).
Proof. exact C98_proof. Qed.
Print Assumptions C98_generate_results.

(** C98: when all fields have to be filled the result is the solution. *)
Theorem C98_generate_full : forall o y w h sol, 1 <= w -> 1 <= h -> generate_admissible o ->
  y <> SymOther -> create_solution (go_create o) (w, h) = Ok sol ->
  generate o (w ^ 2 * h ^ 2) y (w, h) = Ok sol.
Proof. exact C98_full_proof. Qed.
Print Assumptions C98_generate_full.

(** Without symmetry: every minimal puzzle of the solution is a possible result
    (nothing can be emptied without a second solution appearing). *)
Theorem C98_minimal_possible : forall co ord w h sol s, 1 <= w -> 1 <= h -> create_admissible co ->
  (forall k p l, Permutation (ord k p l) l) -> create_solution co (w, h) = Ok sol ->
  wf s -> box_size s = (w, h) -> (forall p, field s p -> cand s p = []) ->
  solution s (num sol) -> unique_solution s ->
  (forall p t, field s p -> num s p <> 0 -> setitem s (fst p) (snd p) 0 = Ok t -> ~ unique_solution t) ->
  exists sh, (forall l, Permutation (sh l) l) /\
    generate {| go_create := co; go_shuffle := sh; go_ord := ord |} 0 SymNone (w, h) = Ok s.
Proof. exact C98_minimal_proof. Qed.
Print Assumptions C98_minimal_possible.

(** Two different results for the same solution grid. *)
Example C98_ex : exists sol s t, create_solution co_ex (2, 2) = Ok sol /\
  generate {| go_create := co_ex; go_shuffle := @rev coord; go_ord := fun _ _ l => l |} 0 SymRotate180 (2, 2) = Ok s /\
  generate {| go_create := co_ex; go_shuffle := fun l => l; go_ord := fun _ _ l => l |} 0 SymMirrorX (2, 2) = Ok t /\
  s_numbers s = [[0; 0; 0; 3]; [0; 0; 2; 1]; [4; 3; 0; 0]; [2; 0; 0; 0]] /\ s_numbers t <> s_numbers s /\
  s_numbers sol <> s_numbers s.
Proof.
  do 3 eexists. do 4 (split; [vm_compute; reflexivity|]). split; vm_compute; discriminate.
Qed.

Example C98_ex_puzzle : exists sol s, create_solution co_ex (2, 2) = Ok sol /\
  s_numbers s = [[0; 0; 0; 3]; [0; 0; 2; 1]; [4; 3; 0; 0]; [2; 0; 0; 0]] /\ puzzle_of sol 0 SymRotate180 s.
Proof.
  destruct C98_ex as [sol [s [t [E1 [E2 [_ [E3 _]]]]]]]. exists sol, s. split; [exact E1|]. split; [exact E3|].
  assert (H : forall A (l : list A), Permutation (rev l) l) by (intros; symmetry; apply Permutation_rev).
  refine (proj1 (C98_generate_results co_ex (fun _ _ l => l) 0 SymRotate180 2 2 sol s _ _ co_ex_ok _ _ _ E1)
            (ex_intro _ (@rev coord) (conj (H coord) E2))); clear; first [lia | discriminate | auto].
Qed.
