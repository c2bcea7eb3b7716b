(** Properties C35-C42, C45-C47: solvers.py.  Statements use only the model functions and the
    specification files; the proofs are in the L*.v files. *)
From Verif Require Import LSolvers5 LCheck.

(** An oracle for the examples. *)
Definition o_ex : oracle := mkOracle (fun _ _ l => rev l) (fun _ _ l => l).
Lemma o_ex_ok : oracle_ok o_ex.
Proof. split; intros; cbn; auto. symmetry; apply Permutation_rev. Qed.

(** [consistent] by computation, for the examples. *)
Lemma consistent_check : forall s f,
  valid_gridb (box_width s) (box_height s) f &&
  forallb (fun p => ((num s p =? 0) || (num s p =? f p)) && existsb (Z.eqb (f p)) (cand s p))
    (cells (box_width s) (box_height s)) = true -> consistent s f.
Proof.
  intros s f H. apply andb_prop in H. destruct H as [V H]. rewrite forallb_forall in H.
  split; [split|].
  - apply valid_gridb_ok; auto.
  - intros p Fp. apply in_cells in Fp. specialize (H p Fp). apply andb_prop in H. destruct H as [H _].
    apply orb_prop in H. destruct H as [H|H]; b2p; auto.
  - intros p Fp. apply in_cells in Fp. specialize (H p Fp). apply andb_prop in H. destruct H as [_ H].
    apply existsb_exists in H. destruct H as [x [H1 H2]]. b2p. subst; auto.
Qed.

(** What the steps found say. *)
Definition found (cls : solver) (s : sudoku) :=
  map (fun st => (clues st, affected st, values st)) (gyields (MSolvers.find o_ex cls s) s).

Definition with_cands (s : sudoku) : sudoku := match init_candidates s false with Ok s => s | Err _ => s end.
(** [ex4] with all candidates computed; its solution is [ex4sol]. *)
Definition ex4i : sudoku := with_cands ex4.
(** A sudoku with tuples and one with a fish. *)
Definition tup4 : sudoku := of_rows 2 2 [[0;0;0;0];[0;0;0;0];[3;0;0;0];[4;0;0;0]].
Definition tup4i : sudoku := with_cands tup4.
Definition tup4sol : sudoku := of_rows 2 2 [[1;3;2;4];[2;4;1;3];[3;1;4;2];[4;2;3;1]].
Definition fish4 : sudoku :=
  {| box_width := 2; box_height := 2; s_numbers := [[0;0;0;0];[0;0;0;0];[0;0;0;0];[0;0;0;0]];
     s_candidates := [[[1;2;3;4];[2;3;4];[1;2;3;4];[2;3;4]]; [[1;2;3;4];[1;2;3;4];[1;2;3;4];[1;2;3;4]];
                      [[1;2;3;4];[2;3;4];[1;2;3;4];[2;3;4]]; [[1;2;3;4];[1;2;3;4];[1;2;3;4];[1;2;3;4]]] |}.
Definition fish4sol : sudoku := of_rows 2 2 [[1;2;3;4];[4;3;2;1];[2;4;1;3];[3;1;4;2]].
Lemma samples_ok : (wf ex4i /\ consistent ex4i (num ex4sol)) /\ (wf tup4i /\ consistent tup4i (num tup4sol)) /\
  (wf fish4 /\ consistent fish4 (num fish4sol)).
Proof.
  split; [|split]; (split; [apply wfb_ok | apply consistent_check]; vm_compute; reflexivity).
Qed.

(** C35: a single sets its field to the value of the solution, whatever happened between the steps. *)
Theorem C35_singles_sound : forall o cls s f t st, oracle_ok o -> wf s -> consistent s f ->
  cls = NakedSingle \/ cls = HiddenSingle ->
  yields_when (fun u => like s u /\ consistent u f) (MSolvers.find o cls s) s t st ->
  exists p, field s p /\ affected st = [p] /\ values st = [f p] /\ num t p = 0 /\
    forall u, like s u -> consistent u f ->
      exists st' u', apply st u = Ok (st', u') /\ num u' p = f p /\ like s u' /\ consistent u' f.
Proof. exact C35_proof. Qed.
Print Assumptions C35_singles_sound.

Example C35_ex : In ([(1, 1)], [(1, 1)], [4]) (found NakedSingle ex4i) /\
  In ([(3, 0)], [(3, 0)], [4]) (found HiddenSingle ex4i) /\ num ex4sol (1, 1) = 4 /\ num ex4sol (3, 0) = 4.
Proof. vm_compute; tauto. Qed.

(** C36: naked tuples never remove a value of the solution. *)
Theorem C36_naked_sound : forall o n s f t st, oracle_ok o -> wf s -> consistent s f ->
  yields_when (fun u => like s u /\ consistent u f) (MSolvers.find o (NakedTuple n) s) s t st ->
  never_removes f st /\ applies s f st.
Proof. exact C36_naked_proof. Qed.
Print Assumptions C36_naked_sound.

Example C36_naked_ex : In ([(0, 0); (1, 0)], [(0, 1); (1, 1)], [1; 2]) (found (NakedTuple 2) tup4i).
Proof. vm_compute; tauto. Qed.

(** C36: hidden tuples always keep the value of the solution. *)
Theorem C36_hidden_sound : forall o n s f t st, oracle_ok o -> wf s -> consistent s f ->
  yields_when (fun u => like s u /\ consistent u f) (MSolvers.find o (HiddenTuple n) s) s t st ->
  never_drops f st /\ applies s f st.
Proof. exact C36_hidden_proof. Qed.
Print Assumptions C36_hidden_sound.

Example C36_hidden_ex : In ([(0, 0); (0, 1); (1, 0); (1, 1)], [(0, 1); (1, 1)], [3; 4]) (found (HiddenTuple 2) tup4i).
Proof. vm_compute; tauto. Qed.

(** C37: pointing tuples never remove a value of the solution. *)
Theorem C37_pointing_sound : forall o n s f t st, oracle_ok o -> wf s -> consistent s f ->
  yields_when (fun u => like s u /\ consistent u f) (MSolvers.find o (PointingTuple n) s) s t st ->
  never_removes f st /\ applies s f st.
Proof. exact C37_proof. Qed.
Print Assumptions C37_pointing_sound.

Example C37_ex : In ([(2, 1); (3, 1)], [(0, 1); (1, 1)], [2]) (found (PointingTuple 2) tup4i).
Proof. vm_compute; tauto. Qed.

(** C38: fish never remove a value of the solution. *)
Theorem C38_fish_sound : forall o n s f t st, oracle_ok o -> wf s -> consistent s f -> (1 <= n)%nat ->
  yields_when (fun u => like s u /\ consistent u f) (MSolvers.find o (BasicFish n) s) s t st ->
  never_removes f st /\ applies s f st.
Proof. exact C38_proof. Qed.
Print Assumptions C38_fish_sound.

Example C38_ex : In ([(0, 0); (0, 2); (2, 0); (2, 2)], [(1, 0); (1, 2); (3, 0); (3, 2)], [1]) (found (BasicFish 2) fish4).
Proof. vm_compute; tauto. Qed.

(** C39: no class raises while finding or applying, under any change of the sudoku between the steps, and every affected field changes when the step is applied. *)
Theorem C39_steps_apply : forall o cls s, oracle_ok o -> wf s -> cls <> BasicFish 0 ->
  (forall e, ~ raises_when (like s) (MSolvers.find o cls s) s e) /\
  (forall t st, yields_when (like s) (MSolvers.find o cls s) s t st ->
     st_class st = cls /\ affected st <> [] /\ (forall p, In p (affected st) -> field s p) /\
     (forall u, like s u -> exists st' u', apply st u = Ok (st', u') /\ like s u') /\
     (forall st' t', apply st t = Ok (st', t') ->
        (cls = CalculateCandidates -> values st <> []) ->
        (cls = NakedSingle -> forall p, field t p -> ~ In 0 (cand t p)) ->
        forall p, In p (affected st) -> changed t t' p)).
Proof. exact C39_proof. Qed.
Print Assumptions C39_steps_apply.

(** C39: CalculateCandidates reports the possible values of an undetermined field, and no solution value is missing. *)
Theorem C39_calculate : forall s t st, wf s ->
  yields_when (like s) (calculate_find s) s t st ->
  exists p, field s p /\ clues st = [p] /\ affected st = [p] /\ cand t p = [] /\
    calc_candidates t (fst p) (snd p) = Ok (values st) /\
    forall f, solution t f -> In (f p) (values st).
Proof. exact C39_calculate_proof. Qed.
Print Assumptions C39_calculate.

Example C39_ex : In ([(0, 0)], [(0, 0)], [1; 2]) (found CalculateCandidates tup4) /\ In ([(0, 0)], [(0, 0)], [1]) (found Bruteforce tup4i).
Proof. vm_compute; tauto. Qed.

(** C40: solve() terminates on every solvable sudoku with a solution; the explicit bound on its rounds. *)
Theorem C40_solve : forall o s, oracle_ok o -> wf s -> (exists f, solution s f) ->
  exists l u, (forall fuel, (fuel_bound s <= fuel)%nat -> solve fuel o s = Ok (l, u)) /\
    wf u /\ box_size u = box_size s /\ complete u /\ solution s (num u) /\
    (unique_solution s -> forall f, solution s f -> shows u f).
Proof. exact C40_proof. Qed.
Print Assumptions C40_solve.

Example C40_ex : exists l u, solve (fuel_bound tup4) o_ex tup4 = Ok (l, u) /\ s_numbers u = s_numbers tup4sol /\
  length l = 29%nat.
Proof. eexists; eexists; split; [vm_compute; reflexivity|split; reflexivity]. Qed.

(** C41: what is true: solve() terminates on every sudoku with a solution.  Missing: the other sudokus, see below. *)
Theorem C41_solve_terminates_partial : forall o s, oracle_ok o -> wf s -> (exists f, solution s f) ->
  exists l u, (forall fuel, (fuel_bound s <= fuel)%nat -> solve fuel o s = Ok (l, u)) /\
    wf u /\ box_size u = box_size s /\ complete u /\ solution s (num u) /\
    (unique_solution s -> forall f, solution s f -> shows u f).
Proof. exact C40_proof. Qed.
Print Assumptions C41_solve_terminates_partial.

(** C41: solve() runs forever whenever some empty field has no possible value. *)
Theorem C41_diverges : forall o s, oracle_ok o -> wf s ->
  (exists p, field s p /\ num s p = 0 /\
     forall v, 1 <= v <= box_width s * box_height s ->
       exists q, field s q /\ peers (box_width s) (box_height s) p q /\ num s q = v) ->
  forall fuel, solve fuel o s = Err OutOfFuel.
Proof. exact C41_diverges_proof. Qed.
Print Assumptions C41_diverges.

Definition dead4 : sudoku := of_rows 2 2 [[0; 1; 2; 3]; [0; 0; 0; 0]; [4; 0; 0; 0]; [0; 0; 0; 0]].
(** C41: solve() does not terminate on every sudoku. *)
Theorem C41_solve_terminates_refuted :
  ~ (forall o s, oracle_ok o -> wf s -> exists fuel r, solve fuel o s = Ok r).
Proof.
  intros H. destruct (H o_ex dead4 o_ex_ok) as [fuel [r E]]; [apply wfb_ok; vm_compute; reflexivity|].
  rewrite C41_diverges in E; [discriminate|exact o_ex_ok|apply wfb_ok; vm_compute; reflexivity|].
  exists (0, 0). split; [vm_compute; intuition discriminate|]. split; [reflexivity|].
  intros v Hv. assert (D : v = 1 \/ v = 2 \/ v = 3 \/ v = 4) by (cbn in Hv; lia).
  destruct D as [ -> |[ -> |[ -> | -> ]]]; [exists (0, 1)|exists (0, 2)|exists (0, 3)|exists (2, 0)];
    (split; [vm_compute; intuition discriminate|split; [apply peersb_ok; reflexivity|reflexivity]]).
Qed.
Print Assumptions C41_solve_terminates_refuted.

(** C42: after any number of rounds, whether or not solve() terminates: the steps before the first Bruteforce step replay, and the solutions stay the same after each of them. *)
Theorem C42_deduction_preserves : forall o s k, oracle_ok o -> wf s ->
  exists s0 l t, start s = Ok s0 /\ rounds k o s0 = Ok (l, t) /\
   forall l1 l2, l = l1 ++ l2 -> (forall st, In st l1 -> st_class st <> Bruteforce) ->
     exists t1, replay s0 l1 = Ok t1 /\ like s t1 /\ forall f, solution t1 f <-> solution s f.
Proof. exact C42_rounds_proof. Qed.
Print Assumptions C42_deduction_preserves.

(** C42: the same for the steps returned by solve(). *)
Theorem C42_solve_steps : forall o s fuel l u, oracle_ok o -> wf s -> solve fuel o s = Ok (l, u) ->
  exists s0, start s = Ok s0 /\
   forall l1 l2, l = l1 ++ l2 -> (forall st, In st l1 -> st_class st <> Bruteforce) ->
     exists t1, replay s0 l1 = Ok t1 /\ like s t1 /\ forall f, solution t1 f <-> solution s f.
Proof. exact C42_solve_proof. Qed.
Print Assumptions C42_solve_steps.

Example C42_ex : exists l u, solve (fuel_bound tup4) o_ex tup4 = Ok (l, u) /\
  map st_class (skipn 14 l) = NakedTuple 2 :: repeat Bruteforce 14.
Proof. eexists; eexists; split; [> vm_compute; reflexivity ..]. Qed.

(** C45: apply_all of every class, once and in order, solves a solvable sudoku without candidates. *)
Theorem C45_apply_all : forall o s, oracle_ok o -> wf s -> (exists f, solution s f) ->
  (forall p, field s p -> cand s p = []) ->
  exists t, foldM (fun s cls => apply_all o cls s) SOLVERS s = Ok t /\
    wf t /\ box_size t = box_size s /\ complete t /\ solution s (num t).
Proof. exact C45_proof. Qed.
Print Assumptions C45_apply_all.

Example C45_ex : exists t, foldM (fun s cls => apply_all o_ex cls s) SOLVERS tup4 = Ok t /\ s_numbers t = s_numbers tup4sol.
Proof. eexists; split; [> vm_compute; reflexivity ..]. Qed.

(** C46: hints are sound, applicable and never guesses; asking changes nothing. *)
Theorem C46_hints : forall o s f, oracle_ok o -> wf s -> consistent s f ->
  gresult (hints o s) s = Ok s /\
  (forall e, ~ raises_when (fun u => like s u /\ consistent u f) (hints o s) s e) /\
  (forall t st, yields_when (fun u => like s u /\ consistent u f) (hints o s) s t st ->
     In (st_class st) SOLVERS /\ st_class st <> Bruteforce /\ st_class st <> CalculateCandidates /\
     match st_class st with
     | NakedSingle | HiddenSingle => sets_only f st
     | HiddenTuple _ => never_drops f st
     | _ => never_removes f st
     end /\ applies s f st).
Proof. exact C46_proof. Qed.
Print Assumptions C46_hints.

Example C46_ex : length (gyields (hints o_ex tup4i) tup4i) = 10%nat.
Proof. vm_compute; reflexivity. Qed.

(** C47: comparison of steps. *)
Theorem C47_order : (forall a b, step_eq a b = true <-> key a = key b) /\
  (forall a, step_lt a a = false) /\
  (forall a b c, step_lt a b = true -> step_lt b c = true -> step_lt a c = true) /\
  (forall a b, step_lt a b = true \/ step_eq a b = true \/ step_lt b a = true) /\
  (forall a b, step_lt a b = true -> step_eq a b = false /\ step_lt b a = false) /\
  (forall a b, step_le a b = true <-> step_lt a b = true \/ step_eq a b = true) /\
  (forall a b, step_gt a b = step_lt b a) /\
  (forall a b, step_ge a b = step_le b a) /\
  (forall cls c c' a a' v v', Permutation c c' -> Permutation a a' -> Permutation v v' ->
     new_step cls c a v = new_step cls c' a' v').
Proof. exact C47_proof. Qed.
Print Assumptions C47_order.

Example C47_ex : step_lt (new_step NakedSingle [(0, 0)] [(0, 0)] [3; 1]) (new_step HiddenSingle [(0, 0)] [(0, 0)] [2]) = true.
Proof. reflexivity. Qed.
