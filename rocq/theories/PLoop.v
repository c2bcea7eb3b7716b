(** Properties C140: changing a sudoku while iterating over it.  Statements use only the model functions
    and the specification files; the proofs are in the L*.v files. *)
From Coq Require Import Lia Sorted.
From Verif Require Import Spec SpecFind LBase LCoord LSudoku LSudoku2 LCheck LLoop.

(** C140: a loop over the empty fields, the filled fields or the fields that differ from another sudoku may change the sudoku in any way that keeps its size: the loop ends without an exception, visits fields in row-major order and none twice, and a field it visits is empty (filled, different) at the time it is visited. *)
Theorem C140_visits : forall s body, wf s -> body_ok s body ->
  (exists t, snd (loop body (empty s) s) = Ok t /\ like s t /\ StronglySorted lex_lt (map snd (fst (loop body (empty s) s))) /\
     forall u p, In (u, p) (fst (loop body (empty s) s)) -> field s p /\ like s u /\ num u p = 0) /\
  (exists t, snd (loop body (filled s) s) = Ok t /\ like s t /\ StronglySorted lex_lt (map snd (fst (loop body (filled s) s))) /\
     forall u p, In (u, p) (fst (loop body (filled s) s)) -> field s p /\ like s u /\ num u p <> 0) /\
  (forall other, like s other ->
   exists t, snd (loop body (diff s other) s) = Ok t /\ like s t /\ StronglySorted lex_lt (map snd (fst (loop body (diff s other) s))) /\
     forall u p, In (u, p) (fst (loop body (diff s other) s)) -> field s p /\ like s u /\ num u p <> num other p).
Proof.
  intros s body W B. rewrite loop_empty, loop_filled by auto. split; [|split].
  - destruct (walk_ok s t_empty body B (coords s) s (like_refl s W) (coords_fields s) (coords_sorted s)) as [t [H1 [H2 [H3 H4]]]].
    exists t. split; [auto|split; [auto|split; [auto|]]]. intros u p I. destruct (H4 u p I) as [A [L T]]. apply coords_fields in A. apply Z.eqb_eq in T. auto.
  - destruct (walk_ok s t_filled body B (coords s) s (like_refl s W) (coords_fields s) (coords_sorted s)) as [t [H1 [H2 [H3 H4]]]].
    exists t. split; [auto|split; [auto|split; [auto|]]]. intros u p I. destruct (H4 u p I) as [A [L T]]. apply coords_fields in A.
    unfold t_filled in T. apply Bool.negb_true_iff, Z.eqb_neq in T. auto.
  - intros other O. rewrite loop_diff by auto.
    destruct (walk_ok s (t_diff other) body B (coords s) s (like_refl s W) (coords_fields s) (coords_sorted s)) as [t [H1 [H2 [H3 H4]]]].
    exists t. split; [auto|split; [auto|split; [auto|]]]. intros u p I. destruct (H4 u p I) as [A [L T]]. apply coords_fields in A.
    unfold t_diff in T. apply Bool.negb_true_iff, Z.eqb_neq in T. auto.
Qed.
Print Assumptions C140_visits.

(** C140: if the body changes no field that comes later in row-major order (for example only the field it is given), the loop visits exactly the fields that were empty (filled, different) before the loop, whatever it does to the others. *)
Theorem C140_backward : forall s body, wf s -> body_ok s body -> backward s body ->
  lists (map snd (fst (loop body (empty s) s))) (fun p => field s p /\ num s p = 0) /\
  lists (map snd (fst (loop body (filled s) s))) (fun p => field s p /\ num s p <> 0) /\
  forall other, like s other ->
  lists (map snd (fst (loop body (diff s other) s))) (fun p => field s p /\ num s p <> num other p).
Proof.
  intros s body W B K. rewrite loop_empty, loop_filled by auto. split; [|split; [|intros other O; rewrite loop_diff by auto]].
  all: rewrite (walk_backward s _ body B K) by auto using like_refl, coords_fields, coords_sorted.
  all: split; [apply filter_sorted, coords_sorted|]; intros p; rewrite filter_In, in_coords.
  - unfold t_empty. rewrite Z.eqb_eq. reflexivity.
  - unfold t_filled. rewrite Bool.negb_true_iff, Z.eqb_neq. reflexivity.
  - unfold t_diff. rewrite Bool.negb_true_iff, Z.eqb_neq. reflexivity.
Qed.
Print Assumptions C140_backward.

(** C140: if the body fills its field and empties none, the sudoku is full after the loop over the empty fields; if it empties its field and fills none, the sudoku is blank after the loop over the filled fields; if it copies the number of the other sudoku to its field and spoils no field that agrees, both sudokus have the same numbers after the loop over the fields that differ. *)
Theorem C140_achieves : forall s body, wf s -> body_ok s body ->
  (achieves s (fun _ v => v <> 0) body -> exists t, snd (loop body (empty s) s) = Ok t /\ like s t /\ complete t) /\
  (achieves s (fun _ v => v = 0) body -> exists t, snd (loop body (filled s) s) = Ok t /\ like s t /\ forall p, field s p -> num t p = 0) /\
  (forall other, like s other -> achieves s (fun p v => v = num other p) body ->
   exists t, snd (loop body (diff s other) s) = Ok t /\ like s t /\ forall p, field s p -> num t p = num other p).
Proof.
  intros s body W B. rewrite loop_empty, loop_filled by auto.
  assert (G : forall test good, achieves s good body -> (forall p v, test p v = false -> good p v) ->
    exists t, snd (walk test body (coords s) s) = Ok t /\ like s t /\ forall p, field s p -> good p (num t p)).
  { intros test good K T. destruct (walk_ok s test body B (coords s) s (like_refl s W) (coords_fields s) (coords_sorted s)) as [t [H1 [H2 _]]].
    destruct (walk_achieves s test body B good K T (coords s) s (like_refl s W) (coords_fields s)) as [t' [I1 [I2 _]]].
    rewrite H1 in I1. injection I1 as <-. exists t. split; [auto|split; [auto|]]. intros p F. apply I2. now apply in_coords. }
  split; [|split].
  - intros K. destruct (G t_empty _ K) as [t [H1 [H2 H3]]]; [intros p v E; now apply Z.eqb_neq in E|]. exists t. split; [auto|split; [auto|]].
    intros p F. apply H3. now apply (like_field s t).
  - intros K. apply (G t_filled _ K). intros p v E. apply Bool.negb_false_iff, Z.eqb_eq in E. exact E.
  - intros other O K. rewrite loop_diff by auto. apply (G (t_diff other) _ K). intros p v E. apply Bool.negb_false_iff, Z.eqb_eq in E. exact E.
Qed.
Print Assumptions C140_achieves.

(** C140: a loop over find_conflicts() that clears one or both fields of each conflict it is given leaves a sudoku without conflicts; it only clears fields, and only fields that were in conflict before the loop. *)
Theorem C140_conflicts : forall s body, wf s -> clears s body ->
  exists t, snd (loop body (find_conflicts s []) s) = Ok t /\ like s t /\ conflict_free t /\
    forall p, field s p -> num t p = num s p \/
      (num t p = 0 /\ num s p <> 0 /\ exists q, field s q /\ peers (box_width s) (box_height s) p q /\ num s q = num s p).
Proof.
  intros s body W K. destruct (conflicts_loop s body W K) as [t [H1 [[[H2 H3] H4] _]]]. exists t. split; [auto|split; [auto|split; [|exact H3]]].
  intros p q Fp Fq P. apply (like_field s t) in Fp; auto. apply (like_field s t) in Fq; auto.
  destruct (like_dims _ _ H2) as [_ [E1 E2]]. rewrite E1, E2 in P. apply H4; auto. now apply in_coords.
Qed.
Print Assumptions C140_conflicts.

(** C140: every conflict (p, q, v) the loop is given was one before the loop, and the second field still has the number v at that moment; the first has it too, unless the loop itself has cleared it. *)
Theorem C140_seen : forall s body, wf s -> clears s body ->
  forall u p q v, In (u, (p, q, v)) (fst (loop body (find_conflicts s []) s)) ->
  field s p /\ field s q /\ peers (box_width s) (box_height s) p q /\ v <> 0 /\ num s p = v /\ num s q = v /\
  (num u p = v \/ num u p = 0) /\ num u q = v.
Proof.
  intros s body W K u p q v I. destruct (conflicts_loop s body W K) as [t [_ [_ H]]]. exact (H u (p, q, v) I).
Qed.
Print Assumptions C140_seen.

(** Cases: bodies that meet the hypotheses, and what the loops do with them. *)
Definition put (f : coord -> Z) (u : sudoku) (p : coord) : sudoku :=
  match setitem u (fst p) (snd p) (f p) with Ok t => t | Err _ => u end.
Lemma put_is : forall s f u p, like s u -> field s p -> put f u p = pset u p (f p).
Proof. intros s f u [r c] L F. unfold put. cbn [fst snd]. rewrite setitem_ok; [auto|apply L|now apply (like_field s u)]. Qed.
Lemma put_num : forall s f u p q, like s u -> field s p -> field s q -> num (put f u p) q = if coord_eqb q p then f p else num u q.
Proof. intros s f u p q L F G. rewrite (put_is s) by auto. apply num_pset; [apply L|now apply (like_field s u)|now apply (like_field s u)]. Qed.
Lemma put_ok : forall s f, body_ok s (put f).
Proof. intros s f u p L F. rewrite (put_is s) by auto. destruct L as [L1 L2]. split; [apply pset_wf; auto; now apply (like_field s u)|exact L2]. Qed.

(** [s[r, c] = f(r, c)] for any f. *)
Lemma C140_ex_put : forall s f, body_ok s (put f) /\ backward s (put f) /\
  forall good : coord -> Z -> Prop, (forall p, field s p -> good p (f p)) -> achieves s good (put f).
Proof.
  intros s f. split; [apply put_ok|split].
  - intros u p q L F G X. rewrite (put_num s) by auto. destruct (coord_eqb q p) eqn:E; auto. apply coord_eqb_eq in E. subst q. unfold lex_lt in X. lia.
  - intros good H u p L F. rewrite (put_num s) by auto. split.
    + rewrite (proj2 (coord_eqb_eq p p) eq_refl). auto.
    + intros q G Y. rewrite (put_num s) by auto. destruct (coord_eqb q p) eqn:E; auto. apply coord_eqb_eq in E. subst q. auto.
Qed.

Example C140_ex_fill : like ex4 ex4sol /\
  map snd (fst (loop (put (num ex4sol)) (empty ex4) ex4)) = [(0,0); (0,2); (0,3); (1,0); (1,1); (1,3); (2,0); (2,1); (2,3); (3,0); (3,2); (3,3)] /\
  (exists t, snd (loop (put (num ex4sol)) (empty ex4) ex4) = Ok t /\ s_numbers t = s_numbers ex4sol) /\
  map snd (fst (loop (put (num ex4sol)) (diff ex4c ex4sol) ex4c)) = [(0,1); (0,2); (0,3); (1,0); (1,1); (1,2); (2,0); (2,1); (2,2); (2,3); (3,0); (3,1); (3,2); (3,3)].
Proof.
  split; [split; [apply ex4sol_wf|reflexivity]|]. split; [vm_compute; reflexivity|]. split; [|vm_compute; reflexivity].
  eexists. split; vm_compute; reflexivity.
Qed.

(** A body that also clears the field to the right: the loop over the filled fields visits only every second one. *)
Example C140_ex_forward : let body u p := put (fun _ => 0) (put (fun _ => 0) u p) (fst p, snd p + 1) in
  map snd (fst (loop body (filled ex4sol) ex4sol)) = [(0,0); (0,2); (1,0); (1,2); (2,0); (2,2); (3,0); (3,2)].
Proof. vm_compute. reflexivity. Qed.

Definition clear_first (u : sudoku) (x : coord * coord * Z) : sudoku := put (fun _ => 0) u (fst (fst x)).
Definition clear_second (u : sudoku) (x : coord * coord * Z) : sudoku := put (fun _ => 0) u (snd (fst x)).
Lemma C140_ex_clears : forall s, clears s clear_first /\ clears s clear_second.
Proof.
  intros s. split; intros u p q v L F G; unfold clear_first, clear_second; cbn [fst snd]; (split; [now apply put_ok|split]).
  - intros r H. rewrite (put_num s) by auto. destruct (coord_eqb r p) eqn:E; auto. apply coord_eqb_eq in E. auto.
  - left. rewrite (put_num s) by auto. now rewrite (proj2 (coord_eqb_eq p p) eq_refl).
  - intros r H. rewrite (put_num s) by auto. destruct (coord_eqb r q) eqn:E; auto. apply coord_eqb_eq in E. auto.
  - right. rewrite (put_num s) by auto. now rewrite (proj2 (coord_eqb_eq q q) eq_refl).
Qed.
Definition ex4cc : sudoku := of_rows 2 2
  [[1; 0; 1; 0];
   [0; 1; 0; 2];
   [1; 0; 0; 2];
   [0; 0; 3; 0]].
Example C140_ex_conflicts : wf ex4cc /\
  (exists t, snd (loop clear_first (find_conflicts ex4cc []) ex4cc) = Ok t /\
     s_numbers t = [[0; 0; 1; 0]; [0; 1; 0; 0]; [1; 0; 0; 2]; [0; 0; 3; 0]]) /\
  (exists t, snd (loop clear_second (find_conflicts ex4cc []) ex4cc) = Ok t /\
     s_numbers t = [[1; 0; 0; 0]; [0; 0; 0; 2]; [0; 0; 0; 0]; [0; 0; 3; 0]]).
Proof.
  split; [apply wfb_ok; vm_compute; reflexivity|]. split; eexists; split; vm_compute; reflexivity.
Qed.
Print Assumptions C140_ex_put.
Print Assumptions C140_ex_clears.
