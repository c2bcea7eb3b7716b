(** Property C123: with at most four rows the rating tells exactly whether the solution is unique.  Statements use only the model
    functions and the specification files; the proofs are in the L*.v files. *)
From Verif Require Import LSmall PSolvers PLevel PDlx PUnique.

(** C123: a sudoku with at most four rows and one solution is solved by singles alone. *)
Theorem C123_singles : forall o s t f, oracle_ok o -> wf s -> solution s f -> unique_solution s -> box_width s * box_height s <= 4 ->
  init_candidates s false = Ok t -> solvable_with 1 t.
Proof. exact unique_solvable. Qed.
Print Assumptions C123_singles.

(** C123: it is rated 0 or 1, and 10 if there are several solutions. *)
Theorem C123_rate : forall o fuel s f r, oracle_ok o -> wf s -> solution s f -> box_width s * box_height s <= 4 -> rate fuel o s = Ok r ->
  (r = 0 \/ r = 1 \/ r = 10) /\ (r <= 1 <-> unique_solution s).
Proof.
  intros o fuel s f r Ho W Hf L E. destruct (init_candidates_ok s false W) as [t [Et _]].
  destruct (C117_rate_level o fuel s t f r Ho W Hf Et E) as [R Lv].
  assert (U : unique_solution s -> r <= 1) by (intros U; apply Lv; [lia|]; exact (C123_singles o s t f Ho W Hf U L Et)).
  assert (U' : r < 10 -> unique_solution s) by (intros H; exact (C122_unique o fuel s f r Ho W Hf E H)).
  destruct (Z_lt_ge_dec r 10) as [H|H].
  - specialize (U (U' H)). split; [lia|]. split; auto.
  - split; [lia|]. split; [lia|auto].
Qed.
Print Assumptions C123_rate.

(** C123: so the rating and is_unique agree. *)
Theorem C123_is_unique : forall o ord fuel s f r, oracle_ok o -> (forall p l, Permutation (ord p l) l) -> wf s -> solution s f ->
  box_width s * box_height s <= 4 -> rate fuel o s = Ok r -> is_unique ord s = Ok (r <=? 1).
Proof.
  intros o ord fuel s f r Ho Hp W Hf L E. destruct (C27_is_unique ord s Hp W) as [b [Eb Hb]]. rewrite Eb. f_equal.
  destruct (C123_rate o fuel s f r Ho W Hf L E) as [_ U]. apply Bool.eq_iff_eq_true. rewrite Hb, Z.leb_le. tauto.
Qed.
Print Assumptions C123_is_unique.

(** Sudokus to which this applies: one with one solution and one with several, and one of size 1x4. *)
Definition thin4 : sudoku := of_rows 1 4 [[0; 2; 0; 0]; [0; 0; 4; 0]; [3; 0; 0; 0]; [0; 3; 0; 1]].
Definition thin4sol : sudoku := of_rows 1 4 [[1; 2; 3; 4]; [2; 1; 4; 3]; [3; 4; 1; 2]; [4; 3; 2; 1]].
Example C123_ex : rate 40 o_ex ex4 = Ok 1 /\ unique_solution ex4 /\ rate 40 o_ex ex4m = Ok 10 /\ ~ unique_solution ex4m.
Proof.
  assert (W1 : wf ex4) by (apply wfb_ok; vm_compute; reflexivity). assert (W2 : wf ex4m) by (apply wfb_ok; vm_compute; reflexivity).
  assert (R1 : rate 40 o_ex ex4 = Ok 1) by (vm_compute; reflexivity). assert (R2 : rate 40 o_ex ex4m = Ok 10) by (vm_compute; reflexivity).
  split; [exact R1|]. split.
  - apply (C123_rate o_ex 40 ex4 (num ex4sol) 1 o_ex_ok W1); [apply solutionb_ok; vm_compute; reflexivity|vm_compute; congruence|exact R1|lia].
  - split; [exact R2|]. intros U. apply (C123_rate o_ex 40 ex4m (num ex4sol) 10 o_ex_ok W2) in U; [lia|apply solutionb_ok; vm_compute; reflexivity|vm_compute; congruence|exact R2].
Qed.
Example C123_thin_ex : is_unique some_order thin4 = Ok true /\ rate 40 o_ex thin4 = Ok 1 /\ solution thin4 (num thin4sol).
Proof. split; [vm_compute; reflexivity|]. split; [vm_compute; reflexivity|]. apply solutionb_ok; vm_compute; reflexivity. Qed.

(** Five rows are too many. *)
Theorem C123_five_refuted : exists s f fuel o, oracle_ok o /\ wf s /\ solution s f /\ unique_solution s /\ box_width s * box_height s = 5 /\ rate fuel o s = Ok 10.
Proof.
  destruct hard5_ok as [W [Hf [U E]]]. exists hard5, (num hard5sol), 60%nat, o_ex.
  split; [exact o_ex_ok|]. split; [exact W|]. split; [exact Hf|]. split; [exact U|]. split; [reflexivity|exact E].
Qed.
Print Assumptions C123_five_refuted.
