(** Property C121: the sizes of the steps of solve(), and the ratings that are possible for a sudoku of a given size.  Statements
    use only the model functions and the specification files; the proofs are in LSizes.v. *)
From Verif Require Import LSizes LCheck PSolvers.

(** C121: the steps of solve() on a sudoku with a solution are not larger than what fits. *)
Theorem C121_sizes : forall o fuel s f l t st, oracle_ok o -> wf s -> solution s f -> solve fuel o s = Ok (l, t) -> In st l ->
  fits (box_width s) (box_height s) (st_class st).
Proof.
  intros o fuel s f l t st Ho W Hf E. apply (solve_fits _ _ (wf_w s W) (wf_h s W) o fuel s l t f Ho (ok_intro _ _ s W eq_refl eq_refl) Hf E).
Qed.
Print Assumptions C121_sizes.

(** C121: rate() is the highest rating of a step of solve(), 0 if there is none ... *)
Theorem C121_rate : forall fuel o s r, rate fuel o s = Ok r -> exists l t, solve fuel o s = Ok (l, t) /\
  (forall st, In st l -> exists k, rated k (st_class st) /\ k <= r) /\
  (l = [] /\ r = 0 \/ exists st, In st l /\ rated r (st_class st)).
Proof. exact rate_max. Qed.
Print Assumptions C121_rate.
(** ... and score() is the sum of their ratings. *)
Theorem C121_score : forall fuel o s r, score fuel o s = Ok r -> exists l t ks, solve fuel o s = Ok (l, t) /\
  Forall2 (fun st k => rated k (st_class st)) l ks /\ r = fold_right Z.add 0 ks.
Proof. exact score_sum. Qed.
Print Assumptions C121_score.

(** C121: so the ratings that are possible depend on the size: 2 and 5 need 4 lines, 6 needs 6 lines, 3 and 7 need 8 lines, and
    4 needs boxes that are not lines.  8 and 9 are not used. *)
Theorem C121_ratings : forall o fuel s f r, oracle_ok o -> wf s -> solution s f -> rate fuel o s = Ok r ->
  In r [0; 1; 2; 3; 4; 5; 6; 7; 10] /\
  (In r [2; 5] -> 4 <= box_width s * box_height s) /\ (r = 6 -> 6 <= box_width s * box_height s) /\
  (In r [3; 7] -> 8 <= box_width s * box_height s) /\ (r = 4 -> 2 <= box_width s /\ 2 <= box_height s).
Proof. exact sizes_ratings. Qed.
Print Assumptions C121_ratings.

(** The bounds for fish are reached: X-wing with N = 4, swordfish with N = 6, jellyfish with N = 8. *)
Definition size4 : sudoku := of_rows 4 1 [[0; 0; 0; 0]; [0; 0; 0; 0]; [0; 2; 1; 0]; [0; 4; 2; 0]].
Definition size4f : grid := num (of_rows 4 1 [[2; 3; 4; 1]; [4; 1; 3; 2]; [3; 2; 1; 4]; [1; 4; 2; 3]]).
Definition size6 : sudoku := of_rows 3 2
  [[0; 0; 4; 5; 0; 3]; [0; 0; 0; 0; 0; 0]; [4; 0; 1; 3; 0; 6]; [0; 0; 0; 0; 0; 0]; [0; 0; 0; 0; 0; 0]; [0; 4; 6; 1; 0; 5]].
Definition size6f : grid := num (of_rows 3 2
  [[6; 2; 4; 5; 1; 3]; [5; 1; 3; 6; 4; 2]; [4; 5; 1; 3; 2; 6]; [3; 6; 2; 4; 5; 1]; [1; 3; 5; 2; 6; 4]; [2; 4; 6; 1; 3; 5]]).
Definition size6p : sudoku := of_rows 3 2
  [[0; 0; 0; 0; 0; 0]; [0; 0; 0; 0; 0; 0]; [0; 0; 5; 0; 0; 3]; [0; 0; 0; 5; 4; 0]; [0; 0; 0; 0; 6; 0]; [0; 6; 2; 0; 0; 1]].
Definition size8 : sudoku := of_rows 8 1
  [[5; 2; 8; 7; 0; 0; 1; 4]; [0; 0; 0; 0; 0; 0; 0; 0]; [0; 7; 0; 0; 5; 0; 8; 3]; [0; 0; 5; 0; 2; 0; 0; 0];
   [0; 0; 0; 0; 0; 0; 0; 1]; [4; 0; 1; 3; 0; 7; 2; 5]; [1; 4; 3; 2; 7; 0; 0; 8]; [8; 0; 7; 5; 1; 4; 0; 2]].
Definition size8f : grid := num (of_rows 8 1
  [[5; 2; 8; 7; 3; 6; 1; 4]; [2; 1; 6; 4; 8; 3; 5; 7]; [6; 7; 4; 1; 5; 2; 8; 3]; [7; 3; 5; 8; 2; 1; 4; 6];
   [3; 5; 2; 6; 4; 8; 7; 1]; [4; 8; 1; 3; 6; 7; 2; 5]; [1; 4; 3; 2; 7; 5; 6; 8]; [8; 6; 7; 5; 1; 4; 3; 2]]).
Definition ratings_used (s : sudoku) : list Z :=
  match solve (fuel_bound s) o_ex s with
  | Ok (l, _) => nodup Z.eq_dec (flat_map (fun st => match RATINGS (st_class st) with Ok k => [k] | Err _ => [] end) l)
  | Err _ => []
  end.
Example C121_ex : wf size4 /\ solution size4 size4f /\ ratings_used size4 = [0; 5; 10] /\
  wf size6 /\ solution size6 size6f /\ ratings_used size6 = [0; 6; 10] /\ ratings_used size6p = [0; 4; 10] /\
  wf size8 /\ solution size8 size8f /\ ratings_used size8 = [0; 7; 10].
Proof.
  split; [apply wfb_ok; vm_compute; reflexivity|]. split; [apply solutionb_ok; vm_compute; reflexivity|].
  split; [vm_compute; reflexivity|]. split; [apply wfb_ok; vm_compute; reflexivity|].
  split; [apply solutionb_ok; vm_compute; reflexivity|]. split; [vm_compute; reflexivity|]. split; [vm_compute; reflexivity|].
  split; [apply wfb_ok; vm_compute; reflexivity|]. split; [apply solutionb_ok; vm_compute; reflexivity|]. vm_compute; reflexivity.
Qed.
