(** Properties C43, C44: rate and score of analyze.py.  Statements use only the model functions and the
    specification files; the proofs are in the L*.v files. *)
From Verif Require Import LSolvers5 LCheck.

(** C43: rate of a solvable sudoku. *)
Theorem C43_rate : forall o s, oracle_ok o -> wf s -> (exists f, solution s f) ->
  exists r, (forall fuel, (fuel_bound s <= fuel)%nat -> rate fuel o s = Ok r) /\
    0 <= r <= 10 /\ (r = 0 <-> complete s).
Proof. exact C43_proof. Qed.
Print Assumptions C43_rate.

Definition o_id : oracle := mkOracle (fun _ _ l => l) (fun _ _ l => l).
Lemma o_id_ok : oracle_ok o_id.
Proof. split; intros; cbn; auto. Qed.
Example C43_ex : rate (fuel_bound ex4) o_id ex4 = Ok 1 /\ rate (fuel_bound ex4m) o_id ex4m = Ok 10.
Proof. split; vm_compute; reflexivity. Qed.

(** C44: what is true of score: never negative, 0 exactly for solved sudokus, and at most 10 * N per empty field.  Missing: the bound without the factor N, which is false. *)
Theorem C44_score_partial : forall o s e, oracle_ok o -> wf s -> (exists f, solution s f) ->
  NoDup e -> (forall p, In p e <-> field s p /\ num s p = 0) ->
  exists r, (forall fuel, (fuel_bound s <= fuel)%nat -> score fuel o s = Ok r) /\
    0 <= r <= 10 * (box_width s * box_height s) * Z.of_nat (length e) /\ (r = 0 <-> e = []).
Proof. exact C44_partial_proof. Qed.
Print Assumptions C44_score_partial.

Example C44_ex : oracle_ok o_id /\ wf ex4 /\ solution ex4 (num ex4sol) /\ score (fuel_bound ex4) o_id ex4 = Ok 12 /\
  score (fuel_bound ex4sol) o_id ex4sol = Ok 0.
Proof.
  split; [apply o_id_ok|]. split; [apply ex4_wf|]. split; [apply ex4_solution|]. split; vm_compute; reflexivity.
Qed.

(** C44: the bound of 10 per empty field is exceeded: 14 empty fields, score 142. *)
Definition tup4 : sudoku := of_rows 2 2 [[0;0;0;0];[0;0;0;0];[3;0;0;0];[4;0;0;0]].
Theorem C44_score_bound_refuted :
  exists o s e, oracle_ok o /\ wf s /\ (exists f, solution s f) /\ NoDup e /\
    (forall p, In p e <-> field s p /\ num s p = 0) /\
    forall fuel, (fuel_bound s <= fuel)%nat -> exists r, score fuel o s = Ok r /\ 10 * Z.of_nat (length e) < r.
Proof.
  assert (W : wf tup4) by (apply wfb_ok; vm_compute; reflexivity).
  assert (Ex : exists f, solution tup4 f).
  { exists (num (of_rows 2 2 [[1;3;2;4];[2;4;1;3];[3;1;4;2];[4;2;3;1]])). split.
    - apply valid_gridb_ok; vm_compute; reflexivity.
    - intros p Fp. apply in_cells in Fp.
      assert (H : forallb (fun p => (num tup4 p =? 0) || (num tup4 p =? num (of_rows 2 2 [[1;3;2;4];[2;4;1;3];[3;1;4;2];[4;2;3;1]]) p)) (cells 2 2) = true) by (vm_compute; reflexivity).
      rewrite forallb_forall in H. specialize (H p Fp). apply orb_prop in H. destruct H as [H|H]; b2p; auto. }
  set (e := filter (fun p => num tup4 p =? 0) (cells 2 2)).
  assert (Ne : NoDup e).
  { apply NoDup_filter. change (cells 2 2) with (coords tup4). apply NoDup_coords. }
  assert (He : forall p, In p e <-> field tup4 p /\ num tup4 p = 0).
  { intros p. unfold e. rewrite filter_In, in_cells, Z.eqb_eq. reflexivity. }
  exists o_id, tup4, e. splits; auto using o_id_ok.
  intros fuel Hf. destruct (C44_score_partial o_id tup4 e o_id_ok W Ex Ne He) as [r [R1 _]].
  exists r. split; auto. specialize (R1 (fuel_bound tup4) (le_n _)).
  assert (E : score (fuel_bound tup4) o_id tup4 = Ok 142) by (vm_compute; reflexivity).
  rewrite E in R1. injection R1 as <-. vm_compute. reflexivity.
Qed.
Print Assumptions C44_score_bound_refuted.
