(** Property C124: solve() fills every empty field once, and what follows for score().  Statements use only the model functions and the
    specification files; the proofs are in the L*.v files. *)
From Verif Require Import LScore LUnique LCheck PSolvers PLevel PUnique.

(** C124: every empty field is filled by exactly one step, with the number it has in the end; no step fills another field. *)
Theorem C124_once : forall o fuel s f l u, oracle_ok o -> wf s -> solution s f -> solve fuel o s = Ok (l, u) ->
  (forall p, field s p -> num s p = 0 -> filled_once l p (num u p)) /\
  (forall st, In st l -> filling (st_class st) -> exists p, field s p /\ num s p = 0 /\ affected st = [p] /\ values st = [num u p]).
Proof. exact C124_once_proof. Qed.
Print Assumptions C124_once.

(** C124: so score() is at least the number [n] of empty fields; it is [n] exactly if singles suffice, and bounded by the rating, [n] and the size. *)
Theorem C124_score : forall o s f fuel fuel' r c e, oracle_ok o -> wf s -> solution s f -> rate fuel o s = Ok r -> score fuel' o s = Ok c ->
  NoDup e -> (forall p, In p e <-> field s p /\ num s p = 0) ->
  let n := Z.of_nat (length e) in
  n <= c <= (r + Z.min r 7 * (box_width s * box_height s - 1)) * n /\ (c = n <-> r <= 1) /\ (e <> [] -> n + r - 1 <= c).
Proof.
  intros o s f fuel fuel' r c e Ho W Hf Hr Hc Nd He n. destruct (C124_score_proof o s f fuel fuel' r c e Ho W Hf Hr Hc Nd He) as [A [B C]].
  split; [exact A|]. split; [|exact C]. split; [|exact B]. intros E. destruct e as [|p e].
  - destruct (Z_le_gt_dec r 1) as [|G]; auto. exfalso.
    assert (X : exists t, init_candidates s false = Ok t) by (destruct (init_candidates_ok s false W) as [t [Et _]]; eauto). destruct X as [t Et].
    destruct (C117_rate_level o fuel s t f r Ho W Hf Et Hr) as [_ L].
    assert (S0 : solvable_with 0 t).
    { exists t. split; [constructor|]. destruct (start_cand s t W Et) as [_ [Ew [Eh [Nt _]]]].
      intros q Fq Z0. apply (He q). rewrite Nt in Z0. split; auto. unfold field in *. rewrite Ew, Eh in Fq. exact Fq. }
    apply L in S0; lia.
  - specialize (C ltac:(discriminate)). fold n in C. lia.
Qed.
Print Assumptions C124_score.

(** A sudoku with 26 empty fields, solved with singles and a pair. *)
Definition mono6 : sudoku := of_rows 3 2
  [[0; 0; 6; 0; 3; 0]; [2; 0; 0; 0; 0; 0]; [0; 0; 0; 0; 0; 0]; [1; 4; 0; 0; 6; 5]; [0; 0; 0; 0; 0; 6]; [0; 0; 0; 1; 4; 0]].
(** The same with one number more. *)
Definition mono6b : sudoku := of_rows 3 2
  [[0; 0; 6; 0; 3; 0]; [2; 0; 0; 0; 0; 0]; [0; 0; 0; 0; 0; 0]; [1; 4; 0; 0; 6; 5]; [0; 0; 0; 0; 0; 6]; [0; 0; 0; 1; 4; 3]].
Definition mono6sol : sudoku := of_rows 3 2
  [[4; 5; 6; 2; 3; 1]; [2; 3; 1; 6; 5; 4]; [5; 6; 3; 4; 1; 2]; [1; 4; 2; 3; 6; 5]; [3; 1; 4; 5; 2; 6]; [6; 2; 5; 1; 4; 3]].
Example C124_ex : wf mono6 /\ solution mono6 (num mono6sol) /\ rate 60 o_ex mono6 = Ok 2 /\ score 60 o_ex mono6 = Ok 28 /\ count mono6 = Ok 10.
Proof.
  split; [apply wfb_ok; vm_compute; reflexivity|]. split; [apply solutionb_ok; vm_compute; reflexivity|].
  split; [vm_compute; reflexivity|]. split; vm_compute; reflexivity.
Qed.

(** C124: unlike the rating (C119), the score may rise if a number is filled in. *)
Theorem C124_monotone_refuted : exists o fuel s s' f a b, oracle_ok o /\ wf s /\ wf s' /\ solution s f /\ solution s' f /\ unique_solution s /\
  box_size s' = box_size s /\ (forall p, field s p -> num s p <> 0 -> num s' p = num s p) /\ score fuel o s = Ok a /\ score fuel o s' = Ok b /\ a < b.
Proof.
  assert (W : wf mono6) by (apply wfb_ok; vm_compute; reflexivity).
  assert (Hf : solution mono6 (num mono6sol)) by (apply solutionb_ok; vm_compute; reflexivity).
  exists o_ex, 60%nat, mono6, mono6b, (num mono6sol), 28, 31. split; [exact o_ex_ok|]. split; [exact W|].
  split; [apply wfb_ok; vm_compute; reflexivity|]. split; [exact Hf|]. split; [apply solutionb_ok; vm_compute; reflexivity|].
  split; [apply (C122_unique o_ex 60 mono6 (num mono6sol) 2 o_ex_ok W Hf); [vm_compute; reflexivity|lia]|].
  split; [reflexivity|]. split; [|split; [vm_compute; reflexivity|split; [vm_compute; reflexivity|lia]]].
  assert (X : forallb (fun p => if num mono6 p =? 0 then true else num mono6b p =? num mono6 p) (cells 3 2) = true) by (vm_compute; reflexivity).
  rewrite forallb_forall in X. intros p Fp Np. apply in_cells in Fp. specialize (X p Fp). cbv beta in X.
  apply Z.eqb_neq in Np. rewrite Np in X. apply Z.eqb_eq. exact X.
Qed.
Print Assumptions C124_monotone_refuted.
