(** Property C120: sudokus that look alike are rated alike.  Statements use only the model functions and the specification files; the
    proofs are in the L*.v files. *)
From Verif Require Import LLevel5 LCheck PSolvers.

(** C120: moving the fields so that units stay units, and renaming the numbers, does not change the rating. *)
Theorem C120_rate : forall fm fi nm ni s t f o o' fuel fuel' r r', alike fm fi nm ni s t -> wf s -> wf t -> solution s f -> oracle_ok o -> oracle_ok o' ->
  rate fuel o s = Ok r -> rate fuel' o' t = Ok r' -> r' = r.
Proof. exact C120_proof. Qed.
Print Assumptions C120_rate.

(** Renaming the numbers ... *)
Theorem C120_relabel : forall nm ni s t, box_size t = box_size s ->
  (forall v, ni (nm v) = v /\ nm (ni v) = v) -> nm 0 = 0 ->
  (forall v, 1 <= v <= box_width s * box_height s <-> 1 <= nm v <= box_width s * box_height s) ->
  (forall p, field s p -> num t p = nm (num s p)) ->
  alike (fun p => p) (fun p => p) nm ni s t.
Proof. exact C120_relabel_proof. Qed.
Print Assumptions C120_relabel.

(** ... exchanging rows and columns (and width and height of the boxes) ... *)
Theorem C120_transpose : forall s t, 1 <= box_width s -> 1 <= box_height s ->
  box_width t = box_height s -> box_height t = box_width s ->
  (forall p, field s p -> num t (transpose p) = num s p) ->
  alike transpose transpose (fun v => v) (fun v => v) s t.
Proof. exact C120_transpose_proof. Qed.
Print Assumptions C120_transpose.

(** ... and permuting rows and columns so that boxes stay together. *)
Theorem C120_lines : forall f g f' g' s t, box_size t = box_size s ->
  block_perm (box_width s * box_height s) (box_height s) f g ->
  block_perm (box_width s * box_height s) (box_width s) f' g' ->
  (forall r c, field s (r, c) -> num t (f r, f' c) = num s (r, c)) ->
  alike (fun p => (f (fst p), f' (snd p))) (fun p => (g (fst p), g' (snd p))) (fun v => v) (fun v => v) s t.
Proof. exact C120_lines_proof. Qed.
Print Assumptions C120_lines.

(** A sudoku and the one with rows and columns exchanged: the same rating, but score() counts other steps. *)
Definition sym6 : sudoku := of_rows 3 2
  [[3; 6; 1; 0; 0; 0];
   [5; 0; 0; 0; 3; 1];
   [0; 0; 0; 0; 6; 5];
   [0; 5; 6; 0; 0; 0];
   [0; 0; 0; 2; 0; 0];
   [0; 0; 0; 4; 0; 0]].
Definition sym6t : sudoku := of_rows 2 3
  [[3; 5; 0; 0; 0; 0];
   [6; 0; 0; 5; 0; 0];
   [1; 0; 0; 6; 0; 0];
   [0; 0; 0; 0; 2; 4];
   [0; 3; 6; 0; 0; 0];
   [0; 1; 5; 0; 0; 0]].
Definition sym6sol : sudoku := of_rows 3 2
  [[3; 6; 1; 5; 2; 4]; [5; 2; 4; 6; 3; 1]; [2; 4; 3; 1; 6; 5]; [1; 5; 6; 3; 4; 2]; [4; 3; 5; 2; 1; 6]; [6; 1; 2; 4; 5; 3]].
Lemma sym6_ok : wf sym6 /\ wf sym6t /\ solution sym6 (num sym6sol) /\ alike transpose transpose (fun v => v) (fun v => v) sym6 sym6t.
Proof.
  split; [apply wfb_ok; vm_compute; reflexivity|]. split; [apply wfb_ok; vm_compute; reflexivity|]. split; [apply solutionb_ok; vm_compute; reflexivity|].
  apply C120_transpose; try reflexivity; try (vm_compute; discriminate).
  intros [r c] Fp. unfold field, cell in Fp. change (box_width sym6) with 3 in Fp. change (box_height sym6) with 2 in Fp. cbn [fst snd] in Fp.
  assert (r = 0 \/ r = 1 \/ r = 2 \/ r = 3 \/ r = 4 \/ r = 5) by lia. assert (c = 0 \/ c = 1 \/ c = 2 \/ c = 3 \/ c = 4 \/ c = 5) by lia. clear Fp.
  destruct H as [-> |[-> |[-> |[-> |[-> | ->]]]]], H0 as [-> |[-> |[-> |[-> |[-> | ->]]]]]; reflexivity.
Qed.
Theorem C120_score_refuted : exists fm fi nm ni s t f o fuel a b, alike fm fi nm ni s t /\ wf s /\ wf t /\ solution s f /\ oracle_ok o /\
  score fuel o s = Ok a /\ score fuel o t = Ok b /\ a <> b.
Proof.
  destruct sym6_ok as [W [Wt [Hf A]]].
  exists transpose, transpose, (fun v => v), (fun v => v), sym6, sym6t, (num sym6sol), o_ex, 40%nat, 199, 201.
  split; [exact A|]. split; [exact W|]. split; [exact Wt|]. split; [exact Hf|]. split; [exact o_ex_ok|].
  split; [vm_compute; reflexivity|]. split; [vm_compute; reflexivity|]. discriminate.
Qed.
Print Assumptions C120_score_refuted.

(** Both are rated 10. *)
Example C120_ex : rate 40 o_ex sym6 = Ok 10 /\ rate 40 o_ex sym6t = Ok 10.
Proof. split; vm_compute; reflexivity. Qed.
