(** C127: which puzzles are too poor in numbers for a unique solution. *)
From Verif Require Import LClues LCheck.
From Verif Require PGenerate PDlx.

(** C127: a symmetry of the puzzle is a symmetry of its solution. *)
Theorem C127_symmetry : forall fm fi nm ni s f p, unique_solution s -> solution s f -> equivalent fm fi nm ni s s -> field s p -> f (fm p) = nm (f p).
Proof. exact C127_symmetry_proof. Qed.
Print Assumptions C127_symmetry.

(** C127: at most one number may be absent. *)
Theorem C127_numbers : forall s a b, wf s -> unique_solution s -> 1 <= a <= box_width s * box_height s -> 1 <= b <= box_width s * box_height s -> a <> b ->
  exists p, field s p /\ (num s p = a \/ num s p = b).
Proof. exact C127_numbers_proof. Qed.
Print Assumptions C127_numbers.

(** C127: enough numbers, no two empty rows in a band, columns in a stack, bands or stacks. *)
Theorem C127_poor : forall s, wf s -> unique_solution s -> ~ poor s.
Proof. exact C127_poor_proof. Qed.
Print Assumptions C127_poor.

Theorem C127_is_unique : forall ord s, (forall p l, Permutation (ord p l) l) -> wf s -> poor s -> is_unique ord s = Ok false.
Proof. exact C127_is_unique_proof. Qed.
Print Assumptions C127_is_unique.

(** C127: no random solution helps a poor template; without a bound for the tries the call never ends. *)
Theorem C127_template : forall fuel o template tries, wf template -> poor template ->
  (forall t, create_admissible (fst (o t)) /\ (forall p l, Permutation (snd (o t) p l) l)) ->
  (0 <= tries <= Z.of_nat fuel -> generate_from_template fuel o template tries = Err RuntimeError) /\
  (tries < 0 -> generate_from_template fuel o template tries = Err OutOfFuel).
Proof. exact C127_template_proof. Qed.
Print Assumptions C127_template.

Theorem C127_generate : forall o min_count y w h s, 1 <= w -> 1 <= h -> generate_admissible o -> min_count <= w ^ 2 * h ^ 2 -> y <> SymOther ->
  generate o min_count y (w, h) = Ok s -> ~ poor s /\ exists n, count s = Ok n /\ w * h - 1 <= n.
Proof. exact C127_generate_proof. Qed.
Print Assumptions C127_generate.

(** Half of the fields, but the whole upper band is empty. *)
Definition half4 : sudoku := of_rows 2 2 [[0; 0; 0; 0]; [0; 0; 0; 0]; [2; 1; 4; 3]; [4; 3; 2; 1]].
Lemma half4_ok : wf half4.
Proof. apply wfb_ok. vm_compute. reflexivity. Qed.
Example C127_ex_rows : poor half4.
Proof.
  apply (poor_rows half4 0 1); try (vm_compute; intuition congruence); try (intros E; discriminate E).
  - intros c [_ F]. cbn [snd] in F. assert (c = 0 \/ c = 1 \/ c = 2 \/ c = 3) by (change (box_width half4 * box_height half4) with 4 in F; lia).
    destruct H as [->|[->|[->| ->]]]; reflexivity.
  - intros c [_ F]. cbn [snd] in F. assert (c = 0 \/ c = 1 \/ c = 2 \/ c = 3) by (change (box_width half4 * box_height half4) with 4 in F; lia).
    destruct H as [->|[->|[->| ->]]]; reflexivity.
Qed.
Example C127_ex_unique : is_unique PDlx.some_order half4 = Ok false /\ is_unique PDlx.some_order ex4 = Ok true.
Proof. split; vm_compute; reflexivity. Qed.
Example C127_ex_template : forall tries, 0 <= tries <= 1000000 ->
  forall fuel, 1000000 <= Z.of_nat fuel -> generate_from_template fuel (fun _ => (PGenerate.co_ex, fun _ l => l)) half4 tries = Err RuntimeError.
Proof.
  intros tries H fuel Hf. apply (C127_template fuel _ half4 tries half4_ok C127_ex_rows); [|lia].
  intros t. split; [apply PGenerate.co_ex_ok|]. intros p l. apply Permutation_refl.
Qed.
(** One number fixes the sudoku of size 2: N - 1 is sharp there. *)
Definition one2 : sudoku := of_rows 1 2 [[1; 0]; [0; 0]].
Example C127_ex_sharp : wf one2 /\ is_unique PDlx.some_order one2 = Ok true /\ count one2 = Ok (box_width one2 * box_height one2 - 1).
Proof. splits; [apply wfb_ok| |]; vm_compute; reflexivity. Qed.
