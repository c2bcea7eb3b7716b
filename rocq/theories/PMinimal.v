(** C128: puzzles in which every number is needed. *)
From Verif Require Import LMinimal LCheck.
From Verif Require PDlx PGenerate.

(** C128: what generate() without symmetry returns. *)
Theorem C128_generate : forall o m w h s, 1 <= w -> 1 <= h -> generate_admissible o -> generate o m SymNone (w, h) = Ok s ->
  count s = Ok m \/ irreducible s.
Proof. exact C128_generate_proof. Qed.
Print Assumptions C128_generate.

(** C128: an emptied field has at least two candidates: its number is no naked single. *)
Theorem C128_naked : forall s, wf s -> irreducible s -> forall p t, field s p -> num s p <> 0 -> setitem s (fst p) (snd p) 0 = Ok t ->
  exists l, calc_candidates t (fst p) (snd p) = Ok l /\ (2 <= length l)%nat.
Proof. exact C128_naked_proof. Qed.
Print Assumptions C128_naked.

(** C128: in each of its units there is another place for it: it is no hidden single. *)
Theorem C128_hidden : forall s, wf s -> irreducible s -> forall p t, field s p -> num s p <> 0 -> setitem s (fst p) (snd p) 0 = Ok t ->
  forall k, exists q l, unit_at s k p q /\ q <> p /\ num s q = 0 /\ calc_candidates t (fst q) (snd q) = Ok l /\ In (num s p) l.
Proof. exact C128_hidden_proof. Qed.
Print Assumptions C128_hidden.

(** C128: no full row, column or box, no number that occurs N times, at most N (N - 1) numbers. *)
Theorem C128_roomy : forall s, wf s -> irreducible s -> roomy s.
Proof. exact C128_roomy_proof. Qed.
Print Assumptions C128_roomy.

Theorem C128_bound : forall o m w h s, 1 <= w -> 1 <= h -> generate_admissible o -> generate o m SymNone (w, h) = Ok s ->
  exists n, count s = Ok n /\ m <= n <= Z.max m (w * h * (w * h - 1)).
Proof. exact C128_bound_proof. Qed.
Print Assumptions C128_bound.

Definition min4 : sudoku := Eval vm_compute in match generate PGenerate.go_ex 0 SymNone (2, 2) with Ok s => s | Err _ => new_sudoku (2, 2) end.
Lemma min4_run : generate PGenerate.go_ex 0 SymNone (2, 2) = Ok min4.
Proof. vm_compute. reflexivity. Qed.
Example C128_ex : irreducible min4 /\ count min4 <> Ok 0.
Proof.
  assert (C : count min4 <> Ok 0) by (vm_compute; discriminate). split; auto.
  destruct (C128_generate PGenerate.go_ex 0 2 2 min4 ltac:(lia) ltac:(lia) PGenerate.go_ex_ok min4_run); auto. contradiction.
Qed.
Example C128_ex_count : exists s, generate PGenerate.go_ex 9 SymNone (2, 2) = Ok s /\ count s = Ok 9.
Proof. eexists. split; [> vm_compute; reflexivity ..]. Qed.

(** With a symmetry single numbers need not be needed. *)
Definition pair2 : sudoku := Eval vm_compute in match generate PGenerate.go_ex 0 SymRotate180 (1, 2) with Ok s => s | Err _ => new_sudoku (1, 2) end.
Theorem C128_symmetry_refuted : generate_admissible PGenerate.go_ex /\ generate PGenerate.go_ex 0 SymRotate180 (1, 2) = Ok pair2 /\
  count pair2 = Ok 2 /\ ~ irreducible pair2.
Proof.
  split; [apply PGenerate.go_ex_ok|]. split; [vm_compute; reflexivity|]. split; [vm_compute; reflexivity|]. intros [_ I].
  set (p := if num pair2 (0, 0) =? 0 then (0, 1) else (0, 0)).
  assert (Fp : field pair2 p) by (vm_compute; intuition congruence). assert (Np : num pair2 p <> 0) by (vm_compute; discriminate).
  destruct (setitem pair2 (fst p) (snd p) 0) as [t|e] eqn:E; [|vm_compute in E; discriminate]. apply (I p t Fp Np E).
  vm_compute in E. injection E as <-.
  match goal with |- unique_solution ?x => set (t := x) end.
  assert (Wt : wf t) by (apply wfb_ok; vm_compute; reflexivity).
  destruct (C27_proof PDlx.some_order t PDlx.some_order_ok Wt) as [b [Eb Hb]]. apply Hb. vm_compute in Eb. congruence.
Qed.
Print Assumptions C128_symmetry_refuted.
