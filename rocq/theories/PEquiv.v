(** Property C99: equivalent sudokus.  Statements use only the model functions and
    the specification files; the proofs are in the L*.v files. *)
From Verif Require Import LEquiv LCheck.

(** C99: the solutions of equivalent sudokus correspond to each other. *)
Theorem C99_solutions : forall fm fi nm ni s t f, equivalent fm fi nm ni s t ->
  (solution s f <-> solution t (fun q => nm (f (fi q)))).
Proof. exact C99_solutions_proof. Qed.
Print Assumptions C99_solutions.

(** C99: dlx yields the same number of solutions. *)
Theorem C99_dlx : forall fm fi nm ni s t ord ord', equivalent fm fi nm ni s t -> wf s -> wf t ->
  (forall p l, Permutation (ord p l) l) -> (forall p l, Permutation (ord' p l) l) ->
  length (gyields (dlx ord s) tt) = length (gyields (dlx ord' t) tt).
Proof. exact C99_dlx_proof. Qed.
Print Assumptions C99_dlx.

(** C99: is_unique gives the same answer. *)
Theorem C99_is_unique : forall fm fi nm ni s t ord ord', equivalent fm fi nm ni s t -> wf s -> wf t ->
  (forall p l, Permutation (ord p l) l) -> (forall p l, Permutation (ord' p l) l) ->
  is_unique ord s = is_unique ord' t.
Proof. exact C99_unique_proof. Qed.
Print Assumptions C99_is_unique.

(** C99: the calculated candidates correspond. *)
Theorem C99_candidates : forall fm fi nm ni s t p n, equivalent fm fi nm ni s t -> wf s -> wf t -> field s p ->
  exists l l', calc_candidates s (fst p) (snd p) = Ok l /\ calc_candidates t (fst (fm p)) (snd (fm p)) = Ok l' /\
    (In n l <-> In (nm n) l').
Proof. exact C99_candidates_proof. Qed.
Print Assumptions C99_candidates.

(** C99: so do the conflicts. *)
Theorem C99_conflicts : forall fm fi nm ni s t, equivalent fm fi nm ni s t -> wf s -> wf t ->
  exists l l', glist (find_conflicts s []) s = Ok l /\ glist (find_conflicts t []) t = Ok l' /\
    forall p q v, field s p -> field s q -> (In (p, q, v) l <-> In (fm p, fm q, nm v) l').
Proof. exact C99_conflicts_proof. Qed.
Print Assumptions C99_conflicts.

(** C99: is_solved gives the same answer. *)
Theorem C99_is_solved : forall fm fi nm ni s t, equivalent fm fi nm ni s t -> wf s -> wf t ->
  is_solved s = is_solved t.
Proof. exact C99_solved_proof. Qed.
Print Assumptions C99_is_solved.

(** The equivalences: renaming the numbers ... *)
Theorem C99_relabel : forall nm ni s t, box_size t = box_size s ->
  (forall v, ni (nm v) = v /\ nm (ni v) = v) -> nm 0 = 0 ->
  (forall v, 1 <= v <= box_width s * box_height s <-> 1 <= nm v <= box_width s * box_height s) ->
  (forall p, field s p -> num t p = nm (num s p)) ->
  equivalent (fun p => p) (fun p => p) nm ni s t.
Proof. exact C99_relabel_proof. Qed.
Print Assumptions C99_relabel.

(** ... exchanging rows and columns (and width and height of the boxes) ... *)
Theorem C99_transpose : forall s t, 1 <= box_width s -> 1 <= box_height s ->
  box_width t = box_height s -> box_height t = box_width s ->
  (forall p, field s p -> num t (transpose p) = num s p) ->
  equivalent transpose transpose (fun v => v) (fun v => v) s t.
Proof. exact C99_transpose_proof. Qed.
Print Assumptions C99_transpose.

(** ... and permuting rows and columns so that boxes stay together. *)
Theorem C99_lines : forall f g f' g' s t, box_size t = box_size s ->
  block_perm (box_width s * box_height s) (box_height s) f g ->
  block_perm (box_width s * box_height s) (box_width s) f' g' ->
  (forall r c, field s (r, c) -> num t (f r, f' c) = num s (r, c)) ->
  equivalent (fun p => (f (fst p), f' (snd p))) (fun p => (g (fst p), g' (snd p))) (fun v => v) (fun v => v) s t.
Proof. exact C99_lines_proof. Qed.
Print Assumptions C99_lines.

(** A 6x6 sudoku with boxes 3 wide and 2 high, and the transposed one with
    boxes 2 wide and 3 high. *)
Definition ex6g : sudoku := of_rows 3 2
  [[1; 2; 3; 0; 0; 0];
   [0; 0; 0; 0; 0; 0];
   [2; 0; 4; 5; 6; 1];
   [5; 6; 1; 2; 3; 4];
   [3; 4; 5; 6; 0; 2];
   [6; 1; 2; 3; 4; 5]].
Definition ex6t : sudoku := of_rows 2 3
  [[1; 0; 2; 5; 3; 6];
   [2; 0; 0; 6; 4; 1];
   [3; 0; 4; 1; 5; 2];
   [0; 0; 5; 2; 6; 3];
   [0; 0; 6; 3; 0; 4];
   [0; 0; 1; 4; 2; 5]].
(** The same with 1 and 2 exchanged, rows 0 and 1 exchanged. *)
Definition swap12 (v : Z) : Z := if v =? 1 then 2 else if v =? 2 then 1 else v.
Definition swap01 (v : Z) : Z := if v =? 0 then 1 else if v =? 1 then 0 else v.
Definition ex4r : sudoku := of_rows 2 2 [[0; 1; 0; 0]; [0; 0; 2; 0]; [0; 0; 4; 0]; [0; 3; 0; 0]].
Definition ex4s : sudoku := of_rows 2 2 [[0; 0; 1; 0]; [0; 2; 0; 0]; [0; 0; 4; 0]; [0; 3; 0; 0]].

Lemma by_cells : forall w h (f g : grid),
  forallb (fun p => f p =? g p) (cells w h) = true -> forall p, cell w h p -> f p = g p.
Proof. intros w h f g H p Hp. rewrite forallb_forall in H. apply Z.eqb_eq, H, in_cells; auto. Qed.

Example C99_ex_transpose : equivalent transpose transpose (fun v => v) (fun v => v) ex6g ex6t /\ wf ex6g /\ wf ex6t /\
  length (gyields (dlx (fun _ l => l) ex6t) tt) = 1%nat.
Proof.
  split; [|split; [apply wfb_ok; vm_compute; reflexivity|split;
    [apply wfb_ok; vm_compute; reflexivity | vm_compute; reflexivity]]].
  apply C99_transpose; [cbn; lia | cbn; lia | reflexivity | reflexivity |].
  apply (by_cells 3 2 (fun p => num ex6t (transpose p))). vm_compute. reflexivity.
Qed.

Example C99_ex_relabel : equivalent (fun p => p) (fun p => p) swap12 swap12 ex4 ex4r.
Proof.
  apply C99_relabel; [reflexivity | | reflexivity | |].
  - intros v. split; unfold swap12; destruct (v =? 1) eqn:E1; destruct (v =? 2) eqn:E2; b2p; subst; cbn; auto;
      rewrite ?(proj2 (Z.eqb_neq _ _)) by auto; auto.
  - intros v. unfold swap12. cbn. destruct (v =? 1) eqn:E1; destruct (v =? 2) eqn:E2; b2p; lia.
  - apply (by_cells 2 2 (num ex4r) (fun p => swap12 (num ex4 p))). vm_compute. reflexivity.
Qed.

Example C99_ex_lines : equivalent (fun p => (swap01 (fst p), snd p)) (fun p => (swap01 (fst p), snd p))
    (fun v => v) (fun v => v) ex4 ex4s.
Proof.
  assert (S : forall i, 0 <= i < 4 -> i = 0 \/ i = 1 \/ i = 2 \/ i = 3) by (intros; lia).
  apply (C99_lines swap01 swap01 (fun c => c) (fun c => c)); [reflexivity | | |].
  - unfold block_perm; cbn [box_width box_height ex4 of_rows]. split; [|split].
    + intros i Hi. destruct (S i Hi) as [->|[->|[->| ->]]]; cbn; lia.
    + intros i Hi. destruct (S i Hi) as [->|[->|[->| ->]]]; cbn; lia.
    + intros i j Hi Hj. destruct (S i Hi) as [->|[->|[->| ->]]]; destruct (S j Hj) as [->|[->|[->| ->]]]; cbn; lia.
  - unfold block_perm; split; [|split]; auto. tauto.
  - intros r c F. apply (by_cells 2 2 (fun p => num ex4s (swap01 (fst p), snd p)) (num ex4)) with (p := (r, c)); [vm_compute; reflexivity | exact F].
Qed.
