(** Boolean versions of the predicates of Spec.v, used only to show that
    concrete sudokus meet the hypotheses of the theorems (by computation), and
    the sample sudokus of these examples. *)
From Verif Require Export LSolve.

Fixpoint sortedb (l : list Z) : bool :=
  match l with
  | [] => true
  | x :: t => forallb (fun y => x <? y) t && sortedb t
  end.

Lemma sortedb_ok : forall l, sortedb l = true -> StronglySorted Z.lt l.
Proof.
  induction l as [|x l IH]; simpl; intros H; [constructor|].
  apply andb_prop in H; destruct H as [H1 H2]. constructor; [auto|].
  apply Forall_forall. intros y Hy. rewrite forallb_forall in H1. apply Z.ltb_lt, H1; auto.
Qed.

Definition wfb (s : sudoku) : bool :=
  let n := Z.to_nat (box_width s * box_height s) in
  (1 <=? box_width s) && (1 <=? box_height s) &&
  Nat.eqb (length (s_numbers s)) n &&
  forallb (fun row => Nat.eqb (length row) n) (s_numbers s) &&
  Nat.eqb (length (s_candidates s)) n &&
  forallb (fun row => Nat.eqb (length row) n && forallb sortedb row) (s_candidates s).

Lemma wfb_ok : forall s, wfb s = true -> wf s.
Proof.
  intros s H; unfold wfb in H. repeat (apply andb_prop in H; destruct H as [H ?]).
  constructor.
  - apply Z.leb_le; auto.
  - apply Z.leb_le; auto.
  - apply Nat.eqb_eq; auto.
  - intros row Hr. rewrite forallb_forall in *. apply Nat.eqb_eq; auto.
  - apply Nat.eqb_eq; auto.
  - intros row Hr. rewrite forallb_forall in *. apply H0 in Hr. apply andb_prop in Hr.
    apply Nat.eqb_eq; tauto.
  - intros row c Hr Hc. rewrite forallb_forall in *. apply H0 in Hr. apply andb_prop in Hr.
    destruct Hr as [_ Hr]. rewrite forallb_forall in Hr. apply sortedb_ok; auto.
Qed.

(** A sudoku from its rows of numbers. *)
Definition of_rows (w h : Z) (rows : list (list Z)) : sudoku :=
  {| box_width := w; box_height := h; s_numbers := rows;
     s_candidates := map (fun r => map (fun _ => []) r) rows |}.

(** All fields of a w x h sudoku. *)
Definition cells (w h : Z) : list coord := list_prod (py_range (w * h)) (py_range (w * h)).

Lemma in_cells : forall w h p, In p (cells w h) <-> cell w h p.
Proof.
  intros w h [r c]; unfold cells, cell, coord; rewrite in_prod_iff, !in_py_range; simpl; tauto.
Qed.

Definition peersb (w h : Z) (p q : coord) : bool :=
  negb (coord_eqb p q) &&
  ((fst p =? fst q) || (snd p =? snd q) || ((fst p / h =? fst q / h) && (snd p / w =? snd q / w))).

Lemma peersb_ok : forall w h p q, peersb w h p q = true <-> peers w h p q.
Proof.
  intros w h p q; unfold peersb, peers, same_row, same_col, same_box.
  rewrite andb_true_iff, negb_true_iff, coord_eqb_neq, !orb_true_iff, andb_true_iff, !Z.eqb_eq. tauto.
Qed.

Definition valid_gridb (w h : Z) (f : grid) : bool :=
  forallb (fun p => (1 <=? f p) && (f p <=? w * h) &&
    forallb (fun q => negb (peersb w h p q) || negb (f p =? f q)) (cells w h)) (cells w h).

Lemma valid_gridb_ok : forall w h f, valid_gridb w h f = true <-> valid_grid w h f.
Proof.
  intros w h f; unfold valid_gridb. rewrite forallb_forall. split.
  - intros H; split.
    + intros p F. specialize (H p (proj2 (in_cells _ _ _) F)). b2p. lia.
    + intros p q Fp Fq P. specialize (H p (proj2 (in_cells _ _ _) Fp)).
      apply andb_prop in H; destruct H as [_ H]. rewrite forallb_forall in H.
      specialize (H q (proj2 (in_cells _ _ _) Fq)). apply peersb_ok in P. rewrite P in H.
      simpl in H. apply negb_true_iff, Z.eqb_neq in H. auto.
  - intros [V1 V2] p Hp. apply in_cells in Hp. specialize (V1 p Hp).
    rewrite !andb_true_iff; splits; try (apply Z.leb_le; lia).
    apply forallb_forall. intros q Hq. apply in_cells in Hq.
    destruct (peersb w h p q) eqn:E; simpl; auto. apply peersb_ok in E.
    apply negb_true_iff, Z.eqb_neq, V2; auto.
Qed.

Definition extendsb (s : sudoku) (f : grid) : bool :=
  forallb (fun p => (num s p =? 0) || (num s p =? f p)) (cells (box_width s) (box_height s)).

Lemma extendsb_ok : forall s f, extendsb s f = true <-> extends s f.
Proof.
  intros s f; unfold extendsb, extends. rewrite forallb_forall; split.
  - intros H p F. specialize (H p (proj2 (in_cells _ _ _) F)). rewrite orb_true_iff, !Z.eqb_eq in H; auto.
  - intros H p Hp. apply in_cells in Hp. rewrite orb_true_iff, !Z.eqb_eq. apply H; auto.
Qed.

Definition solutionb (s : sudoku) (f : grid) : bool :=
  valid_gridb (box_width s) (box_height s) f && extendsb s f.

Lemma solutionb_ok : forall s f, solutionb s f = true <-> solution s f.
Proof.
  intros s f; unfold solutionb, solution. rewrite andb_true_iff, valid_gridb_ok, extendsb_ok; tauto.
Qed.

Definition in_rangeb (s : sudoku) : bool :=
  forallb (fun p => (0 <=? num s p) && (num s p <=? box_width s * box_height s))
          (cells (box_width s) (box_height s)).

Lemma in_rangeb_ok : forall s, in_rangeb s = true <-> in_range s.
Proof.
  intros s; unfold in_rangeb, in_range. rewrite forallb_forall; split.
  - intros H p F. specialize (H p (proj2 (in_cells _ _ _) F)). b2p; lia.
  - intros H p Hp. apply in_cells in Hp. specialize (H p Hp). b2p; lia.
Qed.

(** * Samples *)

(** 4x4, boxes 2x2: one solution. *)
Definition ex4 : sudoku := of_rows 2 2
  [[0; 2; 0; 0];
   [0; 0; 1; 0];
   [0; 0; 4; 0];
   [0; 3; 0; 0]].
(** its solution *)
Definition ex4sol : sudoku := of_rows 2 2
  [[1; 2; 3; 4];
   [3; 4; 1; 2];
   [2; 1; 4; 3];
   [4; 3; 2; 1]].
(** six solutions *)
Definition ex4m : sudoku := of_rows 2 2
  [[1; 0; 0; 0];
   [0; 0; 0; 2];
   [0; 1; 0; 0];
   [0; 0; 0; 0]].
(** a conflict in the first column *)
Definition ex4c : sudoku := of_rows 2 2
  [[1; 0; 0; 0];
   [0; 0; 0; 2];
   [1; 0; 0; 0];
   [0; 0; 0; 0]].
(** 6x6, boxes 3 wide and 2 high, solved *)
Definition ex6 : sudoku := of_rows 3 2
  [[1; 2; 3; 4; 5; 6];
   [4; 5; 6; 1; 2; 3];
   [2; 3; 4; 5; 6; 1];
   [5; 6; 1; 2; 3; 4];
   [3; 4; 5; 6; 1; 2];
   [6; 1; 2; 3; 4; 5]].

Lemma ex4_wf : wf ex4. Proof. apply wfb_ok; vm_compute; reflexivity. Qed.
Lemma ex4sol_wf : wf ex4sol. Proof. apply wfb_ok; vm_compute; reflexivity. Qed.
Lemma ex4m_wf : wf ex4m. Proof. apply wfb_ok; vm_compute; reflexivity. Qed.
Lemma ex4c_wf : wf ex4c. Proof. apply wfb_ok; vm_compute; reflexivity. Qed.
Lemma ex6_wf : wf ex6. Proof. apply wfb_ok; vm_compute; reflexivity. Qed.
Lemma ex4_solution : solution ex4 (num ex4sol).
Proof. apply solutionb_ok; vm_compute; reflexivity. Qed.
Lemma ex6_solution : solution ex6 (num ex6).
Proof. apply solutionb_ok; vm_compute; reflexivity. Qed.
