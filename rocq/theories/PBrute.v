(** Properties C18-C21 and C26: bruteforce.  Statements use only the model functions and Spec.v; the
    proofs are in the L*.v files. *)
From Verif Require Import LBrute.

(** [ord t l] is the order in which the candidate set [l] is iterated over
    when the working sudoku is [t]: any permutation. *)
Definition rev_order (t : sudoku) (l : list Z) : list Z := rev l.
Lemma rev_order_ok : forall t l, Permutation (rev_order t l) l.
Proof. intros t l; unfold rev_order; symmetry; apply Permutation_rev. Qed.

(** C18: every sudoku yielded by bruteforce is complete, free of conflicts and extends s. *)
Theorem C18_bruteforce_sound : forall ord s, (forall t l, Permutation (ord t l) l) -> wf s ->
  forall y, In y (gyields (bruteforce ord s) tt) ->
    wf y /\ box_size y = box_size s /\ complete y /\ conflict_free y /\ extends s (num y) /\
    (forall p, field s p -> num s p = 0 -> 1 <= num y p <= box_width s * box_height s) /\
    (forall p, field s p -> cand y p = []).
Proof. exact C18_proof. Qed.
Print Assumptions C18_bruteforce_sound.

(** also with a number that is too large *)
Example C18_ex : wf ex4 /\ In ex4sol (gyields (bruteforce rev_order ex4) tt) /\
  map s_numbers (gyields (bruteforce rev_order (of_rows 1 2 [[7; 0]; [0; 0]])) tt) = [[[7; 2]; [2; 1]]; [[7; 1]; [1; 2]]].
Proof. split; [apply ex4_wf|]. split; vm_compute; auto. Qed.

(** C19: bruteforce ends normally and yields every completion exactly once. *)
Theorem C19_bruteforce_complete : forall ord s, (forall t l, Permutation (ord t l) l) -> wf s ->
  gresult (bruteforce ord s) tt = Ok tt /\
  enumerates s (completion s) (gyields (bruteforce ord s) tt).
Proof. exact C19_proof. Qed.
Print Assumptions C19_bruteforce_complete.

Example C19_ex : wf ex4m /\ length (gyields (bruteforce rev_order ex4m) tt) = 6%nat /\
  wf ex4 /\ map s_numbers (gyields (bruteforce rev_order ex4) tt) = [s_numbers ex4sol].
Proof. split; [apply ex4m_wf|]. split; [vm_compute; reflexivity|].
  split; [apply ex4_wf | vm_compute; reflexivity]. Qed.

(** C20: with a conflict bruteforce yields nothing. *)
Theorem C20_bruteforce_conflict : forall ord s, (forall t l, Permutation (ord t l) l) -> wf s ->
  ~ conflict_free s -> bruteforce ord s = Ret tt.
Proof. exact C20_proof. Qed.
Print Assumptions C20_bruteforce_conflict.

Example C20_ex : wf ex4c /\ ~ conflict_free ex4c.
Proof. split; [apply ex4c_wf|]. intros H. specialize (H (0, 0) (2, 0)).
  apply H; vm_compute; intuition congruence. Qed.

(** C21: the in-place search leaves the working sudoku exactly as it was. *)
Theorem C21_bruteforce_restores : forall ord s fuel, (forall t l, Permutation (ord t l) l) -> wf s -> conflict_free s ->
  (forall r c, field s (r, c) -> num s (r, c) = 0 -> get_candidates s r c = calc_candidates s r c) ->
  (length (coords s) < fuel)%nat ->
  gresult (do_bruteforce fuel ord s) tt = Ok s /\
  enumerates s (completion s) (gyields (do_bruteforce fuel ord s) tt).
Proof. exact C21_proof. Qed.
Print Assumptions C21_bruteforce_restores.

Example C21_ex : exists s, init_candidates ex4m false = Ok s /\
  gresult (do_bruteforce 17 rev_order s) tt = Ok s /\ get_candidates s 0 0 <> Ok [].
Proof. eexists; split; [vm_compute; reflexivity|]. split; [vm_compute; reflexivity|]. vm_compute; discriminate. Qed.

(** C26: dlx and bruteforce enumerate the same grids. *)
Theorem C26_same_solutions : forall ord ord' s,
  (forall p l, Permutation (ord p l) l) -> (forall t l, Permutation (ord' t l) l) ->
  wf s -> in_range s ->
  enumerates s (solution s) (gyields (dlx ord s) tt) /\
  enumerates s (solution s) (gyields (bruteforce ord' s) tt) /\
  length (gyields (dlx ord s) tt) = length (gyields (bruteforce ord' s) tt).
Proof. exact C26_proof. Qed.
Print Assumptions C26_same_solutions.

Example C26_ex : wf ex4m /\ in_range ex4m.
Proof. split; [apply ex4m_wf | apply in_rangeb_ok; vm_compute; reflexivity]. Qed.

(** The range hypothesis of C26 is needed. *)
Theorem C26_range_needed_refuted : exists s, wf s /\
  forall ord ord', (forall p l, Permutation (ord p l) l) -> (forall t l, Permutation (ord' t l) l) ->
  gyields (dlx ord s) tt = [] /\ gyields (bruteforce ord' s) tt = [s].
Proof. exact C26_refuted_proof. Qed.
Print Assumptions C26_range_needed_refuted.
