(** Properties C22-C25 and C27: dlx and is_unique.  Statements use only the model functions and Spec.v; the
    proofs are in the L*.v files. *)
From Verif Require Import LDlx3.

(** [ord p l] is the order in which the set [l] of rows is iterated over when
    the rows [p] have been chosen: any permutation. *)
Definition some_order (p l : list xrow) : list xrow := rev l.
Lemma some_order_ok : forall p l, Permutation (some_order p l) l.
Proof. intros p l; unfold some_order; symmetry; apply Permutation_rev. Qed.

(** C22: every sudoku yielded by dlx is a solution. *)
Theorem C22_dlx_sound : forall ord s, (forall p l, Permutation (ord p l) l) -> wf s ->
  forall y, In y (gyields (dlx ord s) tt) ->
    wf y /\ box_size y = box_size s /\
    latin (box_width s) (box_height s) (num y) /\ extends s (num y) /\
    (forall p, field s p -> cand y p = []).
Proof. exact C22_proof. Qed.
Print Assumptions C22_dlx_sound.

Example C22_ex : wf ex4 /\ In ex4sol (gyields (dlx some_order ex4) tt).
Proof. split; [apply ex4_wf|]. vm_compute; auto. Qed.

(** C23: dlx ends normally and yields every solution exactly once. *)
Theorem C23_dlx_complete : forall ord s, (forall p l, Permutation (ord p l) l) -> wf s ->
  gresult (dlx ord s) tt = Ok tt /\
  enumerates s (solution s) (gyields (dlx ord s) tt).
Proof. exact C23_proof. Qed.
Print Assumptions C23_dlx_complete.

Example C23_ex : wf ex4m /\ length (gyields (dlx some_order ex4m) tt) = 6%nat /\
  wf ex4 /\ map s_numbers (gyields (dlx some_order ex4) tt) = [s_numbers ex4sol].
Proof. split; [apply ex4m_wf|]. split; [vm_compute; reflexivity|].
  split; [apply ex4_wf | vm_compute; reflexivity]. Qed.

(** C24: conflicting or out of range numbers give no solutions (and no error). *)
Theorem C24_dlx_invalid : forall ord s, (forall p l, Permutation (ord p l) l) -> wf s ->
  ~ (conflict_free s /\ in_range s) ->
  gyields (dlx ord s) tt = [] /\ gresult (dlx ord s) tt = Ok tt.
Proof. exact C24_proof. Qed.
Print Assumptions C24_dlx_invalid.

Example C24_ex : wf ex4c /\ ~ (conflict_free ex4c /\ in_range ex4c).
Proof. split; [apply ex4c_wf|]. intros [H _]. specialize (H (0, 0) (2, 0)).
  apply H; try (vm_compute; intuition congruence). Qed.

(** C25: deselect undoes select. *)
Theorem C25_undo : forall w h X r cols X1, 1 <= w -> 1 <= h -> reachable_X w h X ->
  select X (build_Y h w) r = Ok (cols, X1) ->
  exists X2, deselect X1 (build_Y h w) r cols = Ok X2 /\
    forall k, dget xkey_eqb X2 k = dget xkey_eqb X k.
Proof. exact C25_proof. Qed.
Print Assumptions C25_undo.

(** C25: select succeeds or raises KeyError. *)
Theorem C25_select : forall w h X r, 1 <= w -> 1 <= h -> reachable_X w h X ->
  (exists cols X1, select X (build_Y h w) r = Ok (cols, X1)) \/
  select X (build_Y h w) r = Err KeyError.
Proof. exact C25_select_proof. Qed.
Print Assumptions C25_select.

Example C25_ex : exists X cols X1, reachable_X 2 2 X /\ select X (build_Y 2 2) (0, 0, 1) = Ok (cols, X1).
Proof. do 3 eexists. split; [apply reach_init; vm_compute; reflexivity | vm_compute; reflexivity]. Qed.

(** C27: is_unique. *)
Theorem C27_is_unique : forall ord s, (forall p l, Permutation (ord p l) l) -> wf s ->
  exists b, is_unique ord s = Ok b /\ (b = true <-> unique_solution s).
Proof. exact C27_proof. Qed.
Print Assumptions C27_is_unique.

Example C27_ex : is_unique some_order ex4 = Ok true /\ is_unique some_order ex4m = Ok false /\
  is_unique some_order ex4c = Ok false.
Proof. vm_compute; auto. Qed.
