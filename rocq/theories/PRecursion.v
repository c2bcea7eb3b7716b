(** Property C108: the depth of the recursion of bruteforce and dlx.  Statements use only the model functions
    and the specification in Spec.v and SpecRecursion.v. *)
From Verif Require Import LRecursion2 LCheck PBrute PDlx.

(** C108: bruteforce nests at most one call more than there are empty fields. *)
Theorem C108_bruteforce : forall ord s k room, (forall t l, Permutation (ord t l) l) -> wf s -> empty_fields s k -> (k < room)%nat ->
  same_run (bruteforce_within room ord s) (bruteforce ord s).
Proof. intros ord s k room Ho W E H. apply empty_nempty in E. subst k. apply brute_enough; auto. Qed.
Print Assumptions C108_bruteforce.

(** C108: with less room it yields nothing, and raises RecursionError if the sudoku can be completed. *)
Theorem C108_bruteforce_short : forall ord s k room, (forall t l, Permutation (ord t l) l) -> wf s -> empty_fields s k -> (room <= k)%nat ->
  gyields (bruteforce_within room ord s) tt = [] /\
  ((exists f, completion s f) -> gresult (bruteforce_within room ord s) tt = Err OutOfFuel).
Proof.
  intros ord s k room Ho W E H. apply empty_nempty in E. subst k. destruct (brute_little ord Ho s W room H) as [A B].
  split; auto. intros [f C]. apply (B f C).
Qed.
Print Assumptions C108_bruteforce_short.

(** C108: the same for dlx. *)
Theorem C108_dlx : forall ord s k room, (forall p l, Permutation (ord p l) l) -> wf s -> empty_fields s k -> (k < room)%nat ->
  same_run (dlx_within room ord s) (dlx ord s).
Proof. intros ord s k room Ho W E H. apply empty_nempty in E. subst k. apply dlx_enough; auto. Qed.
Print Assumptions C108_dlx.
Theorem C108_dlx_short : forall ord s k room, (forall p l, Permutation (ord p l) l) -> wf s -> empty_fields s k -> (room <= k)%nat ->
  gyields (dlx_within room ord s) tt = [] /\
  ((exists f, solution s f) -> gresult (dlx_within room ord s) tt = Err OutOfFuel).
Proof.
  intros ord s k room Ho W E H. apply empty_nempty in E. subst k. destruct (dlx_little ord Ho s W room H) as [A B].
  split; auto. intros [f C]. apply (B f C).
Qed.
Print Assumptions C108_dlx_short.

(** C108: an empty sudoku of width and height w*h needs room for more than (w*h)*(w*h) calls. *)
Lemma empty_new : forall w h, 1 <= w -> 1 <= h -> empty_fields (new_sudoku (w, h)) (Z.to_nat (w * h) * Z.to_nat (w * h)).
Proof.
  intros w h Hw Hh. exists (coords (new_sudoku (w, h))). split; [apply NoDup_coords|]. split.
  - intros p. rewrite in_coords. split; [intros F; split; auto; apply num_new; auto|tauto].
  - rewrite length_coords. reflexivity.
Qed.
Lemma pat_solves : forall w h, 1 <= w -> 1 <= h -> solution (new_sudoku (w, h)) (pat w h) /\ completion (new_sudoku (w, h)) (pat w h).
Proof.
  intros w h Hw Hh. pose proof (pat_valid w h Hw Hh) as V. assert (N : forall p, field (new_sudoku (w, h)) p -> num (new_sudoku (w, h)) p = 0) by (intros; apply num_new; auto).
  split.
  - split; [exact V|]. intros p Fp. left. auto.
  - destruct V as [V1 V2]. split.
    + intros p Fp. split; [intros X; destruct X; auto|]. intros _. apply V1. exact Fp.
    + intros p q Fp Fq P. apply V2; auto.
Qed.
Theorem C108_empty : forall w h room ord ord', 1 <= w -> 1 <= h -> (forall t l, Permutation (ord t l) l) -> (forall p l, Permutation (ord' p l) l) ->
  Z.of_nat room <= w * h * (w * h) ->
  gresult (bruteforce_within room ord (new_sudoku (w, h))) tt = Err OutOfFuel /\ gresult (dlx_within room ord' (new_sudoku (w, h))) tt = Err OutOfFuel.
Proof.
  intros w h room ord ord' Hw Hh Ho Ho' H. assert (L : (room <= Z.to_nat (w * h) * Z.to_nat (w * h))%nat) by nia. destruct (pat_solves w h Hw Hh) as [S C]. split.
  - apply (C108_bruteforce_short ord _ _ room Ho (new_sudoku_wf w h Hw Hh) (empty_new w h Hw Hh) L). exists (pat w h). auto.
  - apply (C108_dlx_short ord' _ _ room Ho' (new_sudoku_wf w h Hw Hh) (empty_new w h Hw Hh) L). exists (pat w h). auto.
Qed.
Print Assumptions C108_empty.
(** C108: the documentation of solve.py (lines 9-17) says that RecursionError is raised if the length of a row is
    at least the limit.  A much smaller sudoku is enough: 36 numbers in a row and room for 1000 calls. *)
Theorem C108_warning_refuted : ~ (forall w h room ord, 1 <= w -> 1 <= h -> (forall t l, Permutation (ord t l) l) -> w * h < Z.of_nat room ->
  gresult (bruteforce_within room ord (new_sudoku (w, h))) tt <> Err OutOfFuel).
Proof.
  intros H. assert (R : exists room, Z.of_nat room = 1000) by (exists (Z.to_nat 1000); apply Z2Nat.id; lia). destruct R as [room R].
  assert (P : forall (t : sudoku) (l : zset), Permutation ((fun _ l => l) t l) l) by (intros; apply Permutation_refl).
  assert (P' : forall (t l : list xrow), Permutation ((fun _ l => l) t l) l) by (intros; apply Permutation_refl).
  refine (H 6 6 room (fun _ l => l) _ _ P _ (proj1 (C108_empty 6 6 room _ (fun _ l => l) _ _ P P' _))); lia.
Qed.
Print Assumptions C108_warning_refuted.

(** Example: a 4x4 sudoku with 6 solutions: the number of its empty fields, what is found with and without enough room. *)
Example C108_ex : exists k, empty_fields ex4m k /\ (4 <= k)%nat /\ wf ex4m /\
  length (gyields (bruteforce_within (S k) rev_order ex4m) tt) = 6%nat /\ gresult (bruteforce_within k rev_order ex4m) tt = Err OutOfFuel /\
  length (gyields (dlx_within (S k) some_order ex4m) tt) = 6%nat /\ gresult (dlx_within k some_order ex4m) tt = Err OutOfFuel.
Proof.
  exists (nempty ex4m). split; [apply nempty_empty|]. split; [vm_compute; lia|]. split; [apply ex4m_wf|]. vm_compute. auto.
Qed.
