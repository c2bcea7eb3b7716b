(** Properties C143: filling the forced fields.  Statements use only the model functions
    and the specification files; the proofs are in the L*.v files. *)
From Coq Require Import Lia.
From Verif Require Import Spec LBase LCoord LSudoku LSudoku2 LSolve LCheck LOnly PLoop PGreedy.

(** C143: a loop over the empty fields that sets a field if exactly one candidate is calculated at that moment keeps every number and exactly the solutions of the sudoku. *)
Theorem C143_forced : forall s body, wf s -> fills_forced s body ->
  exists t, snd (loop body (empty s) s) = Ok t /\ like s t /\
    (forall p, field s p -> num s p <> 0 -> num t p = num s p) /\
    (forall f, solution t f <-> solution s f).
Proof. intros s body W B. destruct (forced_loop s body W B) as [t [H1 [H2 [H3 H4]]]]. exists t. auto. Qed.
Print Assumptions C143_forced.

(** C143: the same for any number of such loops, one after another; if they leave no field empty, the sudoku has no solution other than the result. *)
Theorem C143_rounds : forall n s body, wf s -> fills_forced s body ->
  exists t, rounds body n s = Ok t /\ like s t /\
    (forall p, field s p -> num s p <> 0 -> num t p = num s p) /\
    (forall f, solution t f <-> solution s f) /\
    (complete t -> forall f, solution s f -> shows t f).
Proof.
  intros n s body W B.
  assert (G : exists t, rounds body n s = Ok t /\ like s t /\ (forall p, field s p -> num s p <> 0 -> num t p = num s p) /\ (forall f, solution t f <-> solution s f)).
  { revert s W B. induction n as [|n IH]; intros s W B; cbn [rounds].
    - exists s. split; [auto|split; [now apply like_refl|split; [auto|reflexivity]]].
    - destruct (C143_forced s body W B) as [t [H1 [H2 [H3 H4]]]]. rewrite H1.
      destruct (IH t (proj1 H2) (fills_forced_like s t body H2 B)) as [r [I1 [I2 [I3 I4]]]]. exists r. split; [auto|split; [|split]].
      + destruct H2, I2. split; congruence.
      + intros p Fp N. rewrite I3; [auto|now apply (like_field s t)|rewrite H3; auto].
      + intros f. now rewrite I4. }
  destruct G as [t [H1 [H2 [H3 H4]]]]. exists t. split; [auto|split; [auto|split; [auto|split; [auto|]]]].
  intros K f S0. apply H4 in S0. destruct S0 as [_ X]. intros p Fp. destruct (X p Fp) as [Y|Y]; [exfalso; now apply (K p)|auto].
Qed.
Print Assumptions C143_rounds.

(** Case: ex4 is solved by two loops. *)
Definition fill_forced (u : sudoku) (p : coord) : sudoku := fill_with (fun l => match l with [v] => Some v | _ => None end) u p.
Lemma C143_ex_body : forall s, fills_forced s fill_forced.
Proof.
  intros s. split.
  - intros u p L F. unfold fill_forced, fill_with. destruct (calc_candidates u (fst p) (snd p)) as [l|]; auto. destruct l as [|v [|w l]]; auto. apply put_ok; auto.
  - intros u p L F E. unfold fill_forced, fill_with. split.
    + intros q G D. destruct (calc_candidates u (fst p) (snd p)) as [l|]; auto. destruct l as [|v [|w l]]; auto. rewrite (put_num s) by auto.
      destruct (coord_eqb q p) eqn:X; auto. apply coord_eqb_eq in X. contradiction.
    + intros l ->. destruct l as [|v [|w l]]; auto. rewrite (put_num s), coord_eqb_refl by auto. auto.
Qed.
Example C143_ex : (exists t, rounds fill_forced 1 ex4 = Ok t /\ s_numbers t = [[0; 2; 3; 4]; [0; 4; 1; 2]; [0; 1; 4; 3]; [0; 3; 2; 1]]) /\ (exists t, rounds fill_forced 2 ex4 = Ok t /\ s_numbers t = s_numbers ex4sol).
Proof. split; eexists; split; [vm_compute; reflexivity|vm_compute; reflexivity|vm_compute; reflexivity|vm_compute; reflexivity]. Qed.
