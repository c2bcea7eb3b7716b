(** Properties C141: clearing conflicts.  Statements use only the model functions
    and the specification files; the proofs are in the L*.v files. *)
From Coq Require Import Lia.
From Verif Require Import Spec LBase LCoord LSudoku LSudoku2 LCheck LLoop PLoop.

(** C141: [for a, b, v in find_conflicts(s): s[b] = 0] leaves a sudoku without conflicts that keeps a number exactly if no earlier peer keeps the same one. *)
Theorem C141_second : forall s body, wf s -> clears_second s body ->
  exists t, snd (loop body (find_conflicts s []) s) = Ok t /\ like s t /\ conflict_free t /\ keeps_first s t.
Proof.
  intros s body W C. destruct (second_keeps s body W C) as [t [H1 [H2 H3]]].
  destruct (C140_conflicts s body W (second_clears s body C)) as [t' [I1 [_ [I3 _]]]].
  rewrite H1 in I1. injection I1 as <-. exists t. auto.
Qed.
Print Assumptions C141_second.

(** C141: ... so no number it has cleared can be put back without a conflict, and these numbers are determined by the sudoku before the loop. *)
Theorem C141_maximal : forall s t, wf s -> keeps_first s t ->
  (forall q, field s q -> num t q <> num s q ->
     num s q <> 0 /\ exists p, field s p /\ peers (box_width s) (box_height s) p q /\ num t p = num s q) /\
  (forall t', keeps_first s t' -> forall q, field s q -> num t' q = num t q).
Proof.
  intros s t W K. split.
  - intros q Fq N. destruct (K q Fq) as [K1 K2].
    assert (D : num s q <> 0 /\ exists p, In p (coords s) /\ lex_lt p q /\ peers (box_width s) (box_height s) p q /\ num t p = num s q).
    { destruct (Z.eq_dec (num s q) 0) as [E|E]; [exfalso; apply N, K2; intros [_ X]; auto|]. split; auto.
      destruct (Exists_dec (fun p => lex_lt p q /\ peers (box_width s) (box_height s) p q /\ num t p = num s q) (coords s)) as [X|X].
      - intros p. unfold lex_lt, peers, same_row, same_col, same_box.
        destruct (Z.eq_dec (num t p) (num s q)); [|right; tauto]. destruct (coord_eq_dec p q); [right; tauto|].
        destruct (Z_lt_dec (fst p) (fst q)), (Z.eq_dec (fst p) (fst q)), (Z_lt_dec (snd p) (snd q)), (Z.eq_dec (snd p) (snd q)),
          (Z.eq_dec (fst p / box_height s) (fst q / box_height s)), (Z.eq_dec (snd p / box_width s) (snd q / box_width s));
          try (left; tauto); right; tauto.
      - apply Exists_exists in X. destruct X as [p [X1 X2]]. exists p. auto.
      - exfalso. apply N, K2. intros [[p [X1 X2]] _]. apply X, Exists_exists. exists p. split; [now apply in_coords|auto]. }
    destruct D as [D1 [p [D2 [D3 [D4 D5]]]]]. split; auto. exists p. split; [now apply in_coords|auto].
  - intros t' K'.
    assert (G : forall l2 l1, coords s = l1 ++ l2 -> (forall q, In q l1 -> num t' q = num t q) -> forall q, In q (coords s) -> num t' q = num t q).
    { induction l2 as [|q l2 IH]; intros l1 E H; [rewrite app_nil_r in E; now rewrite E|].
      apply (IH (l1 ++ [q])); [now rewrite <- app_assoc|]. intros r Hr. apply in_app_iff in Hr. destruct Hr as [Hr|[<-|[]]]; [auto|].
      assert (Fq : field s q) by (apply in_coords; rewrite E; apply in_or_app; right; left; auto).
      assert (B : forall p, field s p -> lex_lt p q -> num t' p = num t p).
      { intros p Fp L. apply H. assert (X : In p (coords s)) by now apply in_coords. pose proof (coords_sorted s) as SS. rewrite E in X, SS. apply in_app_iff in X.
        destruct (sorted_mid l1 q p l2 SS) as [[A _]|[A|[_ A]]]; [cbn in X; destruct X as [X|[X|X]]; auto|auto| |]; [subst p|]; unfold lex_lt in *; lia. }
      destruct (K q Fq) as [K1 K2], (K' q Fq) as [K1' K2'].
      destruct (Z.eq_dec (num t q) (num s q)) as [X|X], (Z.eq_dec (num t' q) (num s q)) as [Y|Y]; try congruence.
      - destruct (Z.eq_dec (num t' q) (num t q)) as [Z0|Z0]; auto. exfalso. apply Y, K2'. intros [[p [P1 [P2 [P3 P4]]]] P5]. apply P5. rewrite <- X. apply K1. split; auto.
        exists p. split; [auto|split; [auto|split; [auto|]]]. rewrite <- B; auto.
      - destruct (Z.eq_dec (num t' q) (num t q)) as [Z0|Z0]; auto. exfalso. apply X, K2. intros [[p [P1 [P2 [P3 P4]]]] P5]. apply P5. rewrite <- Y. apply K1'. split; auto.
        exists p. split; [auto|split; [auto|split; [auto|]]]. rewrite B; auto.
      - assert (Z1 : num t q = 0). { destruct (Z.eq_dec (num t q) 0) as [Z1|Z1]; auto. exfalso. apply X, K2. intros P. apply Z1, K1, P. }
        assert (Z2 : num t' q = 0). { destruct (Z.eq_dec (num t' q) 0) as [Z2|Z2]; auto. exfalso. apply Y, K2'. intros P. apply Z2, K1', P. }
        congruence. }
    intros q Fq. apply (G (coords s) []); [auto|intros ? []|now apply in_coords].
Qed.
Print Assumptions C141_maximal.

(** C141: [for a, b, v in find_conflicts(s): s[a] = 0] leaves a sudoku without conflicts, too, that keeps a number exactly if no later peer had the same one. *)
Theorem C141_first : forall s body, wf s -> clears_first s body ->
  exists t, snd (loop body (find_conflicts s []) s) = Ok t /\ like s t /\ conflict_free t /\ keeps_last s t.
Proof.
  intros s body W C. destruct (first_keeps s body W C) as [t [H1 [H2 H3]]].
  destruct (C140_conflicts s body W (first_clears s body C)) as [t' [I1 [_ [I3 _]]]].
  rewrite H1 in I1. injection I1 as <-. exists t. auto.
Qed.
Print Assumptions C141_first.

Lemma C141_ex_bodies : forall s, clears_first s clear_first /\ clears_second s clear_second.
Proof.
  intros s. split; intros u p q v L F G; unfold clear_first, clear_second; cbn [fst snd]; (split; [now apply put_ok|split]).
  - rewrite (put_num s) by auto. now rewrite coord_eqb_refl.
  - intros r H D. rewrite (put_num s) by auto. destruct (coord_eqb r p) eqn:E; auto. apply coord_eqb_eq in E. contradiction.
  - rewrite (put_num s) by auto. now rewrite coord_eqb_refl.
  - intros r H D. rewrite (put_num s) by auto. destruct (coord_eqb r q) eqn:E; auto. apply coord_eqb_eq in E. contradiction.
Qed.

(** Clearing the first field of each conflict may clear more than needed: here the number at (0, 0) can be put back. *)
Definition ex_chain : sudoku := of_rows 2 2
  [[1; 0; 1; 0];
   [0; 0; 0; 0];
   [0; 0; 1; 0];
   [0; 0; 0; 0]].
Theorem C141_first_maximal_refuted : exists s t, wf s /\
  snd (loop clear_first (find_conflicts s []) s) = Ok t /\
  field s (0, 0) /\ num s (0, 0) = 1 /\ num t (0, 0) = 0 /\
  forall p, field s p -> peers (box_width s) (box_height s) p (0, 0) -> num t p <> 1.
Proof.
  exists ex_chain. eexists. split; [apply wfb_ok; vm_compute; reflexivity|]. split; [vm_compute; reflexivity|].
  split; [apply in_coords; vm_compute; auto|]. split; [reflexivity|]. split; [reflexivity|].
  intros p F [_ P] N. apply in_coords in F. vm_compute in F.
  repeat (destruct F as [<-|F]; [vm_compute in N; try discriminate; destruct P as [P|[P|P]]; vm_compute in P; try discriminate; destruct P; discriminate|]). contradiction.
Qed.
Print Assumptions C141_first_maximal_refuted.

Example C141_ex : exists t u, snd (loop clear_second (find_conflicts ex_chain []) ex_chain) = Ok t /\
  snd (loop clear_first (find_conflicts ex_chain []) ex_chain) = Ok u /\
  s_numbers t = [[1; 0; 0; 0]; [0; 0; 0; 0]; [0; 0; 1; 0]; [0; 0; 0; 0]] /\
  s_numbers u = [[0; 0; 0; 0]; [0; 0; 0; 0]; [0; 0; 1; 0]; [0; 0; 0; 0]].
Proof. eexists. eexists. split; [vm_compute; reflexivity|]. split; [vm_compute; reflexivity|]. split; vm_compute; reflexivity. Qed.
