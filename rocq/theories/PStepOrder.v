(** Property C47 (continued): which order of solve steps it is. *)
From Verif Require Import LSolvers5 SpecStepOrder.

Lemma first_less_cmp : forall A (cmp : A -> A -> comparison) (less : A -> A -> Prop), good_cmp cmp ->
  (forall a b, cmp a b = Lt <-> less a b) -> forall l m, list_cmp cmp l m = Lt <-> first_less less l m.
Proof.
  intros A cmp less G H l m. split.
  - revert m. induction l as [|x l IH]; intros [|y m] E; cbn [list_cmp] in E; try discriminate.
    + left. exists y, m. reflexivity.
    + destruct (cmp x y) eqn:C; try discriminate.
      * apply (gc_eq _ G) in C. subst y. destruct (IH m E) as [[z [r ->]]|[p [a [b [l' [m' [-> [-> L]]]]]]]].
        -- left. exists z, r. reflexivity.
        -- right. exists (x :: p), a, b, l', m'. auto.
      * right. exists [], x, y, l, m. splits; auto. apply H; auto.
  - assert (R : forall x, cmp x x = Eq) by (intros x; apply (gc_eq _ G); auto).
    intros [[x [r ->]]|[p [a [b [l' [m' [-> [-> L]]]]]]]].
    + induction l as [|z l IH]; cbn [app list_cmp]; auto. rewrite R. auto.
    + induction p as [|z p IH]; cbn [app list_cmp]; [apply H in L; rewrite L; auto|rewrite R; auto].
Qed.
Lemma coord_lex : forall a b, coord_cmp a b = Lt <-> lex_lt a b.
Proof.
  intros [a1 a2] [b1 b2]. unfold coord_cmp, pair_cmp, lex_lt, zcmp. cbn [fst snd].
  destruct (Z.compare_spec a1 b1); subst; rewrite ?Z.compare_lt_iff; split; intros H'; try discriminate; try reflexivity; try lia; exfalso; lia.
Qed.
Lemma ascending_sorted : forall A (cmp : A -> A -> comparison) (less : A -> A -> Prop), good_cmp cmp ->
  (forall a b, cmp a b = Lt <-> less a b) -> forall l, ascending less l (py_sorted cmp l).
Proof.
  intros A cmp less G H l. split; [symmetry; apply py_sorted_perm|].
  pose proof (py_sorted_sorted cmp G l) as Hs. induction Hs as [|x m Hs IH F]; constructor; auto.
  eapply Forall_impl; [|exact F]. intros y L X. apply H in X. rewrite (gc_anti _ G) in X. unfold cmp_leb in L.
  destruct (cmp x y); discriminate.
Qed.

(** C47: a < b compares first the clues, then the affected fields, then the values, each like tuples. *)
Theorem C47_less : forall a b, step_lt a b = true <-> step_less a b.
Proof.
  intros a b. unfold step_lt, step_less, step_cmp, pair_cmp at 1 2. cbn [fst snd].
  pose proof (list_cmp_good coord_cmp coord_cmp_good) as G. pose proof (list_cmp_good zcmp zcmp_good) as Gz.
  rewrite <- !(first_less_cmp _ coord_cmp lex_lt coord_cmp_good coord_lex).
  rewrite <- (first_less_cmp _ zcmp Z.lt zcmp_good Z.compare_lt_iff).
  rewrite <- !(gc_eq _ G).
  destruct (list_cmp coord_cmp (clues a) (clues b)), (list_cmp coord_cmp (affected a) (affected b)), (list_cmp zcmp (values a) (values b));
    intuition congruence.
Qed.
Print Assumptions C47_less.

(** C47: clues, affected fields and values of a new step are those given, in ascending order. *)
Theorem C47_sorted : forall cls c a v,
  ascending lex_lt c (clues (new_step cls c a v)) /\ ascending lex_lt a (affected (new_step cls c a v)) /\
  ascending Z.lt v (values (new_step cls c a v)) /\ st_class (new_step cls c a v) = cls /\ actions (new_step cls c a v) = [].
Proof.
  intros cls c a v. cbn [new_step clues affected values st_class actions]. splits; auto.
  - apply ascending_sorted; [apply coord_cmp_good|apply coord_lex].
  - apply ascending_sorted; [apply coord_cmp_good|apply coord_lex].
  - apply ascending_sorted; [apply zcmp_good|apply Z.compare_lt_iff].
Qed.
Print Assumptions C47_sorted.

(** The same clues and affected fields, other values; a prefix comes first; the class does not matter. *)
Example C47_ex_less :
  step_less (new_step NakedSingle [(0, 3); (0, 1)] [(5, 5)] [7; 2]) (new_step HiddenSingle [(0, 1); (0, 3)] [(5, 5)] [2; 8]) /\
  step_less (new_step NakedSingle [(0, 1)] [(5, 5)] [9]) (new_step NakedSingle [(0, 3); (0, 1)] [(0, 0)] [1]) /\
  ~ step_less (new_step NakedSingle [(0, 1)] [(5, 5)] [9]) (new_step HiddenSingle [(0, 1)] [(5, 5)] [9]).
Proof.
  rewrite <- !C47_less. splits; try reflexivity. discriminate.
Qed.
