(** Property C109: what applying a solve step does.  Statements use only the model functions
    and the specification in Spec.v and SpecSteps.v. *)
From Verif Require Import LSteps LCheck PSolvers.

(** C109: a new step changes exactly what it says, for steps found by the solvers as well as for steps made by hand. *)
Theorem C109_apply : forall st s, wf s -> applicable (box_width s) (box_height s) st -> actions st = [] ->
  exists st' t, apply st s = Ok (st', t) /\ same_step st st' /\ applied (box_width s) (box_height s) st s s t.
Proof.
  intros st s W A E. destruct (apply_fresh _ _ st s (ok_intro _ _ s W eq_refl eq_refl) A E) as [acts [t [_ [X [Y _]]]]].
  do 2 eexists. split; [exact X|]. split; auto. repeat split.
Qed.
Print Assumptions C109_apply.

(** C109: a step that was applied to [s0] before repeats the actions chosen for [s0]. *)
Theorem C109_again : forall st s0 st' u s, wf s0 -> wf s -> box_size s = box_size s0 ->
  applicable (box_width s) (box_height s) st -> actions st = [] -> apply st s0 = Ok (st', u) ->
  exists t, apply st' s = Ok (st', t) /\ applied (box_width s) (box_height s) st s0 s t.
Proof.
  intros st s0 st' u s W0 W B A E H. unfold box_size in B. injection B as B1 B2.
  apply (apply_again _ _ st s0 st' u s); auto; apply ok_intro; auto.
Qed.
Print Assumptions C109_again.

(** C109: applying a step a second time changes nothing. *)
Theorem C109_twice : forall st s st' t, wf s -> applicable (box_width s) (box_height s) st -> actions st = [] ->
  apply st s = Ok (st', t) -> apply st' t = Ok (st', t).
Proof.
  intros st s st' t W A E H. pose proof (ok_intro _ _ s W eq_refl eq_refl) as O.
  destruct (apply_fresh _ _ st s O A E) as [acts [t' [_ [X [Y _]]]]].
  rewrite X in H. injection H as <- <-. assert (Ot : ok_sudoku (box_width s) (box_height s) t') by (destruct Y as [? [? [? _]]]; apply ok_intro; auto).
  destruct (apply_again _ _ st s _ _ t' O Ot A E X) as [t [Z T]]. rewrite Z. do 2 f_equal.
  apply (applied_same _ _ st s s t' s t t' T Y).
  - intros q Cq V. apply Y; auto.
  - intros q x Cq V. destruct Y as [_ [_ [_ [_ [_ [_ Y]]]]]]. rewrite (Y q x Cq V). tauto.
Qed.
Print Assumptions C109_twice.

(** C109: a step can be tried on another sudoku with the same candidates first, for instance on a copy. *)
Theorem C109_preview : forall st s0 st' u s, wf s0 -> wf s -> box_size s = box_size s0 ->
  (forall p, field s p -> cand s p = cand s0 p) ->
  applicable (box_width s) (box_height s) st -> actions st = [] -> apply st s0 = Ok (st', u) ->
  exists st'' t, apply st' s = Ok (st', t) /\ apply st s = Ok (st'', t).
Proof.
  intros st s0 st' u s W0 W B C A E H. destruct (C109_again st s0 st' u s W0 W B A E H) as [t [X Y]].
  destruct (C109_apply st s W A E) as [st'' [t' [X' [_ Y']]]]. exists st'', t. split; auto. rewrite X'. do 2 f_equal.
  apply (applied_same _ _ st s s0 s s t' t Y' Y); auto.
  intros q x Cq V. unfold drops. rewrite (C q Cq). reflexivity.
Qed.
Print Assumptions C109_preview.

(** C109: for these classes it does not matter on which sudoku the step was used before. *)
Theorem C109_independent : forall st s0 st' u s, wf s0 -> wf s -> box_size s = box_size s0 ->
  (st_class st = CalculateCandidates \/ (exists n, st_class st = PointingTuple n \/ st_class st = BasicFish n)) ->
  applicable (box_width s) (box_height s) st -> actions st = [] -> apply st s0 = Ok (st', u) ->
  exists st'' t, apply st' s = Ok (st', t) /\ apply st s = Ok (st'', t).
Proof.
  intros st s0 st' u s W0 W B C A E H. destruct (C109_again st s0 st' u s W0 W B A E H) as [t [X Y]].
  destruct (C109_apply st s W A E) as [st'' [t' [X' [_ Y']]]]. exists st'', t. split; auto. rewrite X'. do 2 f_equal.
  apply (applied_same _ _ st s s0 s s t' t Y' Y); auto.
  intros q x Cq V. unfold drops. destruct C as [-> |[n [-> | ->]]]; reflexivity.
Qed.
Print Assumptions C109_independent.

(** C109: for the other classes it does: a naked pair used on a sudoku without candidates before no longer removes any. *)
Theorem C109_used_refuted : ~ (forall st s0 st' u s, wf s0 -> wf s -> box_size s = box_size s0 ->
  applicable (box_width s) (box_height s) st -> actions st = [] -> apply st s0 = Ok (st', u) ->
  exists st'' t, apply st' s = Ok (st', t) /\ apply st s = Ok (st'', t)).
Proof.
  intros H. set (st := new_step (NakedTuple 2) [(0, 0); (1, 0)] [(0, 1); (1, 1)] [1; 2]).
  assert (A : applicable 2 2 st) by (intros p [<-|[<-|[]]]; unfold cell; cbn; lia).
  destruct (C109_apply st tup4 (wfb_ok tup4 eq_refl) A eq_refl) as [st' [u [X _]]].
  destruct (H st tup4 st' u tup4i (wfb_ok tup4 eq_refl) (wfb_ok tup4i eq_refl) eq_refl A eq_refl X) as [st'' [t [P Q]]].
  assert (E : match apply st tup4 with Ok (st', _) => match apply st' tup4i with Ok (_, t) => cand t (0, 1) | _ => [] end | _ => [] end
              = match apply st tup4i with Ok (_, t) => cand t (0, 1) | _ => [] end).
  { rewrite X, P, Q. reflexivity. }
  vm_compute in E. discriminate E.
Qed.
Print Assumptions C109_used_refuted.

(** C109: without clues or values these steps raise IndexError and change nothing. *)
Theorem C109_raises : forall st s, actions st = [] ->
  (st_class st = CalculateCandidates /\ clues st = []) \/ ((exists n, st_class st = PointingTuple n) /\ values st = []) ->
  apply st s = Err IndexError.
Proof.
  intros st s E H. unfold apply, build_actions. rewrite E.
  destruct H as [[C V]|[[n C] V]]; rewrite C; [unfold build_calculate|unfold build_pointing]; rewrite V; reflexivity.
Qed.
Print Assumptions C109_raises.

(** C109: apply_all of CalculateCandidates calculates the candidates of all fields that have none. *)
Theorem C109_calculate : forall o s, wf s -> exists t, apply_all o CalculateCandidates s = Ok t /\ wf t /\ box_size t = box_size s /\
  (forall p, field s p -> num t p = num s p) /\
  (forall p, field s p -> cand s p <> [] -> cand t p = cand s p) /\
  (forall p, field s p -> cand s p = [] -> calc_candidates s (fst p) (snd p) = Ok (cand t p)).
Proof. exact calculate_all_steps. Qed.
Print Assumptions C109_calculate.
(** C109: as README.md says, it does the same as init_candidates() on a sudoku without candidates. *)
Theorem C109_init : forall o s, wf s -> (forall p, field s p -> cand s p = []) ->
  apply_all o CalculateCandidates s = init_candidates s false.
Proof.
  intros o s W H. destruct (calculate_all_steps o s W) as [t [E [Wt [B [N [_ C]]]]]]. destruct (C14_proof s false W) as [u [E' [Wu [B' [N' [C' _]]]]]].
  rewrite E, E'. f_equal. assert (B2 : box_size t = box_size u) by congruence. unfold box_size in B2. injection B2 as Bw Bh. unfold box_size in B. injection B as Bw' Bh'.
  assert (F : forall p, field t p -> field s p) by (unfold field; rewrite Bw', Bh'; auto).
  apply sudoku_ext; auto.
  - intros p Fp. apply F in Fp. rewrite N by auto. unfold num. destruct p as [r c]. cbn [fst snd]. rewrite (N' r c Fp). reflexivity.
  - intros p Fp. apply F in Fp. specialize (C p Fp (H p Fp)). destruct p as [r c]. unfold cand at 2. cbn [fst snd]. rewrite (C' r c Fp (or_introl eq_refl)).
    cbn [fst snd] in C. rewrite C. reflexivity.
Qed.
Print Assumptions C109_init.

(** Example: a naked pair of [tup4i] takes candidates from two fields. *)
Example C109_ex : let st := new_step (NakedTuple 2) [(0, 0); (1, 0)] [(0, 1); (1, 1)] [1; 2] in
  wf tup4i /\ applicable (box_width tup4i) (box_height tup4i) st /\ actions st = [] /\ In 1 (cand tup4i (0, 1)) /\
  match apply st tup4i with Ok (st', t) => cand t (0, 1) = [3; 4] /\ apply st' t = Ok (st', t) | Err _ => False end.
Proof.
  split; [apply wfb_ok; reflexivity|]. split; [intros p [<-|[<-|[]]]; vm_compute; repeat split; discriminate|]. split; [reflexivity|]. split; [vm_compute; auto|]. vm_compute. auto.
Qed.
