(** Property C110: what does not depend on the order in which Python iterates over sets.  Statements use only the model
    functions and the specification in Spec.v, SpecSolvers.v and SpecOrder.v. *)
From Verif Require Import LOrder LSolvers5 LCheck PSolvers PDlx.

Lemma size_pos : forall s, wf s -> 1 <= box_width s /\ 1 <= box_height s.
Proof. intros s W. split; apply W. Qed.

(** C110: a sudoku with a unique solution: solve() reports the same steps and leaves the same sudoku. *)
Theorem C110_unique : forall fuel o o' s, oracle_ok o -> oracle_ok o' -> wf s -> unique_solution s ->
  solve fuel o s = solve fuel o' s.
Proof.
  intros fuel o o' s Ho Ho' W [f [Hf U]]. destruct (size_pos s W) as [Hw Hh].
  apply (solve_same (box_width s) (box_height s) Hw Hh o o' Ho Ho' fuel s).
  - apply ok_intro; auto.
  - exists f; auto.
  - intros g g' Hg Hg' p Cp. rewrite (U g Hg p Cp), (U g' Hg' p Cp). reflexivity.
Qed.
Print Assumptions C110_unique.

(** C110: any sudoku with a solution: the steps agree but for the numbers filled in by Bruteforce. *)
Theorem C110_solve : forall fuel o o' s f, oracle_ok o -> oracle_ok o' -> wf s -> solution s f ->
  alike (solve fuel o s) (solve fuel o' s).
Proof.
  intros fuel o o' s f Ho Ho' W Hf. destruct (size_pos s W) as [Hw Hh].
  apply (solve_same (box_width s) (box_height s) Hw Hh o o' Ho Ho' fuel s).
  - apply ok_intro; auto.
  - exists f; auto.
Qed.
Print Assumptions C110_solve.

Lemma alike_classes : forall x y, alike x y ->
  x = y \/ exists l u l' u', x = Ok (l, u) /\ y = Ok (l', u') /\ map st_class l = map st_class l'.
Proof.
  intros x y [H|[c [b [b' [u [u' [-> [-> [B [B' L]]]]]]]]]]; [left; auto|right].
  exists (c ++ b), u, (c ++ b'), u'. split; auto. split; auto. rewrite !map_app. f_equal.
  assert (E : forall l, brutes l -> map st_class l = repeat Bruteforce (length l)).
  { induction l as [|a l IH]; intros H; simpl; auto. rewrite (H a (or_introl eq_refl)), IH; auto.
    intros st Hst; apply H; right; auto. }
  rewrite !E by auto. rewrite L. reflexivity.
Qed.

Lemma mapM_classes : forall {A} (f : solver -> res A) l l', map st_class l = map st_class l' ->
  mapM (fun st => f (st_class st)) l = mapM (fun st => f (st_class st)) l'.
Proof.
  intros A f l; induction l as [|a l IH]; intros [|a' l'] H; simpl in H; try discriminate; auto.
  injection H as H1 H2. cbn [mapM]. rewrite H1, (IH l' H2). reflexivity.
Qed.

(** C110: rate() and score() do not depend on the order. *)
Theorem C110_rate : forall fuel o o' s f, oracle_ok o -> oracle_ok o' -> wf s -> solution s f ->
  rate fuel o s = rate fuel o' s.
Proof.
  intros fuel o o' s f Ho Ho' W Hf. unfold rate.
  destruct (alike_classes _ _ (C110_solve fuel o o' s f Ho Ho' W Hf)) as [->|[l [u [l' [u' [-> [-> E]]]]]]]; auto.
  cbn [rbind]. rewrite (mapM_classes RATINGS l l' E). reflexivity.
Qed.
Print Assumptions C110_rate.

Theorem C110_score : forall fuel o o' s f, oracle_ok o -> oracle_ok o' -> wf s -> solution s f ->
  score fuel o s = score fuel o' s.
Proof.
  intros fuel o o' s f Ho Ho' W Hf. unfold score.
  destruct (alike_classes _ _ (C110_solve fuel o o' s f Ho Ho' W Hf)) as [->|[l [u [l' [u' [-> [-> E]]]]]]]; auto.
  cbn [rbind]. rewrite (mapM_classes RATINGS l l' E). reflexivity.
Qed.
Print Assumptions C110_score.

Lemma gsame_run : forall {A R} (I : sudoku -> Prop) (P : sudoku -> R -> Prop) (g g' : gen sudoku A R) s,
  I s -> gsame I P g g' s -> gyields g s = gyields g' s /\ gresult g s = gresult g' s.
Proof.
  intros A R I P g; induction g as [r|a k IH|e]; intros [r'|a' k'|e'] s Hs H; simpl in H; try contradiction; simpl.
  - destruct H as [-> _]; auto.
  - destruct H as [-> H]. destruct (IH s (k' s) s Hs (H s Hs)) as [-> ->]; auto.
  - subst; auto.
Qed.

(** C110: while the candidates still contain a solution, every class but Bruteforce finds and does the same. *)
Theorem C110_find : forall o o' cls s f, oracle_ok o -> oracle_ok o' -> wf s -> consistent s f -> cls <> Bruteforce ->
  gyields (MSolvers.find o cls s) s = gyields (MSolvers.find o' cls s) s /\ apply_all o cls s = apply_all o' cls s.
Proof.
  intros o o' cls s f Ho Ho' W C N. destruct (size_pos s W) as [Hw Hh].
  assert (D : cls = HiddenSingle \/ cls <> HiddenSingle) by (destruct cls; auto; right; discriminate).
  destruct D as [-> | D].
  2:{ unfold apply_all. replace (MSolvers.find o' cls s) with (MSolvers.find o cls s) by (destruct cls; auto; congruence). auto. }
  assert (S : SInv (box_width s) (box_height s) (eq f) s) by (apply consistent_SInv; auto; apply like_refl; auto).
  assert (FV : forall g, eq f g -> valid_grid (box_width s) (box_height s) g) by (intros g <-; apply C).
  split.
  - eapply gsame_run; [exact S|].
    apply (find_same _ _ Hw Hh o o' Ho Ho' (eq f) FV f eq_refl HiddenSingle s); auto; discriminate.
  - unfold apply_all. rewrite (ded_drive_same _ _ Hw Hh o o' Ho Ho' (eq f) FV f eq_refl HiddenSingle s); auto.
    split; [|split]; discriminate.
Qed.
Print Assumptions C110_find.

(** C110: and so does hints(). *)
Theorem C110_hints : forall o o' s f, oracle_ok o -> oracle_ok o' -> wf s -> consistent s f ->
  gyields (hints o s) s = gyields (hints o' s) s.
Proof.
  intros o o' s f Ho Ho' W C. destruct (size_pos s W) as [Hw Hh].
  assert (S : SInv (box_width s) (box_height s) (eq f) s) by (apply consistent_SInv; auto; apply like_refl; auto).
  assert (FV : forall g, eq f g -> valid_grid (box_width s) (box_height s) g) by (intros g <-; apply C).
  unfold hints. eapply gsame_run; [exact S|].
  apply (gsame_gfor _ (A := step) (fun acc t => acc = t /\ SInv (box_width s) (box_height s) (eq f) t)); auto.
  intros cls acc cur Hin [-> Hc].
  assert (D : cls = Bruteforce \/ cls <> Bruteforce) by (destruct cls; auto; right; discriminate).
  destruct D as [-> | D]; [cbn; auto|].
  assert (Nf : cls <> BasicFish 0).
  { intros ->. simpl in Hin. repeat (destruct Hin as [Hin|Hin]; [discriminate|]). destruct Hin. }
  pose proof (find_same _ _ Hw Hh o o' Ho Ho' (eq f) FV f eq_refl cls cur D Nf Hc) as X.
  destruct cls; try congruence; exact X.
Qed.
Print Assumptions C110_hints.

Definition o_rev : oracle := mkOracle (fun _ _ l => rev l) (fun _ _ l => rev l).
Lemma o_rev_ok : oracle_ok o_rev.
Proof. split; intros; cbn; symmetry; apply Permutation_rev. Qed.
Definition o_id : oracle := mkOracle (fun _ _ l => l) (fun _ _ l => l).
Lemma o_id_ok : oracle_ok o_id.
Proof. split; intros; cbn; auto. Qed.

(** A 2 x 2 sudoku without numbers and its solutions. *)
Definition none2 : sudoku := Eval vm_compute in of_rows 2 1 [[0; 0]; [0; 0]].
Definition one2 : sudoku := Eval vm_compute in of_rows 2 1 [[1; 2]; [2; 1]].

(** C110: with two solutions the solution found depends on the order, with no candidates the hints do. *)
Theorem C110_order_refuted : exists o o' s f, oracle_ok o /\ oracle_ok o' /\ wf s /\ solution s f /\
  solve 20 o s <> solve 20 o' s /\ (exists l u, solve 20 o s = Ok (l, u)) /\
  rate 20 o s = rate 20 o' s /\ rate 20 o s = Ok 10 /\
  gyields (hints o s) s <> gyields (hints o' s) s.
Proof.
  exists o_id, o_rev, none2, (num one2).
  split; [apply o_id_ok|]. split; [apply o_rev_ok|]. split; [apply wfb_ok; vm_compute; reflexivity|].
  split.
  { apply solutionb_ok; vm_compute. reflexivity. }
  split; [vm_compute; discriminate|]. split; [do 2 eexists; vm_compute; reflexivity|].
  split; [vm_compute; reflexivity|]. split; [vm_compute; reflexivity|]. vm_compute; discriminate.
Qed.
Print Assumptions C110_order_refuted.

Example C110_ex : oracle_ok o_id /\ oracle_ok o_rev /\ wf ex4 /\ unique_solution ex4 /\ o_hidden o_id ex4 (0, 0) [1; 2] <> o_hidden o_rev ex4 (0, 0) [1; 2] /\
  wf ex4i /\ consistent ex4i (num ex4sol) /\
  (exists l, solve 20 o_rev ex4 = Ok l /\ length (fst l) = 24%nat /\ s_numbers (snd l) = s_numbers ex4sol) /\
  length (gyields (hints o_rev ex4i) ex4i) = 12%nat.
Proof.
  split; [apply o_id_ok|]. split; [apply o_rev_ok|]. split; [apply ex4_wf|].
  split.
  { destruct (C27_is_unique some_order ex4 some_order_ok ex4_wf) as [b [E H]].
    rewrite (proj1 C27_ex) in E. injection E as <-. apply H; auto. }
  split; [discriminate|]. split; [apply samples_ok|]. split; [apply samples_ok|].
  split; [eexists; split; [vm_compute; reflexivity|split; vm_compute; reflexivity] | vm_compute; reflexivity].
Qed.
