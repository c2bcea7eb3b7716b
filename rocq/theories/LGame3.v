(** Proofs about autofill: the loop. *)
From Verif Require Export LGame2 LSolvers3.

Lemma is_set_on : forall cfg k b, is_set cfg k b -> setting_on cfg k = b.
Proof. intros cfg k b H. unfold setting_on. rewrite H. auto. Qed.

Lemma pass_field : forall ar au s s' ch q, pass ar au s s' ch -> (field s' q <-> field s q).
Proof. intros ar au s s' ch q P. unfold field. rewrite (pa_w _ _ _ _ _ P), (pa_h _ _ _ _ _ P). tauto. Qed.

Lemma pass_small : forall ar au s s' ch v, pass ar au s s' ch -> small s v -> small s' v.
Proof.
  intros ar au s s' ch v P [|H]; [left; auto|right]. unfold NN. rewrite (pa_w _ _ _ _ _ P), (pa_h _ _ _ _ _ P). auto.
Qed.

(** Fields keep a number they have. *)
Lemma pass_keeps : forall ar au s s' ch q, pass ar au s s' ch -> field s q -> num s q <> 0 -> num s' q = num s q.
Proof. intros ar au s s' ch q P F N. destruct (pa_num _ _ _ _ _ P q F) as [[_ [X _]]|[X _]]; auto. contradiction. Qed.

Lemma pass_au_false : forall ar s s' ch q, pass ar false s s' ch -> field s q -> num s' q = num s q.
Proof. intros ar s s' ch q P F. destruct (pa_num _ _ _ _ _ P q F) as [[X _]|[X _]]; auto. discriminate. Qed.

Lemma taken_same : forall s s' q n, box_width s' = box_width s -> box_height s' = box_height s ->
  (forall p, field s p -> num s' p = num s p) -> (taken s' q n <-> taken s q n).
Proof.
  intros s s' q n A B H. unfold taken, field. rewrite A, B. split; intros [p [C [D [X Y]]]]; exists p;
    rewrite H in * by exact C; auto.
Qed.

(** * Default settings: at most two passes *)
Lemma autofill_default : forall cfg verbose s fuel, wf s -> small s verbose ->
  is_set cfg (lit "autoremove") true -> is_set cfg (lit "autoset") false -> (2 <= fuel)%nat ->
  exists s' out, autofill fuel cfg verbose s = ((s', out), None) /\
    numbers_kept s s' /\
    (forall q n, field s q -> (In n (cand s' q) <-> In n (cand s q) /\ ~ taken s q n)) /\
    (verbose = false -> out = []) /\
    (verbose = true -> exists ms ls, out = concat ls /\ Forall2 autoremove_line ms ls /\
       (forall m, In m ms -> snd m <> [] /\ forall q, In q (snd m) -> field s q) /\
       (forall q n, field s q -> ((In n (cand s q) /\ taken s q n) <-> exists cs, In (n, cs) ms /\ In q cs))).
Proof.
  intros cfg verbose s fuel W Sm Ar Au Hf. apply is_set_on in Ar, Au.
  destruct fuel as [|[|fuel]]; [lia|lia|]. unfold autofill. cbn [autofill_loop].
  destruct (pass_ok cfg verbose s [] true W Sm) as [s1 [o1 [c1 [E1 [O1 [P1 M1]]]]]].
  rewrite E1. cbn [andthen f_changed app]. rewrite Ar, Au in *.
  assert (N1 : numbers_kept s s1).
  { split; [exact (pa_wf _ _ _ _ _ P1)|]. split; [unfold box_size; rewrite (pa_w _ _ _ _ _ P1), (pa_h _ _ _ _ _ P1); auto|].
    intros p Fp; eapply pass_au_false; eauto. }
  assert (C1 : forall q n, field s q -> (In n (cand s1 q) <-> In n (cand s q) /\ ~ taken s q n)).
  { intros q n Fq. rewrite (pa_cand _ _ _ _ _ P1) by auto. unfold removable. tauto. }
  assert (M : verbose = true -> exists ms ls, o1 = concat ls /\ Forall2 autoremove_line ms ls /\
       (forall m, In m ms -> snd m <> [] /\ forall q, In q (snd m) -> field s q) /\
       (forall q n, field s q -> ((In n (cand s q) /\ taken s q n) <-> exists cs, In (n, cs) ms /\ In q cs))).
  { intros V. destruct (M1 eq_refl V) as [ms [ls [A [B [C D]]]]]. exists ms, ls. splits; auto.
    intros q n Fq. rewrite <- D by auto. rewrite C1 by auto.
    split; [tauto|]. intros [X Y]. split; auto.
    (* taken is decidable *)
    destruct (proj1 (D q n Fq)) as [cs [Z1 Z2]]; [split; auto; rewrite C1 by auto; auto|].
    destruct (existsb (fun p => negb (num s p =? 0) && (num s p =? n) && existsb (coord_eqb q) (sur s p)) (coords s)) eqn:X'.
    - apply taken_sur; auto. apply existsb_exists in X'. destruct X' as [p [X1 X2]]. b2p.
      match goal with H : existsb _ (sur s p) = true |- _ => apply existsb_exists in H; destruct H as [q' [Y1 Y2]] end.
      apply coord_eqb_eq in Y2. subst. exists p; auto.
    - exfalso. apply Y. split; auto. intros T. apply taken_sur in T; auto. destruct T as [p [X1 [X2 [X3 X4]]]].
      rewrite <- not_true_iff_false in X'. apply X'. apply existsb_exists. exists p. split; auto.
      rewrite !andb_true_iff. splits.
      + apply negb_true_iff, Z.eqb_neq; auto.
      + apply Z.eqb_eq; auto.
      + apply existsb_exists. exists q. split; auto. apply coord_eqb_refl. }
  destruct c1.
  2: { exists s1, o1. cbn [f_sudoku f_out]. splits; auto. }
  destruct (pass_ok cfg verbose s1 o1 true) as [s2 [o2 [c2 [E2 [O2 [P2 M2]]]]]]; [apply N1|eapply pass_small; eauto|].
  rewrite E2. cbn [andthen f_changed]. rewrite Ar, Au in *.
  assert (T : forall q n, taken s1 q n <-> taken s q n).
  { intros q n. apply taken_same; [exact (pa_w _ _ _ _ _ P1)|exact (pa_h _ _ _ _ _ P1)|]. intros; eapply pass_au_false; eauto. }
  assert (c2 = false) as ->.
  { destruct c2; auto. destruct (proj1 (pa_changed _ _ _ _ _ P2) eq_refl) as [[q [n [Fq [Hn [_ Ht]]]]]|[X _]]; [|discriminate].
    exfalso. apply (pass_field _ _ _ _ _ q P1) in Fq. apply C1 in Hn; auto. rewrite T in Ht. tauto. }
  assert (C2 : forall q n, field s q -> (In n (cand s2 q) <-> In n (cand s1 q))).
  { intros q n Fq. rewrite (pa_cand _ _ _ _ _ P2) by (apply (pass_field _ _ _ _ _ q P1); auto).
    unfold removable. rewrite T, C1 by auto. tauto. }
  assert (o2 = []) as ->.
  { destruct verbose; [|auto]. destruct (M2 eq_refl eq_refl) as [ms [ls [-> [B [C D]]]]].
    destruct ms as [|[n cs] ms]; [inversion B; auto|]. exfalso.
    destruct (C (n, cs)) as [X Y]; [left; auto|]. cbn [snd] in *. destruct cs as [|q cs]; [congruence|].
    assert (Fq : field s1 q) by (apply Y; left; auto).
    destruct (proj2 (D q n Fq)) as [Z1 Z2]; [exists (q :: cs); cbn; auto|].
    apply Z2. apply C2; auto. apply (pass_field _ _ _ _ _ q P1); auto. }
  exists s2, o1. cbn [f_sudoku f_out]. rewrite app_nil_r. splits; auto.
  - destruct N1 as [X [Y Z]]. split; [exact (pa_wf _ _ _ _ _ P2)|]. split.
    + unfold box_size in *. rewrite (pa_w _ _ _ _ _ P2), (pa_h _ _ _ _ _ P2). auto.
    + intros p Fp. rewrite <- Z by auto. eapply pass_au_false; [exact P2|]. apply (pass_field _ _ _ _ _ p P1); auto.
  - intros q n Fq. rewrite C2, C1 by auto. tauto.
Qed.

(** * Any settings: what can never happen *)
Lemma pass_consistent : forall ar au s s' ch f, wf s -> pass ar au s s' ch -> consistent s f -> consistent s' f.
Proof.
  intros ar au s s' ch f W P [[V X] C].
  assert (C' : forall p, field s' p -> In (f p) (cand s' p)).
  { intros p Fp. apply (pass_field _ _ _ _ _ p P) in Fp. apply (pa_cand _ _ _ _ _ P); auto. split; auto.
    intros [_ [q [Fq [Pq [Nq Eq]]]]]. destruct (X q Fq) as [|X']; [contradiction|].
    destruct V as [_ V]. apply (V q p Fq Fp Pq). congruence. }
  split; auto. split.
  - rewrite (pa_w _ _ _ _ _ P), (pa_h _ _ _ _ _ P). auto.
  - intros p Fp. pose proof (C' p Fp) as Cp. apply (pass_field _ _ _ _ _ p P) in Fp.
    destruct (pa_num _ _ _ _ _ P p Fp) as [[_ [_ E]]|[E _]].
    + right. rewrite E in Cp. destruct Cp as [|[]]; auto.
    + rewrite E. auto.
Qed.

Lemma loop_safe : forall cfg verbose fuel s out ch st e, wf s -> small s verbose ->
  autofill_loop fuel cfg verbose (mkFill s out ch) = (st, e) ->
  (e = None \/ e = Some OutOfFuel) /\ wf (f_sudoku st) /\ box_size (f_sudoku st) = box_size s /\
  (forall p, field s p -> num s p <> 0 -> num (f_sudoku st) p = num s p) /\
  (forall p n, field s p -> In n (cand (f_sudoku st) p) -> In n (cand s p)) /\
  (forall f, consistent s f -> consistent (f_sudoku st) f) /\
  (e = None -> forall p, field s p ->
    (setting_on cfg (lit "autoremove") = true -> forall n, taken (f_sudoku st) p n -> ~ In n (cand (f_sudoku st) p)) /\
    (setting_on cfg (lit "autoset") = true -> num (f_sudoku st) p = 0 -> forall v, cand (f_sudoku st) p <> [v])).
Proof.
  intros cfg verbose fuel; induction fuel as [|fuel IH]; intros s out ch st e W Sm H; cbn [autofill_loop] in H.
  { inversion H; subst. cbn [f_sudoku]. splits; auto. intros X; discriminate. }
  destruct (pass_ok cfg verbose s out ch W Sm) as [s1 [o1 [c1 [E1 [O1 [P1 M1]]]]]].
  rewrite E1 in H. cbn [andthen f_changed] in H.
  assert (K : box_size s1 = box_size s) by (unfold box_size; rewrite (pa_w _ _ _ _ _ P1), (pa_h _ _ _ _ _ P1); auto).
  destruct c1.
  - destruct (IH s1 (out ++ o1) true st e) as [A [B [C [D [X [Y Q]]]]]]; auto; [exact (pa_wf _ _ _ _ _ P1)|eapply pass_small; eauto|].
    assert (FF : forall p, field s p -> field s1 p) by (intros p; apply (pass_field _ _ _ _ _ p P1)).
    splits; auto; try congruence.
    + intros p Fp Np. rewrite D; auto; [eapply pass_keeps; eauto|]. rewrite (pass_keeps _ _ _ _ _ p P1); auto.
    + intros p n Fp Hn. apply X in Hn; auto. apply (pa_cand _ _ _ _ _ P1) in Hn; tauto.
    + intros f Hf. apply Y. exact (pass_consistent _ _ _ _ _ _ W P1 Hf).
  - inversion H; subst. cbn [f_sudoku]. splits; auto.
    + exact (pa_wf _ _ _ _ _ P1).
    + intros p Fp Np. eapply pass_keeps; eauto.
    + intros p n Fp Hn. apply (pa_cand _ _ _ _ _ P1) in Hn; tauto.
    + intros f Hf. eapply pass_consistent; eauto.
    + intros _ p Fp.
      assert (NC : forall X : Prop, ((exists q n, field s q /\ In n (cand s q) /\ removable (setting_on cfg (lit "autoremove")) s q n) \/
        (setting_on cfg (lit "autoset") = true /\ exists q v, field s q /\ num s q = 0 /\ cand s1 q = [v])) -> X).
      { intros X Y. apply (pa_changed _ _ _ _ _ P1) in Y. discriminate. }
      assert (NN1 : forall q, field s q -> num s1 q = num s q).
      { intros q Fq. destruct (pa_num _ _ _ _ _ P1 q Fq) as [[X [Y Z]]|[X _]]; auto. apply NC. right. split; auto.
        exists q, (num s1 q). auto. }
      split.
      * intros Ar n T Hn. rewrite (taken_same s s1) in T by (auto; first [exact (pa_w _ _ _ _ _ P1)|exact (pa_h _ _ _ _ _ P1)]).
        apply (pa_cand _ _ _ _ _ P1) in Hn; auto. destruct Hn as [_ Hn]. apply Hn. split; auto.
      * intros Au N v C. rewrite NN1 in N by auto. apply NC. right. split; auto. exists p, v; auto.
Qed.

(** * Termination *)
Definition mass (s : sudoku) : nat := measure (box_width s) (box_height s) s.

Lemma pass_mass : forall ar au s s', wf s -> pass ar au s s' true ->
  (forall p, field s p -> ~ In 0 (cand s p)) -> (mass s' < mass s)%nat.
Proof.
  intros ar au s s' W P Z0. unfold mass, measure. rewrite (pa_w _ _ _ _ _ P), (pa_h _ _ _ _ _ P).
  assert (L : forall p, field s p -> (length (cand s' p) <= length (cand s p))%nat).
  { intros p Fp. apply NoDup_incl_length.
    - apply (sset_NoDup _ zcmp_good). apply cand_sset; [exact (pa_wf _ _ _ _ _ P)|]. apply (pass_field _ _ _ _ _ p P); auto.
    - intros n Hn. apply (pa_cand _ _ _ _ _ P) in Hn; tauto. }
  assert (E : forall p, field s p -> ((if Z.eqb (num s' p) 0 then 1 else 0) <= (if Z.eqb (num s p) 0 then 1 else 0))%nat).
  { intros p Fp. destruct (num s p =? 0) eqn:X; [destruct (num s' p =? 0); lia|]. b2p.
    rewrite (pass_keeps _ _ _ _ _ p P) by auto. rewrite (proj2 (Z.eqb_neq _ _) X). lia. }
  assert (Wt : forall p, field s p -> (weight s' p <= weight s p)%nat).
  { intros p Fp. unfold weight. specialize (L p Fp). specialize (E p Fp). lia. }
  destruct (proj1 (pa_changed _ _ _ _ _ P) eq_refl) as [[q [n [Fq [Hn Ht]]]]|[Au [q [v [Fq [N C]]]]]].
  - apply list_sum_lt with (a := q).
    + intros p Hp. apply in_cells in Hp. apply Wt; auto.
    + apply in_cells; auto.
    + unfold weight. specialize (E q Fq).
      assert (length (cand s' q) < length (cand s q))%nat; [|lia].
      assert (X : (length (n :: cand s' q) <= length (cand s q))%nat).
      { apply NoDup_incl_length.
        - constructor.
          + intros H. apply (pa_cand _ _ _ _ _ P) in H; tauto.
          + apply (sset_NoDup _ zcmp_good). apply cand_sset; [exact (pa_wf _ _ _ _ _ P)|]. apply (pass_field _ _ _ _ _ q P); auto.
        - intros m [<-|Hm]; auto. apply (pa_cand _ _ _ _ _ P) in Hm; tauto. }
      cbn in X; lia.
  - apply list_sum_lt with (a := q).
    + intros p Hp. apply in_cells in Hp. apply Wt; auto.
    + apply in_cells; auto.
    + unfold weight. specialize (L q Fq).
      destruct (pa_num _ _ _ _ _ P q Fq) as [[_ [_ X]]|[_ X]].
      * assert (V0 : num s' q <> 0).
        { intros Y. rewrite Y in X. apply (Z0 q Fq). apply (pa_cand _ _ _ _ _ P q 0 Fq). rewrite X; left; auto. }
        rewrite N, (proj2 (Z.eqb_neq _ _) V0). cbn. lia.
      * exfalso. apply X. eauto.
Qed.

Lemma loop_terminates : forall cfg verbose k s out ch, wf s -> small s verbose -> (mass s <= k)%nat ->
  (forall p, field s p -> ~ In 0 (cand s p)) ->
  exists st, forall fuel, (k < fuel)%nat -> autofill_loop fuel cfg verbose (mkFill s out ch) = (st, None).
Proof.
  intros cfg verbose k; induction k as [|k IH]; intros s out ch W Sm M Z0;
    destruct (pass_ok cfg verbose s out ch W Sm) as [s1 [o1 [c1 [E1 [O1 [P1 M1]]]]]];
    destruct c1; try (pose proof (pass_mass _ _ _ _ W P1 Z0); lia).
  - eexists. intros [|fuel] H; [lia|]. cbn [autofill_loop]. rewrite E1. reflexivity.
  - destruct (IH s1 (out ++ o1) true) as [st Hst].
    + exact (pa_wf _ _ _ _ _ P1).
    + eapply pass_small; eauto.
    + pose proof (pass_mass _ _ _ _ W P1 Z0); lia.
    + intros p Fp Hp. apply (pass_field _ _ _ _ _ p P1) in Fp. apply (pa_cand _ _ _ _ _ P1) in Hp; auto. apply (Z0 p); tauto.
    + exists st. intros [|fuel] H; [lia|]. cbn [autofill_loop]. rewrite E1. cbn [andthen f_changed]. apply Hst; lia.
  - eexists. intros [|fuel] H; [lia|]. cbn [autofill_loop]. rewrite E1. reflexivity.
Qed.

(** * Divergence *)
Lemma loop_diverges : forall cfg verbose fuel s out ch p, wf s -> small s verbose ->
  setting_on cfg (lit "autoset") = true -> field s p -> num s p = 0 -> cand s p = [0] ->
  snd (autofill_loop fuel cfg verbose (mkFill s out ch)) = Some OutOfFuel.
Proof.
  intros cfg verbose fuel; induction fuel as [|fuel IH]; intros s out ch p W Sm Au Fp N C; auto.
  cbn [autofill_loop]. destruct (pass_ok cfg verbose s out ch W Sm) as [s1 [o1 [c1 [E1 [O1 [P1 M1]]]]]].
  rewrite E1. cbn [andthen f_changed]. rewrite Au in *.
  assert (C1 : cand s1 p = [0]).
  { assert (H : forall n, In n (cand s1 p) <-> n = 0).
    { intros n. rewrite (pa_cand _ _ _ _ _ P1) by auto. rewrite C. cbn. split; [intuition|].
      intros ->. split; auto. intros [_ [q [_ [_ [X Y]]]]]. auto. }
    assert (Fp1 : field s1 p) by (apply (pass_field _ _ _ _ _ p P1); auto).
    pose proof (cand_sset s1 p (pa_wf _ _ _ _ _ P1) Fp1) as Sp.
    apply (sset_ext _ zcmp_good); auto; [repeat constructor|]. intros x; rewrite H; cbn; intuition. }
  assert (c1 = true) as ->.
  { apply (pa_changed _ _ _ _ _ P1). right. split; auto. exists p, 0; auto. }
  apply IH with (p := p); auto.
  - exact (pa_wf _ _ _ _ _ P1).
  - eapply pass_small; eauto.
  - apply (pass_field _ _ _ _ _ p P1); auto.
  - destruct (pa_num _ _ _ _ _ P1 p Fp) as [[_ [_ X]]|[X _]]; [|congruence]. rewrite C1 in X. congruence.
Qed.

(** * autofill *)
Lemma autofill_safe : forall cfg verbose fuel s s' out e, wf s -> small s verbose ->
  autofill fuel cfg verbose s = ((s', out), e) ->
  (e = None \/ e = Some OutOfFuel) /\ wf s' /\ box_size s' = box_size s /\
  (forall p, field s p -> num s p <> 0 -> num s' p = num s p) /\
  (forall p n, field s p -> In n (cand s' p) -> In n (cand s p)) /\
  (forall f, consistent s f -> consistent s' f) /\
  (e = None -> forall p, field s p ->
    (setting_on cfg (lit "autoremove") = true -> forall n, taken s' p n -> ~ In n (cand s' p)) /\
    (setting_on cfg (lit "autoset") = true -> num s' p = 0 -> forall v, cand s' p <> [v])).
Proof.
  intros cfg verbose fuel s s' out e W Sm H. unfold autofill in H.
  destruct (autofill_loop fuel cfg verbose (mkFill s [] true)) as [st e'] eqn:E. inversion H; subst.
  eapply loop_safe; eauto.
Qed.

Lemma autofill_terminates : forall cfg verbose s, wf s -> small s verbose -> (forall p, field s p -> ~ In 0 (cand s p)) ->
  exists s' out n, forall fuel, (n <= fuel)%nat -> autofill fuel cfg verbose s = ((s', out), None).
Proof.
  intros cfg verbose s W Sm Z0. destruct (loop_terminates cfg verbose (mass s) s [] true W Sm) as [st H]; auto.
  exists (f_sudoku st), (f_out st), (S (mass s)). intros fuel Hf. unfold autofill. rewrite H by lia. auto.
Qed.

Lemma autofill_diverges : forall cfg verbose fuel s p, wf s -> small s verbose ->
  is_set cfg (lit "autoset") true -> field s p -> num s p = 0 -> cand s p = [0] ->
  snd (autofill fuel cfg verbose s) = Some OutOfFuel.
Proof.
  intros cfg verbose fuel s p W Sm Au Fp N C. apply is_set_on in Au. unfold autofill.
  pose proof (loop_diverges cfg verbose fuel s [] true p W Sm Au Fp N C) as H.
  destruct (autofill_loop fuel cfg verbose (mkFill s [] true)) as [st e]. auto.
Qed.
