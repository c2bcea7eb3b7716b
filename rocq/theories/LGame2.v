(** Proofs about autofill: passes and the loop. *)
From Verif Require Export LGame.

Lemma forall2_app : forall {A B} (R : A -> B -> Prop) a b c d, Forall2 R a b -> Forall2 R c d -> Forall2 R (a ++ c) (b ++ d).
Proof. intros; apply Forall2_app; auto. Qed.

Definition nonempty {A} (l : list A) : bool := existsb (fun _ => true) l.
Lemma nonempty_app : forall {A} (a b : list A), nonempty (a ++ b) = nonempty a || nonempty b.
Proof. intros; unfold nonempty; apply existsb_app. Qed.

Lemma sur_same : forall s t D p, shrink s t D -> sur t p = sur s p.
Proof. intros s t D p [_ [A1 [A2 _]]]. apply sur_dims; auto. Qed.

Lemma autoremove_all : forall verbose l s out ch, wf s -> (forall p, In p l -> field s p) -> small s verbose ->
  exists s' out' ms,
    for_each (autoremove verbose) l (mkFill s out ch) = (mkFill s' (out ++ out') (ch || nonempty ms), None) /\
    (verbose = false -> out' = []) /\
    (verbose = true -> exists ls, out' = concat ls /\ Forall2 autoremove_line ms ls) /\
    shrink s s' (fun q n => exists p, In p l /\ num s p <> 0 /\ n = num s p /\ In q (sur s p)) /\
    (forall q n, field s q -> ((In n (cand s q) /\ ~ In n (cand s' q)) <-> exists cs, In (n, cs) ms /\ In q cs)) /\
    (forall m, In m ms -> snd m <> [] /\ forall q, In q (snd m) -> field s q).
Proof.
  intros verbose l; induction l as [|p l IH]; intros s out ch W F Sm.
  - exists s, [], []. cbn [for_each]. unfold nonempty; cbn [existsb]. rewrite app_nil_r, orb_false_r. splits; auto.
    + intros _; exists []; split; auto.
    + eapply shrink_ext; [apply shrink_refl; auto|]. intros q n _ _. split; [tauto|]. intros [p [[] _]].
    + intros q n _. split; [tauto|]. intros [cs [[] _]].

  - assert (Fp : field s p) by (apply F; left; auto).
    destruct (autoremove_ok verbose p s out ch W Fp Sm) as [s1 [o1 [m1 [E1 [O1 [P1 [S1 [R1 [I1 _]]]]]]]]].
    cbn [for_each]. rewrite E1. cbn [andthen].
    destruct (IH s1 (out ++ o1) (ch || nonempty m1)) as [s2 [o2 [m2 [E2 [O2 [P2 [S2 [R2 I2]]]]]]]].
    { apply S1. }
    { intros q Hq. apply (shrink_field _ _ _ q S1). apply F; right; auto. }
    { destruct Sm as [|Sm]; [left; auto|right]. destruct S1 as [_ [A1 [A2 _]]]. unfold NN. rewrite A1, A2; auto. }
    exists s2, (o1 ++ o2), (m1 ++ m2). unfold nonempty in *. rewrite E2, existsb_app, app_assoc, orb_assoc. splits; auto.
    + intros V. rewrite O1, O2 by auto. auto.
    + intros V. destruct (P1 V) as [l1 [-> X1]]. destruct (P2 V) as [l2 [-> X2]]. exists (l1 ++ l2).
      rewrite concat_app. split; auto. apply Forall2_app; auto.
    + eapply shrink_ext; [eapply shrink_trans; [exact S1|exact S2]|]. intros q n _ _.
      assert (Hn : forall x, num s1 x = num s x) by apply S1. split.
      * intros [[A [B C]]|[x [A [B [C D]]]]]; [exists p; cbn; auto|].
        exists x. rewrite Hn in *. rewrite (sur_same _ _ _ x S1) in D. cbn; auto.
      * intros [x [[<-|A] [B [C D]]]]; auto. right. exists x. rewrite Hn, (sur_same _ _ _ x S1). auto.
    + intros q n Fq. assert (Fq1 : field s1 q) by (apply (shrink_field _ _ _ q S1); auto).
      specialize (R1 q n Fq). specialize (R2 q n Fq1).
      assert (Z1 : In n (cand s1 q) -> In n (cand s q)) by (intros X; apply S1 in X; tauto).
      assert (Z2 : In n (cand s2 q) -> In n (cand s1 q)) by (intros X; apply S2 in X; tauto).
      split.
      * intros [A B]. destruct (in_dec Z.eq_dec n (cand s1 q)) as [C|C].
        -- destruct (proj1 R2) as [cs [X Y]]; auto. exists cs; rewrite in_app_iff; auto.
        -- destruct (proj1 R1) as [cs [X Y]]; auto. exists cs; rewrite in_app_iff; auto.
      * intros [cs [X Y]]. apply in_app_iff in X. destruct X as [X|X].
        -- destruct (proj2 R1) as [A B]; eauto.
        -- destruct (proj2 R2) as [A B]; eauto.
    + intros m Hm. apply in_app_iff in Hm. destruct Hm as [Hm|Hm].
      * destruct (I1 m Hm) as [A B]. split; auto. intros q Hq. apply B in Hq. apply in_sur in Hq; tauto.
      * destruct (I2 m Hm) as [A B]. split; auto. intros q Hq. apply (shrink_field _ _ _ q S1); auto.
Qed.

(** * autoset *)
Definition single (s : sudoku) (p : coord) : bool :=
  (num s p =? 0) && match cand s p with [_] => true | _ => false end.

Lemma single_iff : forall s p, single s p = true <-> num s p = 0 /\ exists v, cand s p = [v].
Proof.
  intros s p; unfold single. rewrite andb_true_iff, Z.eqb_eq.
  destruct (cand s p) as [|v [|x l]]; split; intros [A B]; split; auto; try discriminate.
  - destruct B; discriminate.
  - eauto.
  - destruct B; discriminate.
Qed.

Lemma autoset_ok : forall verbose p s out ch, wf s -> field s p -> small s verbose ->
  exists out', (verbose = false -> out' = []) /\
    autoset verbose p (mkFill s out ch) =
      (mkFill (if single s p then pset s p (hd 0 (cand s p)) else s) (out ++ out') (ch || single s p), None).
Proof.
  intros verbose [r c] s out ch W F Sm. unfold autoset. cbn [f_sudoku f_out f_changed].
  rewrite getitem_ok by auto. cbn [with_value]. unfold single.
  destruct (num s (r, c) =? 0) eqn:E; cbn [negb andb].
  2: { exists []. rewrite app_nil_r, orb_false_r; auto. }
  rewrite get_candidates_ok by auto. cbn [with_value].
  destruct (cand s (r, c)) as [|v [|x l]]; try (exists []; rewrite app_nil_r, orb_false_r; auto; fail).
  rewrite setitem_ok by auto. cbn [with_value f_out hd]. rewrite orb_true_r. destruct verbose.
  - destruct Sm as [|Sm]; [discriminate|].
    destruct (nencode_small s [(r, c)] W Sm) as [t Et]; [intros p [<-|[]]; auto|].
    unfold coord in *. rewrite Et. cbn [with_value]. eexists. split; [discriminate|]. reflexivity.
  - exists []. rewrite app_nil_r. auto.
Qed.

(** The numbers are set where there is a single candidate; nothing else changes. *)
Definition sets (s s' : sudoku) (l : list coord) : Prop :=
  wf s' /\ box_width s' = box_width s /\ box_height s' = box_height s /\
  (forall p, cand s' p = cand s p) /\
  (forall q, field s q -> num s' q = if existsb (coord_eqb q) l && single s q then hd 0 (cand s q) else num s q).

Lemma autoset_all : forall verbose l s out ch, wf s -> NoDup l -> (forall p, In p l -> field s p) -> small s verbose ->
  exists s' out', (verbose = false -> out' = []) /\
    for_each (autoset verbose) l (mkFill s out ch) = (mkFill s' (out ++ out') (ch || existsb (single s) l), None) /\
    sets s s' l.
Proof.
  intros verbose l; induction l as [|p l IH]; intros s out ch W ND F Sm.
  - exists s, []. cbn [for_each existsb]. rewrite app_nil_r, orb_false_r. splits; auto. unfold sets; splits; auto.
  - inversion ND as [|? ? Np ND']; subst. assert (Fp : field s p) by (apply F; left; auto).
    destruct (autoset_ok verbose p s out ch W Fp Sm) as [o1 [O1 E1]].
    cbn [for_each]. rewrite E1. cbn [andthen].
    set (s1 := if single s p then pset s p (hd 0 (cand s p)) else s).
    assert (W1 : wf s1) by (unfold s1; destruct (single s p); auto; apply pset_wf; auto).
    assert (D1 : box_width s1 = box_width s /\ box_height s1 = box_height s) by (unfold s1; destruct (single s p); auto).
    assert (F1 : forall q, field s1 q <-> field s q) by (intros q; unfold field; destruct D1 as [-> ->]; tauto).
    assert (C1 : forall q, cand s1 q = cand s q) by (intros q; unfold s1; destruct (single s p); auto).
    assert (N1 : forall q, field s q -> num s1 q = if coord_eqb q p && single s p then hd 0 (cand s p) else num s q).
    { intros q Fq. unfold s1. destruct (single s p); [rewrite num_pset by auto; rewrite andb_true_r; auto|].
      rewrite andb_false_r; auto. }
    assert (Sq : forall q, In q l -> single s1 q = single s q).
    { intros q Hq. unfold single. rewrite C1, N1 by (apply F; right; auto).
      assert (N : coord_eqb q p = false).
      { apply not_true_iff_false. intros X. apply coord_eqb_eq in X. subst; contradiction. }
      rewrite N; auto. }
    destruct (IH s1 (out ++ o1) (ch || single s p)) as [s2 [o2 [O2 [E2 S2]]]]; auto.
    { intros q Hq. apply F1. apply F; right; auto. }
    { destruct Sm as [|Sm]; [left; auto|right]. unfold NN. destruct D1 as [-> ->]; auto. }
    exists s2, (o1 ++ o2). splits.
    + intros V; rewrite O1, O2; auto.
    + rewrite E2, app_assoc. cbn [existsb]. rewrite orb_assoc. do 2 f_equal.
      f_equal. clear - Sq. induction l as [|x l IH]; auto. cbn [existsb]. rewrite Sq by (left; auto).
      f_equal. apply IH. intros; apply Sq; right; auto.
    + destruct S2 as [A1 [A2 [A3 [A4 A5]]]], D1 as [D1 D2]. unfold sets; splits; auto; try congruence.
      * intros q Fq. rewrite A5 by (apply F1; auto). rewrite C1, N1 by auto. cbn [existsb].
        destruct (existsb (coord_eqb q) l) eqn:X; cbn [andb orb].
        -- assert (Hq : In q l).
           { apply existsb_exists in X. destruct X as [y [Y1 Y2]]. apply coord_eqb_eq in Y2; subst; auto. }
           rewrite Sq, orb_true_r by auto. cbn [andb]. destruct (single s q); auto.
           assert (N : coord_eqb q p = false).
           { apply not_true_iff_false. intros Y. apply coord_eqb_eq in Y. subst; contradiction. }
           rewrite N; auto.
        -- rewrite orb_false_r. destruct (coord_eqb q p) eqn:Y; cbn [andb]; auto.
           apply coord_eqb_eq in Y; subst; auto.
Qed.

(** * A pass *)
Definition removable (ar : bool) (s : sudoku) (q : coord) (n : Z) : Prop := ar = true /\ taken s q n.

Record pass (ar au : bool) (s s' : sudoku) (ch : bool) : Prop := {
  pa_wf : wf s';
  pa_w : box_width s' = box_width s;
  pa_h : box_height s' = box_height s;
  pa_cand : forall q n, field s q -> (In n (cand s' q) <-> In n (cand s q) /\ ~ removable ar s q n);
  pa_num : forall q, field s q ->
    (au = true /\ num s q = 0 /\ cand s' q = [num s' q]) \/
    (num s' q = num s q /\ ~ (au = true /\ num s q = 0 /\ exists v, cand s' q = [v]));
  pa_changed : ch = true <->
    (exists q n, field s q /\ In n (cand s q) /\ removable ar s q n) \/
    (au = true /\ exists q v, field s q /\ num s q = 0 /\ cand s' q = [v])
}.

Lemma taken_sur : forall s q n, wf s -> field s q ->
  ((exists p, In p (coords s) /\ num s p <> 0 /\ n = num s p /\ In q (sur s p)) <-> taken s q n).
Proof.
  intros s q n W F. unfold taken. split; intros [p H]; exists p.
  - destruct H as [A [B [C D]]]. apply in_coords in A. apply in_sur in D; auto. destruct D; splits; auto.
  - destruct H as [A [B [C D]]]. splits; auto; [apply in_coords; auto|]. apply in_sur; auto.
Qed.

Lemma pass_ok : forall cfg verbose s out ch, wf s -> small s verbose ->
  exists s' out' ch',
    autofill_pass cfg verbose (mkFill s out ch) = (mkFill s' (out ++ out') ch', None) /\
    (verbose = false -> out' = []) /\
    pass (setting_on cfg (lit "autoremove")) (setting_on cfg (lit "autoset")) s s' ch' /\
    (setting_on cfg (lit "autoset") = false -> verbose = true -> exists ms ls, out' = concat ls /\ Forall2 autoremove_line ms ls /\
       (forall m, In m ms -> snd m <> [] /\ forall q, In q (snd m) -> field s q) /\
       (forall q n, field s q -> ((In n (cand s q) /\ ~ In n (cand s' q)) <-> exists cs, In (n, cs) ms /\ In q cs))).
Proof.
  intros cfg verbose s out ch W Sm. unfold autofill_pass. cbn [f_sudoku f_out f_changed].
  set (ar := setting_on cfg (lit "autoremove")). set (au := setting_on cfg (lit "autoset")).
  assert (R : exists s1 o1 c1,
     (if ar then for_each (autoremove verbose) (coords s) (mkFill s out false) else (mkFill s out false, None))
       = (mkFill s1 (out ++ o1) c1, None) /\ (verbose = false -> o1 = []) /\
     shrink s s1 (removable ar s) /\
     (c1 = true <-> exists q n, field s q /\ In n (cand s q) /\ removable ar s q n) /\
     (verbose = true -> exists ms ls, o1 = concat ls /\ Forall2 autoremove_line ms ls /\
       (forall m, In m ms -> snd m <> [] /\ forall q, In q (snd m) -> field s q) /\
       (forall q n, field s q -> ((In n (cand s q) /\ ~ In n (cand s1 q)) <-> exists cs, In (n, cs) ms /\ In q cs)))).
  { destruct ar.
    - destruct (autoremove_all verbose (coords s) s out false W) as [s1 [o1 [ms [E [O [P [S [Rm I]]]]]]]]; auto.
      { intros p; apply in_coords. }
      assert (S' : shrink s s1 (removable true s)).
      { eapply shrink_ext; [exact S|]. intros q n Fq _. cbv beta. unfold removable. rewrite taken_sur by auto. intuition. }
      exists s1, o1, (nonempty ms). splits; auto.
      + split.
        * intros H. destruct ms as [|[n cs] ms]; [discriminate|].
          destruct (I (n, cs)) as [I1 I2]; [left; auto|]. cbn [snd] in *. destruct cs as [|q cs]; [congruence|].
          assert (Fq : field s q) by (apply I2; left; auto).
          destruct (proj2 (Rm q n Fq)) as [A B]; [exists (q :: cs); cbn; auto|].
          exists q, n. splits; auto. destruct S' as [_ [_ [_ [_ S']]]]. rewrite S' in B by auto.
          split; auto. destruct S as [_ [_ [_ [_ S]]]]. 
          assert (D : ~ ~ taken s q n) by (intros X; apply B; split; auto; intros [_ Y]; auto).
          (* constructive: the removal is witnessed *)
          assert (Dec : {taken s q n} + {~ taken s q n}).
          { destruct (existsb (fun p => negb (num s p =? 0) && (num s p =? n) && existsb (coord_eqb q) (sur s p)) (coords s)) eqn:X.
            - left. apply taken_sur; auto. apply existsb_exists in X. destruct X as [p [X1 X2]]. b2p.
              apply existsb_exists in H1. destruct H1 as [q' [Y1 Y2]]. apply coord_eqb_eq in Y2. subst. exists p; auto.
            - right. intros T. apply taken_sur in T; auto. destruct T as [p [X1 [X2 [X3 X4]]]].
              rewrite <- not_true_iff_false in X. apply X. apply existsb_exists. exists p. split; auto.
              rewrite !andb_true_iff. splits.
              + apply negb_true_iff, Z.eqb_neq; auto.
              + apply Z.eqb_eq; auto.
              + apply existsb_exists. exists q. split; auto. apply coord_eqb_refl. }
          destruct Dec; auto; contradiction.
        * intros [q [n [Fq [Hn Hr]]]]. destruct S' as [_ [_ [_ [_ S']]]].
          destruct (proj1 (Rm q n Fq)) as [cs [X _]].
          { split; auto. rewrite S' by auto. tauto. }
          destruct ms; [destruct X|auto].
      + intros V. destruct (P V) as [ls [-> X]]. exists ms, ls. splits; auto.
    - exists s, [], false. rewrite app_nil_r. splits; auto.
      + eapply shrink_ext; [apply shrink_refl; auto|]. unfold removable. intros; split; [tauto|]. intros [X _]; discriminate.
      + split; [discriminate|]. intros [q [n [_ [_ [X _]]]]]; discriminate.
      + intros _. exists [], []. splits; auto.
        * intros m [].
        * intros q n Fq. split; [tauto|]. intros [cs [[] _]]. }
  destruct R as [s1 [o1 [c1 [E1 [O1 [S1 [H1 M1]]]]]]]. unfold coord in *. rewrite E1. cbn [andthen f_sudoku].
  assert (C1 : coords s1 = coords s) by (destruct S1 as [_ [A1 [A2 _]]]; unfold coords, indices; rewrite A1, A2; auto).
  assert (F1 : forall q, field s1 q <-> field s q) by (intros q; eapply shrink_field; eauto).
  destruct au.
  - destruct (autoset_all verbose (coords s1) s1 (out ++ o1) c1) as [s2 [o2 [O2 [E2 S2]]]].
    { apply S1. }
    { apply NoDup_coords. }
    { intros p; apply in_coords. }
    { destruct Sm as [|Sm]; [left; auto|right]. destruct S1 as [_ [A1 [A2 _]]]. unfold NN. rewrite A1, A2; auto. }
    unfold coord in *. rewrite E2. exists s2, (o1 ++ o2), (c1 || existsb (single s1) (coords s1)).
    destruct S1 as [A1 [A2 [A3 [A4 A5]]]]. destruct S2 as [B1 [B2 [B3 [B4 B5]]]].
    rewrite app_assoc. splits; auto.
    + intros V; rewrite O1, O2; auto.
    + constructor; auto; try congruence.
      * intros q n Fq. rewrite B4. auto.
      * intros q Fq. rewrite B5 by (apply F1; auto).
        assert (X : existsb (coord_eqb q) (coords s1) = true) by (apply existsb_coords, F1; auto).
        rewrite X. cbn [andb]. rewrite B4. destruct (single s1 q) eqn:E.
        -- left. apply single_iff in E. destruct E as [N [v C]]. rewrite C. cbn [hd]. splits; auto. rewrite <- A4; auto.
        -- right. split; auto. intros [_ [N [v C]]]. rewrite <- not_true_iff_false in E. apply E.
           apply single_iff. rewrite A4. eauto.
      * rewrite orb_true_iff, H1, existsb_exists. split; intros [H|H]; auto.
        -- right. split; auto. destruct H as [q [Hq E]]. apply in_coords, F1 in Hq. apply single_iff in E.
           destruct E as [N [v C]]. exists q, v. rewrite B4. splits; auto. rewrite <- A4; auto.
        -- right. destruct H as [_ [q [v [Fq [N C]]]]]. exists q. rewrite B4 in C. split; [apply in_coords, F1; auto|].
           apply single_iff. rewrite A4. eauto.
    + discriminate.
  - exists s1, o1, c1. splits; auto. destruct S1 as [A1 [A2 [A3 [A4 A5]]]]. constructor; auto.
    + intros q Fq. right. split; auto. intros [X _]; discriminate.
    + rewrite H1. split; auto. intros [|[X _]]; auto. discriminate.
Qed.
