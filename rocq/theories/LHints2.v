(** Lemmas for C125: always applying the first hint. *)
From Verif Require Export LHints.

Lemma find_nil : forall o s cls, oracle_ok o -> wf s -> cls <> Bruteforce -> cls <> BasicFish 0 -> all_steps o cls s (gyields (MSolvers.find o cls s) s).
Proof. intros o s cls Ho W D N0. unfold all_steps, glist. rewrite find_runs; auto. Qed.

Section follow.
Variables (w h : Z) (Hw : 1 <= w) (Hh : 1 <= h).

Lemma follow_kept : forall n u os, (forall i, oracle_ok (os i)) -> kept w h u -> (measure w h u < n)%nat ->
  exists v, hinted u v /\ stuck 7 v /\ forall m, (n <= m)%nat -> follow m os u = Ok v.
Proof.
  induction n as [|n IH]; intros u os Ho K M; [lia|]. assert (W : wf u) by apply K.
  destruct (glist (hints (os O) u) u) as [[|st ys]|e] eqn:E.
  - exists u. split; [constructor|]. split; [apply (no_hints_stuck w h (os O)); auto|].
    intros m Lm. destruct m as [|m]; [lia|]. cbn [follow]. rewrite E. reflexivity.
  - assert (X : offered u st) by (exists (os O), (st :: ys); split; auto; split; auto; left; auto).
    pose proof X as Y. apply offered_iff in Y; auto. destruct Y as [o [c [zs [k [Hoo [Hy [Hst [Hk Lk]]]]]]]].
    destruct (kept_step w h Hw Hh o c k u Hoo K Hk) as [zs' [Hy' H]]. unfold all_steps in *. assert (zs' = zs) by congruence. subst zs'.
    destruct (H st Hst) as [st' [u' [A [K' [_ M']]]]].
    destruct (IH u' (fun i => os (S i)) (fun i => Ho (S i)) K' ltac:(lia)) as [v [P [St F]]].
    exists v. split; [econstructor; eauto|]. split; auto. intros m Lm. destruct m as [|m]; [lia|]. cbn [follow]. rewrite E, A. apply F. lia.
  - rewrite (hints_list (os O) u (Ho O) W) in E. discriminate.
Qed.

Variables (s t : sudoku) (f : grid).
Hypotheses (O : ok_sudoku w h s) (Hf : solution s f) (Et : init_candidates s false = Ok t).

Lemma calc_step : forall u p, ok_sudoku w h u -> cell w h p -> exists st' u', apply (new_step CalculateCandidates [p] [p] (pcalc u p)) u = Ok (st', u') /\
  ok_sudoku w h u' /\ (forall q, cell w h q -> num u' q = num u q) /\ forall q, cell w h q -> cand u' q = if coord_eqb q p then pcalc u p else cand u q.
Proof.
  intros u p Ou Cp. set (st0 := new_step CalculateCandidates [p] [p] (pcalc u p)). pose proof Ou as [Wu [Ewu Ehu]].
  assert (Sh : shaped w h st0).
  { split; simpl; [intros q [<-|[]]; destruct p; auto|]. exists p; destruct p; auto. }
  destruct (apply_ok w h st0 u Ou Sh eq_refl) as [st' [t' [E1 [E2 [E3 [E4 [E5 [E6 E7]]]]]]]].
  assert (Ea : affected st' = [p]) by (rewrite E4; destruct p; auto).
  assert (Ev : forall x, In x (values st') <-> In x (pcalc u p)).
  { intros x. rewrite E5. unfold st0; simpl. apply (in_py_sorted _ zcmp_good). }
  destruct E7 as [W' [Ew' [Eh' X]]]. rewrite E2 in X. cbn [st_class st0 new_step] in X.
  destruct X as [X1 X2]. rewrite Ea in X2. cbn [existsb] in X2.
  exists st', t'. split; [exact E1|]. split; [split; [auto|split; congruence]|]. split; [auto|].
  intros q Cq. apply (sset_ext _ zcmp_good).
  - apply cand_sset; auto. unfold field; rewrite Ew', Eh'; auto.
  - destruct (coord_eqb q p); [apply pcalc_sset|]. apply cand_sset; auto. unfold field; rewrite Ewu, Ehu; auto.
  - intros x. rewrite X2 by auto. rewrite orb_false_r. destruct (coord_eqb q p); auto. reflexivity.
Qed.

Lemma follow_calc : forall post pre u, coords s = pre ++ post -> ok_sudoku w h u -> (forall p, cell w h p -> num u p = num s p) ->
  (forall p, cell w h p -> cand u p = if existsb (coord_eqb p) pre then pcalc s p else []) ->
  forall os, (forall i, oracle_ok (os i)) ->
  forall m, follow (length post + m) os u = follow m (fun i => os (length post + i)%nat) t.
Proof.
  assert (Cc : forall p, In p (coords s) <-> cell w h p).
  { intros p. rewrite in_coords. unfold field. destruct O as [_ [-> ->]]. reflexivity. }
  induction post as [|p post IH]; intros pre u Es Ou Nu Cu os Ho m.
  - cbn [length plus]. replace u with t; [reflexivity|]. pose proof Ou as [Wu [Ewu Ehu]]. pose proof O as [W [Ew Eh]].
    destruct (start_cand s t W Et) as [Wt [Ewt [Eht [Nt Ct]]]]. rewrite app_nil_r in Es.
    apply sudoku_ext; auto; try congruence; intros p Fp; assert (Cp : cell w h p) by (unfold field in Fp; rewrite Ewt, Eht, Ew, Eh in Fp; auto).
    + rewrite Nt, Nu; auto.
    + rewrite Ct, Cu by (unfold field; rewrite ?Ew, ?Eh; auto). rewrite <- Es.
      replace (existsb (coord_eqb p) (coords s)) with true; auto. symmetry. apply existsb_exists. exists p. split; [apply Cc; auto|]. apply coord_eqb_eq; auto.
  - assert (Cp : cell w h p) by (apply Cc; rewrite Es; apply in_or_app; right; left; auto).
    pose proof Ou as [Wu [Ewu Ehu]]. pose proof O as [W [Ew Eh]].
    assert (Pe : forall q, cell w h q -> pcalc u q = pcalc s q).
    { intros q Cq. apply pcalc_ext; auto; try congruence.
      - unfold field. rewrite Ewu, Ehu. auto.
      - intros q' F'. apply Nu. unfold field in F'. rewrite Ewu, Ehu in F'. auto. }
    assert (Ne : forall q, cell w h q -> pcalc s q <> []).
    { intros q Cq E. pose proof (pcalc_solution s f q W Hf) as X. rewrite E in X. apply X. unfold field. rewrite Ew, Eh. auto. }
    assert (Nd : NoDup (pre ++ p :: post)) by (rewrite <- Es; apply NoDup_coords).
    assert (Np : existsb (coord_eqb p) pre = false).
    { destruct (existsb (coord_eqb p) pre) eqn:X; auto. apply existsb_exists in X as [q [X1 X2]]. apply coord_eqb_eq in X2. subst q.
      apply NoDup_remove_2 in Nd. destruct Nd. apply in_or_app. auto. }
    assert (Cs : coords u = coords s) by (unfold coords, indices; rewrite Ewu, Ehu, Ew, Eh; reflexivity).
    assert (Hd : exists ys, glist (hints (os Datatypes.O) u) u = Ok (new_step CalculateCandidates [p] [p] (pcalc u p) :: ys)).
    { rewrite (hints_list (os Datatypes.O) u (Ho Datatypes.O) Wu). cbn [flat_map hint_classes MSolvers.find].
      destruct (calculate_runs u Wu) as [R1 R2]. rewrite R2, Cs, Es.
      rewrite flat_map_app. cbn [flat_map].
      replace (flat_map _ pre) with (@nil step).
      2:{ symmetry. assert (Hp : forall q, In q pre -> cell w h q) by (intros q Hq; apply Cc; rewrite Es; apply in_or_app; auto).
          assert (Hq : forall q, In q pre -> cand u q <> []).
          { intros q Hq. rewrite Cu by auto. replace (existsb (coord_eqb q) pre) with true; [apply Ne; auto|].
            symmetry. apply existsb_exists. exists q. split; auto. apply coord_eqb_eq; auto. }
          clear - Hq. induction pre as [|q pre IHp]; auto. cbn [flat_map]. rewrite IHp by (intros; apply Hq; right; auto).
          pose proof (Hq q (or_introl eq_refl)). destruct (cand u q); [congruence|reflexivity]. }
      rewrite (Cu p Cp), Np. cbn [app]. eexists. reflexivity. }
    destruct Hd as [ys Hd]. destruct (calc_step u p Ou Cp) as [st' [u' [A [Ou' [Nu' Cu']]]]].
    cbn [length plus follow]. rewrite Hd, A.
    rewrite (IH (pre ++ [p]) u'); auto.
    + rewrite <- app_assoc. exact Es.
    + intros q Cq. rewrite Nu', Nu; auto.
    + intros q Cq. rewrite Cu', existsb_app, Pe by auto. cbn [existsb]. rewrite orb_false_r.
      destruct (coord_eqb q p) eqn:X; [apply coord_eqb_eq in X; subst q; rewrite orb_true_r; auto|]. rewrite orb_false_r. apply Cu; auto.
Qed.
End follow.

Lemma C125_first_proof : forall os s t f, (forall i, oracle_ok (os i)) -> wf s -> solution s f -> (forall p, field s p -> cand s p = []) ->
  init_candidates s false = Ok t ->
  exists n u, (forall m, (n <= m)%nat -> follow m os s = Ok u) /\ hinted t u /\ forall o, oracle_ok o -> no_hints o u.
Proof.
  intros os s t f Ho W Hf Hc Et.
  set (w := box_width s). set (h := box_height s). assert (O : ok_sudoku w h s) by (split; auto).
  assert (Hw : 1 <= w) by apply (wf_w _ W). assert (Hh : 1 <= h) by apply (wf_h _ W).
  pose proof (start_kept w h Hw Hh s t f O Hf Et) as Kt.
  assert (F1 := follow_calc w h s t f O Hf Et (coords s) [] s eq_refl O (fun p _ => eq_refl) (fun p Cp => Hc p Cp) os Ho).
  destruct (follow_kept w h Hw Hh (S (measure w h t)) t (fun i => os (length (coords s) + i)%nat) (fun i => Ho _) Kt) as [v [P [St F2]]]; [lia|].
  exists (length (coords s) + S (measure w h t))%nat, v. split; [|split; auto].
  - intros m Lm. replace m with (length (coords s) + (m - length (coords s)))%nat by lia. rewrite F1. apply F2. lia.
  - intros o Hoo. apply (no_hints_stuck w h); auto. apply (play_kept w h Hw Hh 7 t v); auto. apply (hinted_play w h); auto.
Qed.
