(** The properties C35-C47 about solvers.py and rate/score. *)
From Verif Require Export LSolvers4 MRate.

Lemma yields_when_mono : forall {R} (ok ok' : sudoku -> Prop) (g : gen sudoku step R) s t st,
  (forall u, ok u -> ok' u) -> yields_when ok g s t st -> yields_when ok' g s t st.
Proof. intros R ok ok' g s t st H Y; induction Y; econstructor; eauto. Qed.

Lemma raises_when_mono : forall {R} (ok ok' : sudoku -> Prop) (g : gen sudoku step R) s e,
  (forall u, ok u -> ok' u) -> raises_when ok g s e -> raises_when ok' g s e.
Proof. intros R ok ok' g s e H Y; induction Y; econstructor; eauto. Qed.

Lemma yields_when_ok : forall {R} (ok : sudoku -> Prop) (g : gen sudoku step R) s t st,
  ok s -> yields_when ok g s t st -> ok t.
Proof. intros R ok g s t st H Y; induction Y; auto. Qed.

Lemma like_ok : forall s t, like s t <-> ok_sudoku (box_width s) (box_height s) t.
Proof.
  intros s t. unfold like, ok_sudoku, box_size. split.
  - intros [W B]. injection B as B1 B2. auto.
  - intros [W [B1 B2]]. split; auto. congruence.
Qed.

Lemma like_refl : forall s, wf s -> like s s.
Proof. intros; split; auto. Qed.

Lemma like_field : forall s t p, like s t -> (field t p <-> field s p).
Proof. intros s t p H. apply like_ok in H. destruct H as [_ [E1 E2]]. unfold field; rewrite E1, E2; tauto. Qed.

(** The invariant for one solution. *)
Lemma consistent_SInv : forall s t f, like s t -> consistent t f ->
  SInv (box_width s) (box_height s) (eq f) t.
Proof.
  intros s t f L [[V E] C]. apply like_ok in L. pose proof L as [W [E1 E2]].
  apply one_SInv; auto.
  - rewrite <- E1, <- E2; auto.
  - intros p Cp. apply E. unfold field; rewrite E1, E2; auto.
  - intros p Cp. apply C. unfold field; rewrite E1, E2; auto.
Qed.

Lemma SInv_consistent : forall s t f, valid_grid (box_width s) (box_height s) f ->
  SInv (box_width s) (box_height s) (eq f) t -> like s t /\ consistent t f.
Proof.
  intros s t f V S. pose proof (SInv_ok _ _ _ _ S) as L. pose proof L as [W [E1 E2]].
  split; [apply like_ok; auto|]. split; [split|].
  - rewrite E1, E2; auto.
  - intros p Fp. unfold field in Fp; rewrite E1, E2 in Fp. apply (si_num _ _ _ _ S); auto.
  - intros p Fp. unfold field in Fp; rewrite E1, E2 in Fp. apply (si_cand _ _ _ _ S); auto.
Qed.

(** * Soundness of the steps *)
Lemma sound_apply : forall s f u st, valid_grid (box_width s) (box_height s) f ->
  like s u -> consistent u f ->
  shaped (box_width s) (box_height s) st -> actions st = [] -> sound f st ->
  exists st' u', apply st u = Ok (st', u') /\ like s u' /\ consistent u' f /\
     effect (box_width s) (box_height s) st' u u' /\ st_class st' = st_class st /\
     affected st' = affected st /\ values st' = values st.
Proof.
  intros s f u st V Lu Cu Sh Ac So.
  pose proof (proj1 (like_ok s u) Lu) as Ou.
  destruct (apply_ok _ _ st u Ou Sh Ac) as [st' [u' [E1 [E2 [E3 [E4 [E5 [E6 E7]]]]]]]].
  assert (S' : SInv (box_width s) (box_height s) (eq f) u').
  { apply (effect_SInv (box_width s) (box_height s) (eq f)) with (st := st') (s := u); auto.
    - intros g <-; auto.
    - apply consistent_SInv; auto.
    - intros g <-. eapply sound_same; eauto.
    - rewrite E4. apply Sh. }
  destruct (SInv_consistent s u' f V S') as [L' C'].
  exists st', u'. splits; auto.
Qed.

Lemma step_sound : forall o cls s f t st, oracle_ok o -> wf s -> consistent s f ->
  cls <> Bruteforce -> cls <> BasicFish 0 ->
  yields_when (fun u => like s u /\ consistent u f) (MSolvers.find o cls s) s t st ->
  step_good (box_width s) (box_height s) (eq f) cls t st.
Proof.
  intros o cls s f t st Ho W C N1 N2 Y.
  assert (V : valid_grid (box_width s) (box_height s) f) by apply C.
  assert (S : SInv (box_width s) (box_height s) (eq f) s) by (apply consistent_SInv; auto; apply like_refl; auto).
  eapply gsafe_yields.
  - apply (find_safe (box_width s) (box_height s) (wf_w _ W) (wf_h _ W) (eq f)) with (o := o) (s := s); eauto. intros g <-; auto.
  - eapply yields_when_mono; [|exact Y]. intros u [H1 H2]. apply consistent_SInv; auto.
Qed.

Lemma good_applies : forall s f cls t st, valid_grid (box_width s) (box_height s) f ->
  step_good (box_width s) (box_height s) (eq f) cls t st -> applies s f st.
Proof.
  intros s f cls t st V G u Lu Cu.
  destruct (sound_apply s f u st V Lu Cu) as [st' [u' [E1 [E2 [E3 _]]]]].
  - eapply good_shaped; eauto.
  - apply G.
  - apply G; auto.
  - exists st', u'; auto.
Qed.

Lemma C35_proof : forall o cls s f t st, oracle_ok o -> wf s -> consistent s f ->
  cls = NakedSingle \/ cls = HiddenSingle ->
  yields_when (fun u => like s u /\ consistent u f) (MSolvers.find o cls s) s t st ->
  exists p, field s p /\ affected st = [p] /\ values st = [f p] /\ num t p = 0 /\
    forall u, like s u -> consistent u f ->
      exists st' u', apply st u = Ok (st', u') /\ num u' p = f p /\ like s u' /\ consistent u' f.
Proof.
  intros o cls s f t st Ho W C Hc Y.
  assert (G : step_good (box_width s) (box_height s) (eq f) cls t st).
  { eapply step_sound; eauto; destruct Hc as [-> | ->]; discriminate. }
  assert (V : valid_grid (box_width s) (box_height s) f) by apply C.
  pose proof G as [G1 [G2 [G3 [G4 [G5 [G6 G7]]]]]].
  specialize (G7 f eq_refl). unfold sound in G7. unfold effective in G6. rewrite G1 in G6, G7.
  assert (So : sets_only f st) by (destruct Hc; subst cls; auto).
  destruct So as [p [P1 P2]].
  assert (Z0 : num t p = 0).
  { destruct Hc; subst cls; destruct G6 as [q [v [Q1 [Q2 [Q3 [Q4 _]]]]]]; congruence. }
  exists p. splits; auto.
  - apply G4. rewrite P1; left; auto.
  - intros u Lu Cu.
    destruct (sound_apply s f u st V Lu Cu) as [st' [u' [E1 [E2 [E3 [E4 [E5 [E6 E7]]]]]]]].
    + eapply good_shaped; eauto.
    + apply G2.
    + apply G; auto.
    + exists st', u'. splits; auto.
      destruct E4 as [_ [_ [_ E4]]]. rewrite E5, G1 in E4.
      assert (X : exists p v, affected st' = [p] /\ values st' = [v] /\
         (forall q, cell (box_width s) (box_height s) q -> num u' q = if coord_eqb q p then v else num u q)).
      { destruct Hc; subst cls; destruct E4 as [q [v [Q1 [Q2 [Q3 _]]]]]; exists q, v; auto. }
      destruct X as [q [v [Q1 [Q2 Q3]]]].
      assert (q = p) by congruence; subst q. assert (v = f p) by congruence; subst v.
      rewrite Q3 by (apply G4; rewrite P1; left; auto). rewrite coord_eqb_refl. auto.
Qed.

Lemma C36_naked_proof : forall o n s f t st, oracle_ok o -> wf s -> consistent s f ->
  yields_when (fun u => like s u /\ consistent u f) (MSolvers.find o (NakedTuple n) s) s t st ->
  never_removes f st /\ applies s f st.
Proof.
  intros o n s f t st Ho W C Y.
  assert (G : step_good (box_width s) (box_height s) (eq f) (NakedTuple n) t st).
  { eapply step_sound; eauto; discriminate. }
  split; [|eapply good_applies; eauto; apply C].
  pose proof G as [G1 [_ [_ [_ [_ [_ G7]]]]]]. specialize (G7 f eq_refl). unfold sound in G7. rewrite G1 in G7. auto.
Qed.

Lemma C36_hidden_proof : forall o n s f t st, oracle_ok o -> wf s -> consistent s f ->
  yields_when (fun u => like s u /\ consistent u f) (MSolvers.find o (HiddenTuple n) s) s t st ->
  never_drops f st /\ applies s f st.
Proof.
  intros o n s f t st Ho W C Y.
  assert (G : step_good (box_width s) (box_height s) (eq f) (HiddenTuple n) t st).
  { eapply step_sound; eauto; discriminate. }
  split; [|eapply good_applies; eauto; apply C].
  pose proof G as [G1 [_ [_ [_ [_ [_ G7]]]]]]. specialize (G7 f eq_refl). unfold sound in G7. rewrite G1 in G7. auto.
Qed.

Lemma C37_proof : forall o n s f t st, oracle_ok o -> wf s -> consistent s f ->
  yields_when (fun u => like s u /\ consistent u f) (MSolvers.find o (PointingTuple n) s) s t st ->
  never_removes f st /\ applies s f st.
Proof.
  intros o n s f t st Ho W C Y.
  assert (G : step_good (box_width s) (box_height s) (eq f) (PointingTuple n) t st).
  { eapply step_sound; eauto; discriminate. }
  split; [|eapply good_applies; eauto; apply C].
  pose proof G as [G1 [_ [_ [_ [_ [_ G7]]]]]]. specialize (G7 f eq_refl). unfold sound in G7. rewrite G1 in G7. auto.
Qed.

Lemma C38_proof : forall o n s f t st, oracle_ok o -> wf s -> consistent s f -> (1 <= n)%nat ->
  yields_when (fun u => like s u /\ consistent u f) (MSolvers.find o (BasicFish n) s) s t st ->
  never_removes f st /\ applies s f st.
Proof.
  intros o n s f t st Ho W C Hn Y.
  assert (G : step_good (box_width s) (box_height s) (eq f) (BasicFish n) t st).
  { eapply step_sound; eauto; try discriminate. intros E; inv E; lia. }
  split; [|eapply good_applies; eauto; apply C].
  pose proof G as [G1 [_ [_ [_ [_ [_ G7]]]]]]. specialize (G7 f eq_refl). unfold sound in G7. rewrite G1 in G7. auto.
Qed.

(** * C39 *)
Lemma any_safe : forall o cls s, oracle_ok o -> wf s -> cls <> BasicFish 0 ->
  gsafe (SInv (box_width s) (box_height s) none) (step_good (box_width s) (box_height s) none cls)
     (fun t r => r = t /\ SInv (box_width s) (box_height s) none t) (MSolvers.find o cls s) s.
Proof.
  intros o cls s Ho W N.
  assert (O : ok_sudoku (box_width s) (box_height s) s) by (apply ok_intro; auto).
  pose proof (none_SInv _ _ s O) as S.
  assert (D : cls = Bruteforce \/ cls <> Bruteforce) by (destruct cls; auto; right; discriminate).
  destruct D as [->|D].
  - simpl. destruct (bruteforce_cases o s Ho W) as [[H1 H2]|[sol [Ws [Bs [Ss E]]]]].
    + rewrite H2. simpl; auto.
    + rewrite E. unfold box_size in Bs. injection Bs as B1 B2.
      apply bruteforce_safe; auto; [apply (wf_w _ W)|apply (wf_h _ W)|intros g []|intros g p []].
  - apply (find_safe _ _ (wf_w _ W) (wf_h _ W)); auto; intros g [].
Qed.

Lemma effective_changes : forall w h t st t', ok_sudoku w h t -> effective w h t st -> effect w h st t t' ->
  (forall p, In p (affected st) -> cell w h p) ->
  (st_class st = CalculateCandidates -> values st <> []) ->
  (st_class st = NakedSingle -> forall p, cell w h p -> ~ In 0 (cand t p)) ->
  forall p, In p (affected st) -> changed t t' p.
Proof.
  intros w h t st t' O Ef [_ [_ [_ E]]] Ca Hcalc Hnk p Hp. pose proof (Ca p Hp) as Cp.
  unfold effective in Ef.
  destruct (st_class st).
  - destruct E as [_ E]. destruct Ef as [q [Q1 [Q2 Q3]]]. rewrite Q2 in Hp. destruct Hp as [<-|[]].
    right. rewrite Q3. intros X. specialize (Hcalc eq_refl).
    destruct (values st) as [|v vs] eqn:Ev; [congruence|].
    assert (Y : In v (cand t' q)).
    { apply E; auto. rewrite Q2. cbn [existsb]. rewrite coord_eqb_refl. cbn [orb]. rewrite ?Ev; left; auto. }
    rewrite X in Y; destruct Y.
  - destruct Ef as [q [v [Q1 [Q2 [Q3 [Q4 Q5]]]]]]. destruct E as [q' [v' [R1 [R2 [R3 _]]]]].
    assert (q' = q) by congruence. assert (v' = v) by congruence. subst q' v'.
    rewrite Q2 in Hp. destruct Hp as [<-|[]]. left. rewrite R3 by auto. rewrite coord_eqb_refl, Q4.
    intros ->. apply (Hnk eq_refl q Cp). rewrite Q5; left; auto.
  - destruct Ef as [q [v [Q1 [Q2 [Q3 [Q4 Q5]]]]]]. destruct E as [q' [v' [R1 [R2 [R3 _]]]]].
    assert (q' = q) by congruence. assert (v' = v) by congruence. subst q' v'.
    rewrite Q2 in Hp. destruct Hp as [<-|[]]. left. rewrite R3 by auto. rewrite coord_eqb_refl, Q4. lia.
  - destruct E as [_ E]. destruct Ef as [_ Ef]. destruct (Ef p Hp) as [v [V1 V2]].
    right. intros X. assert (Y : In v (cand t' p)) by (rewrite X; auto). apply E in Y; tauto.
  - destruct E as [_ E]. destruct (Ef p Hp) as [v [V1 V2]].
    right. intros X. assert (Y : In v (cand t' p)) by (rewrite X; auto). apply E in Y; tauto.
  - destruct E as [_ E]. destruct Ef as [_ Ef]. destruct (Ef p Hp) as [v [V1 V2]].
    right. intros X. assert (Y : In v (cand t' p)) by (rewrite X; auto). apply E in Y; tauto.
  - destruct E as [_ E]. destruct Ef as [_ Ef]. destruct (Ef p Hp) as [v [V1 V2]].
    right. intros X. assert (Y : In v (cand t' p)) by (rewrite X; auto). apply E in Y; tauto.
  - destruct Ef as [q [v [Q1 [Q2 [Q3 Q4]]]]]. destruct E as [q' [v' [R1 [R2 [R3 _]]]]].
    assert (q' = q) by congruence. assert (v' = v) by congruence. subst q' v'.
    rewrite Q2 in Hp. destruct Hp as [<-|[]]. left. rewrite R3 by auto. rewrite coord_eqb_refl. auto.
Qed.

Lemma C39_proof : forall o cls s, oracle_ok o -> wf s -> cls <> BasicFish 0 ->
  (forall e, ~ raises_when (like s) (MSolvers.find o cls s) s e) /\
  (forall t st, yields_when (like s) (MSolvers.find o cls s) s t st ->
     st_class st = cls /\ affected st <> [] /\ (forall p, In p (affected st) -> field s p) /\
     (forall u, like s u -> exists st' u', apply st u = Ok (st', u') /\ like s u') /\
     (forall st' t', apply st t = Ok (st', t') ->
        (cls = CalculateCandidates -> values st <> []) ->
        (cls = NakedSingle -> forall p, field t p -> ~ In 0 (cand t p)) ->
        forall p, In p (affected st) -> changed t t' p)).
Proof.
  intros o cls s Ho W N.
  pose proof (any_safe o cls s Ho W N) as Sf.
  assert (M : forall u, like s u -> SInv (box_width s) (box_height s) none u).
  { intros u L. apply none_SInv, like_ok; auto. }
  split.
  - intros e R. eapply gsafe_no_raise; [exact Sf|]. eapply raises_when_mono; [exact M|exact R].
  - intros t st Y.
    assert (Lt : like s t) by (eapply yields_when_ok; [|exact Y]; apply like_refl; auto).
    pose proof (gsafe_yields _ _ _ _ _ _ _ Sf (yields_when_mono _ _ _ _ _ _ M Y)) as G.
    pose proof G as [G1 [G2 [G3 [G4 [G5 [G6 _]]]]]].
    pose proof (good_shaped _ _ _ _ _ _ G) as Sh.
    pose proof (proj1 (like_ok s t) Lt) as Ot. splits; auto.
    + intros u Lu.
      destruct (apply_ok _ _ st u (proj1 (like_ok s u) Lu) Sh G2) as [st' [u' [E1 [E2 [E3 [E4 [E5 [E6 E7]]]]]]]].
      exists st', u'. split; auto. apply like_ok. destruct E7 as [X1 [X2 [X3 _]]]. apply ok_intro; auto.
    + intros st' t' Ea H1 H2 p Hp.
      destruct (apply_ok _ _ st t Ot Sh G2) as [st2 [u' [E1 [E2 [E3 [E4 [E5 [E6 E7]]]]]]]].
      rewrite Ea in E1. injection E1 as <- <-.
      eapply effective_changes with (st := st'); eauto.
      * eapply effective_same; eauto.
      * rewrite E4; auto.
      * rewrite E2, E5, G1; auto.
      * rewrite E2, G1. intros X q Cq. apply H2; auto. apply like_field with (s := s); auto.
      * rewrite E4; auto.
Qed.

Lemma py_sorted_id : forall {A} (cmp : A -> A -> comparison) (G : good_cmp cmp) l,
  sset cmp l -> py_sorted cmp l = l.
Proof.
  intros A cmp G l H. apply (sorted_perm_eq cmp G).
  - apply py_sorted_sorted; auto.
  - clear -H G. induction H as [|x l H IH F]; constructor; auto.
    revert F; apply Forall_impl. intros y Hy. unfold cmp_leb. rewrite Hy. reflexivity.
  - apply py_sorted_perm.
Qed.

(** CalculateCandidates: the values of a step are the possible values. *)
Lemma calculate_exact : forall s, wf s ->
  gsafe (fun t => like s t) (fun t st => exists p, field s p /\ clues st = [p] /\ affected st = [p] /\
      cand t p = [] /\ calc_candidates t (fst p) (snd p) = Ok (values st))
    (fun t r => r = t /\ like s t) (calculate_find s) s.
Proof.
  intros s W. unfold calculate_find.
  apply (gsafe_gfor (fun t => like s t) (A := step) _ (fun acc t => acc = t /\ like s t)).
  2:{ split; auto. apply like_refl; auto. }
  intros p acc cur Hp [-> L]. apply in_coords in Hp.
  assert (Fc : field cur p) by (apply (like_field s cur p L); auto).
  eapply gsafe_lift; [destruct p as [r c]; apply get_candidates_ok; auto; apply L|].
  replace (fst p, snd p) with p by (destruct p; auto).
  destruct (cand cur p) eqn:E; [|simpl; auto].
  eapply gsafe_lift; [destruct p as [r c]; apply calc_candidates_ok; auto; apply L|].
  replace (fst p, snd p) with p by (destruct p; auto).
  apply gsafe_yield. exists p. splits; auto; try (destruct p; reflexivity).
  assert (Ev : values (new_step CalculateCandidates [p] [p] (pcalc cur p)) = pcalc cur p).
  { cbn [values new_step]. apply (py_sorted_id _ zcmp_good). apply pcalc_sset. }
  rewrite Ev. destruct p as [r c]; apply calc_candidates_ok; auto. apply L.
Qed.

Lemma C39_calculate_proof : forall s t st, wf s ->
  yields_when (like s) (calculate_find s) s t st ->
  exists p, field s p /\ clues st = [p] /\ affected st = [p] /\ cand t p = [] /\
    calc_candidates t (fst p) (snd p) = Ok (values st) /\
    forall f, solution t f -> In (f p) (values st).
Proof.
  intros s t st W Y.
  destruct (gsafe_yields _ _ _ _ _ _ _ (calculate_exact s W) Y) as [p [P1 [P2 [P3 [P4 P5]]]]].
  assert (Lt : like s t) by (eapply yields_when_ok; [|exact Y]; apply like_refl; auto).
  assert (Ft : field t p) by (apply (like_field s t p Lt); auto).
  exists p. splits; auto. intros f Hf.
  assert (E : calc_candidates t (fst p) (snd p) = Ok (pcalc t p)).
  { destruct p; apply calc_candidates_ok; auto; apply Lt. }
  rewrite E in P5. injection P5 as <-. apply pcalc_solution; auto. apply Lt.
Qed.

(** * C40, C43, C44 *)
Lemma empties_spec : forall s e, wf s -> NoDup e -> (forall p, In p e <-> field s p /\ num s p = 0) ->
  empties s = length e.
Proof.
  intros s e W Nd H. unfold empties. apply Permutation_length. apply NoDup_Permutation; auto.
  - apply NoDup_filter, NoDup_coords.
  - intros p. rewrite filter_In, in_coords, H, Z.eqb_eq. tauto.
Qed.

Lemma bound_le : forall s, wf s -> (bound (box_width s) (box_height s) s <= fuel_bound s)%nat.
Proof.
  intros s W. unfold bound, fuel_bound, N2, empties.
  pose proof (filter_length_le (fun p => num s p =? 0) (coords s)) as L.
  rewrite length_coords in L. change (box_width s * box_height s) with (NN s) in *.
  set (k := length (filter (fun p => num s p =? 0) (coords s))) in *. clearbody k.
  set (n := Z.to_nat (NN s)) in *. clearbody n. nia.
Qed.

Lemma C40_proof : forall o s, oracle_ok o -> wf s -> (exists f, solution s f) ->
  exists l u, (forall fuel, (fuel_bound s <= fuel)%nat -> solve fuel o s = Ok (l, u)) /\
    wf u /\ box_size u = box_size s /\ complete u /\ solution s (num u) /\
    (unique_solution s -> forall f, solution s f -> shows u f).
Proof.
  intros o s Ho W Hs.
  assert (O : ok_sudoku (box_width s) (box_height s) s) by (apply ok_intro; auto).
  destruct (solve_ok _ _ (wf_w _ W) (wf_h _ W) o Ho s O Hs) as [lc [l [u [E1 [Ou [E2 _]]]]]].
  pose proof Ou as [Wu [Ewu Ehu]].
  exists (lc ++ l), u. split; [|splits; auto].
  - intros fuel Hf. apply E1. pose proof (bound_le s W). lia.
  - unfold box_size. congruence.
  - intros p Fp. unfold field in Fp; rewrite Ewu, Ehu in Fp. pose proof (proj1 (proj1 E2) p Fp). lia.
  - intros [f0 [H1 H2]] f Hf p Fp. unfold field in Fp; rewrite Ewu, Ehu in Fp.
    rewrite (H2 f Hf p Fp), (H2 _ E2 p Fp). reflexivity.
Qed.

Lemma ratings_ok : forall cls, In cls SOLVERS ->
  exists r, RATINGS cls = Ok r /\ 0 <= r <= 10 /\
    (writes cls = true -> 1 <= r) /\ (cls = CalculateCandidates -> r = 0).
Proof.
  intros cls H. simpl in H.
  repeat (destruct H as [<-|H]; [eexists; split; [reflexivity|]; splits; auto; try lia; try discriminate|]).
  destruct H.
Qed.

Lemma fold_max_spec : forall l x, x <= fold_left Z.max l x /\
  (forall y, In y l -> y <= fold_left Z.max l x) /\ (fold_left Z.max l x = x \/ In (fold_left Z.max l x) l).
Proof.
  induction l as [|y l IH]; intros x; cbn [fold_left].
  - splits; auto; try lia. intros y [].
  - destruct (IH (Z.max x y)) as [H1 [H2 H3]]. splits; try lia.
    + intros z [<-|Hz]; [lia|auto].
    + destruct H3 as [H3|H3]; [|right; right; auto]. rewrite H3.
      destruct (Z.max_spec x y) as [[_ ->]|[_ ->]]; [right; left; auto|left; auto].
Qed.

Lemma mapM_ratings : forall l, (forall st, In st l -> In (st_class st) SOLVERS) ->
  exists r, mapM (fun st => RATINGS (st_class st)) l = Ok r /\ length r = length l /\
    (forall x, In x r -> 0 <= x <= 10) /\
    (forall st, In st l -> exists x, In x r /\ RATINGS (st_class st) = Ok x) /\
    (forall x, In x r -> exists st, In st l /\ RATINGS (st_class st) = Ok x).
Proof.
  induction l as [|st l IH]; intros H; cbn [mapM].
  - exists []. splits; auto; try (intros x []).
  - destruct (ratings_ok (st_class st)) as [x [E [R _]]]; [apply H; left; auto|].
    destruct IH as [r [E2 [L [R2 [R3 R4]]]]]; [intros; apply H; right; auto|].
    rewrite E. cbn [rbind]. rewrite E2. cbn [rbind]. exists (x :: r). splits; auto.
    + simpl; congruence.
    + intros y [<-|Hy]; auto.
    + intros st' [<-|Hs]; [exists x; simpl; auto|]. destruct (R3 st' Hs) as [y [Y1 Y2]]. exists y; simpl; auto.
    + intros y [<-|Hy]; [exists st; simpl; auto|]. destruct (R4 y Hy) as [s' [Y1 Y2]]. exists s'; simpl; auto.
Qed.

Lemma C43_proof : forall o s, oracle_ok o -> wf s -> (exists f, solution s f) ->
  exists r, (forall fuel, (fuel_bound s <= fuel)%nat -> rate fuel o s = Ok r) /\
    0 <= r <= 10 /\ (r = 0 <-> complete s).
Proof.
  intros o s Ho W Hs.
  assert (O : ok_sudoku (box_width s) (box_height s) s) by (apply ok_intro; auto).
  destruct (solve_ok _ _ (wf_w _ W) (wf_h _ W) o Ho s O Hs) as [lc [l [u [E1 [Ou [E2 [E3 [E4 [E5 [E6 E7]]]]]]]]]].
  assert (In1 : forall st, In st (lc ++ l) -> In (st_class st) SOLVERS).
  { intros st H. apply in_app_iff in H. destruct H as [H|H]; [|apply E4; auto].
    rewrite (E3 st H). left; auto. }
  destruct (mapM_ratings (lc ++ l) In1) as [r [R1 [R2 [R3 [R4 R5]]]]].
  assert (Em : exists m, match py_max r with Err ValueError => Ok 0 | x => x end = Ok m /\ 0 <= m <= 10 /\
                (m = 0 <-> forall x, In x r -> x = 0)).
  { destruct r as [|x r]; cbn [py_max].
    - exists 0. splits; auto; try lia. split; auto. intros _ x [].
    - destruct (fold_max_spec r x) as [M1 [M2 M3]]. exists (fold_left Z.max r x). splits; auto.
      + pose proof (R3 x (or_introl eq_refl)). lia.
      + destruct M3 as [->|M3]; [pose proof (R3 x (or_introl eq_refl)); lia|]. pose proof (R3 _ (or_intror M3)). lia.
      + split.
        * intros Z0 y Hy. pose proof (R3 y Hy). destruct Hy as [<-|Hy]; [lia|]. specialize (M2 y Hy). lia.
        * intros H. destruct M3 as [->|M3]; [apply H; left; auto|]. apply H; right; auto. }
  destruct Em as [m [M1 [M2 M3]]]. exists m. splits; auto; try lia.
  - intros fuel Hf. unfold rate. rewrite E1 by (pose proof (bound_le s W); lia). cbn [rbind]. rewrite R1.
    cbn [rbind]. exact M1.
  - rewrite M3. split.
    + intros H p Fp. rewrite E6; auto.
      * intros Z0. pose proof (proj1 (proj1 E2) p Fp). lia.
      * intros st Hst. destruct (writes (st_class st)) eqn:Wr; auto. exfalso.
        assert (Hin : In st (lc ++ l)) by (apply in_app_iff; auto).
        destruct (R4 st Hin) as [x [X1 X2]]. destruct (ratings_ok _ (In1 st Hin)) as [y [Y1 [Y2 [Y3 _]]]].
        specialize (H x X1). assert (x = y) by congruence. subst. specialize (Y3 Wr). lia.
    + intros Hc x Hx. rewrite E7 in R5 by (intros p Cp; apply Hc; auto).
      destruct (R5 x Hx) as [st [[] _]].
Qed.

Lemma fold_add : forall l a, fold_left Z.add l a = a + fold_left Z.add l 0.
Proof.
  induction l as [|x l IH]; intros a; cbn [fold_left]; [lia|]. rewrite IH, (IH (0 + x)). lia.
Qed.

Lemma sum_bound : forall l, (forall x, In x l -> 0 <= x <= 10) ->
  0 <= fold_left Z.add l 0 <= 10 * Z.of_nat (length l).
Proof.
  induction l as [|x l IH]; intros H; cbn [fold_left length]; [lia|].
  rewrite fold_add. pose proof (H x (or_introl eq_refl)).
  specialize (IH (fun y Hy => H y (or_intror Hy))). lia.
Qed.

Lemma C44_partial_proof : forall o s e, oracle_ok o -> wf s -> (exists f, solution s f) ->
  NoDup e -> (forall p, In p e <-> field s p /\ num s p = 0) ->
  exists r, (forall fuel, (fuel_bound s <= fuel)%nat -> score fuel o s = Ok r) /\
    0 <= r <= 10 * (box_width s * box_height s) * Z.of_nat (length e) /\ (r = 0 <-> e = []).
Proof.
  intros o s e Ho W Hs Ne He.
  assert (O : ok_sudoku (box_width s) (box_height s) s) by (apply ok_intro; auto).
  destruct (solve_ok _ _ (wf_w _ W) (wf_h _ W) o Ho s O Hs) as [lc [l [u [E1 [Ou [E2 [E3 [E4 [E5 [E6 E7]]]]]]]]]].
  rewrite (empties_spec s e W Ne He) in E5.
  assert (In1 : forall st, In st l -> In (st_class st) SOLVERS) by (intros; apply E4; auto).
  destruct (mapM_ratings l In1) as [r [R1 [R2 [R3 [R4 R5]]]]].
  assert (Rc : mapM (fun st => RATINGS (st_class st)) lc = Ok (map (fun _ => 0) lc)).
  { clear -E3. induction lc as [|x lc IH]; auto. cbn [mapM map]. rewrite (E3 x (or_introl eq_refl)).
    cbn [RATINGS rbind]. rewrite IH; auto. intros; apply E3; right; auto. }
  assert (Rapp : forall a b ra rb, mapM (fun st => RATINGS (st_class st)) a = Ok ra ->
     mapM (fun st => RATINGS (st_class st)) b = Ok rb -> mapM (fun st => RATINGS (st_class st)) (a ++ b) = Ok (ra ++ rb)).
  { clear. induction a as [|x a IH]; intros b ra rb; cbn [mapM app].
    - intros H; injection H as <-. auto.
    - destruct (RATINGS (st_class x)); [|discriminate]. cbn [rbind].
      destruct (mapM (fun st => RATINGS (st_class st)) a) as [ra'|]; [|discriminate]. cbn [rbind].
      intros H Hb; injection H as <-. rewrite (IH b ra' rb); auto. }
  assert (Sum : fold_left Z.add (map (fun _ : step => 0) lc ++ r) 0 = fold_left Z.add r 0).
  { rewrite fold_left_app. replace (fold_left Z.add (map (fun _ : step => 0) lc) 0) with 0; auto.
    clear. induction lc; auto. }
  pose proof (sum_bound r R3) as B.
  exists (fold_left Z.add r 0). splits; try lia.
  - intros fuel Hf. unfold score. rewrite E1 by (pose proof (bound_le s W); lia). cbn [rbind].
    rewrite (Rapp lc l _ _ Rc R1). cbn [rbind]. rewrite Sum. reflexivity.
  - pose proof (wf_w _ W). pose proof (wf_h _ W). rewrite R2 in B. nia.
  - split.
    + intros Z0. destruct e as [|p e]; auto. exfalso.
      destruct (proj1 (He p) (or_introl eq_refl)) as [Fp Zp].
      assert (Rz : forall x, In x r -> x = 0).
      { clear -R3 Z0. induction r as [|y r IH]; intros x Hx; [destruct Hx|].
        cbn [fold_left] in Z0. rewrite fold_add in Z0.
        pose proof (R3 y (or_introl eq_refl)). pose proof (sum_bound r (fun z Hz => R3 z (or_intror Hz))).
        destruct Hx as [<-|Hx]; [lia|]. apply IH; auto; [|lia]. intros; apply R3; right; auto. }
      pose proof (proj1 (proj1 E2) p Fp) as Rp. rewrite <- E6 in Rp; auto; [lia|].
      intros st Hst. destruct (writes (st_class st)) eqn:Wr; auto. exfalso.
      destruct (R4 st Hst) as [x [X1 X2]]. destruct (ratings_ok _ (In1 st Hst)) as [y [Y1 [Y2 [Y3 _]]]].
      specialize (Rz x X1). assert (x = y) by congruence. subst. specialize (Y3 Wr). lia.
    + intros ->. assert (X : lc ++ l = []).
      { apply E7. intros p Cp Z0. destruct (proj2 (He p) (conj Cp Z0)). }
      apply app_eq_nil in X. destruct X as [_ ->]. destruct r; auto. discriminate.
Qed.

(** * C41 *)
Lemma C41_diverges_proof : forall o s, oracle_ok o -> wf s ->
  (exists p, field s p /\ num s p = 0 /\
     forall v, 1 <= v <= box_width s * box_height s ->
       exists q, field s q /\ peers (box_width s) (box_height s) p q /\ num s q = v) ->
  forall fuel, solve fuel o s = Err OutOfFuel.
Proof.
  intros o s Ho W H. apply (solve_diverges (box_width s) (box_height s)); auto.
  apply ok_intro; auto.
Qed.

(** * C42 *)
Lemma start_eq : forall fuel o s, solve fuel o s = let* s0 := start s in solve_loop fuel o s0.
Proof. intros fuel o s. unfold solve, start. destruct (copy s false); reflexivity. Qed.

Lemma rounds_head : forall k o s, rounds (S k) o s =
  let* (l1, s1) := solve_round o SOLVERS s in
  let* (l2, u) := rounds k o s1 in Ok (l1 ++ l2, u).
Proof.
  induction k as [|k IH]; intros o s.
  - cbn [rounds rbind]. destruct (solve_round o SOLVERS s) as [[l1 s1]|]; auto.
    cbn [rbind]. rewrite app_nil_r. reflexivity.
  - change (rounds (S (S k)) o s) with
      (let* (l1, s0) := rounds (S k) o s in let* (l2, s1) := solve_round o SOLVERS s0 in Ok (l1 ++ l2, s1)).
    rewrite IH. destruct (solve_round o SOLVERS s) as [[l1 s1]|]; auto. cbn [rbind].
    cbn [rounds]. destruct (rounds k o s1) as [[l2 s2]|]; auto. cbn [rbind].
    destruct (solve_round o SOLVERS s2) as [[l3 s3]|]; auto. cbn [rbind]. rewrite app_assoc. reflexivity.
Qed.

Lemma loop_rounds : forall fuel o s l u, solve_loop fuel o s = Ok (l, u) -> exists k, rounds k o s = Ok (l, u).
Proof.
  induction fuel as [|fuel IH]; intros o s l u H; [discriminate|]. cbn [solve_loop] in H.
  destruct (solve_round o SOLVERS s) as [[l1 s1]|] eqn:E; [|discriminate]. cbn [rbind] in H.
  destruct l1 as [|x l1].
  - injection H as <- <-. exists 1%nat. rewrite rounds_head, E. cbn [rbind rounds]. reflexivity.
  - destruct (solve_loop fuel o s1) as [[l2 s2]|] eqn:E2; [|discriminate]. cbn [rbind] in H.
    injection H as <- <-. destruct (IH o s1 l2 s2 E2) as [k Hk]. exists (S k).
    rewrite rounds_head, E. cbn [rbind]. rewrite Hk. reflexivity.
Qed.

Lemma C42_rounds_proof : forall o s k, oracle_ok o -> wf s ->
  exists s0 l t, start s = Ok s0 /\ rounds k o s0 = Ok (l, t) /\
   forall l1 l2, l = l1 ++ l2 -> (forall st, In st l1 -> st_class st <> Bruteforce) ->
     exists t1, replay s0 l1 = Ok t1 /\ like s t1 /\ forall f, solution t1 f <-> solution s f.
Proof.
  intros o s k Ho W.
  assert (O : ok_sudoku (box_width s) (box_height s) s) by (apply ok_intro; auto).
  destruct (solve_start _ _ o s O) as [s0 [[Es E0] [O0 [N0 [C0 W0]]]]].
  assert (FV : forall g, solution s g -> valid_grid (box_width s) (box_height s) g) by (intros g Hg; apply Hg).
  destruct (rounds_ok _ _ (wf_w _ W) (wf_h _ W) o Ho (solution s) k s0 FV W0) as [l [t [E [Ot D]]]].
  exists s0, l, t. splits; auto.
  intros l1 l2 El Nb.
  assert (P : exists t1, chain (some_link (box_width s) (box_height s) (solution s)) s0 l1 t1).
  { destruct D as [[D1 [D2 D3]]|[a [b [c [t1 [D1 [D2 D3]]]]]]].
    - rewrite El in D3. apply chain_prefix in D3. destruct D3 as [t1 [D3 _]]. eauto.
    - rewrite D1 in El. assert (X : exists m, a = l1 ++ m).
      { clear -El Nb D2. revert a El; induction l1 as [|x l1 IH]; intros a El; simpl in *; [eauto|].
        destruct a as [|y a]; simpl in El.
        - injection El as -> _. exfalso. apply (Nb x); auto.
        - injection El as -> El. destruct (IH (fun z Hz => Nb z (or_intror Hz)) a El) as [m ->]. exists m; auto. }
      destruct X as [m ->]. apply chain_prefix in D3. destruct D3 as [t2 [D3 _]]. eauto. }
  destruct P as [t1 P].
  pose proof (chain_wi _ _ _ _ _ _ P W0) as W1.
  exists t1. splits.
  - eapply chain_replay; eauto.
  - apply like_ok. eapply WInv_ok; eauto.
  - intros f. pose proof (solutions_eq _ _ s s0 O O0 N0) as S0.
    rewrite (chain_solutions (box_width s) (box_height s) (solution s) s0 l1 t1); auto.
    intros g. symmetry; auto.
Qed.

Lemma C42_solve_proof : forall o s fuel l u, oracle_ok o -> wf s -> solve fuel o s = Ok (l, u) ->
  exists s0, start s = Ok s0 /\
   forall l1 l2, l = l1 ++ l2 -> (forall st, In st l1 -> st_class st <> Bruteforce) ->
     exists t1, replay s0 l1 = Ok t1 /\ like s t1 /\ forall f, solution t1 f <-> solution s f.
Proof.
  intros o s fuel l u Ho W H. rewrite start_eq in H.
  destruct (start s) as [s0|] eqn:Es; [|discriminate]. cbn [rbind] in H.
  destruct (loop_rounds fuel o s0 l u H) as [k Hk].
  destruct (C42_rounds_proof o s k Ho W) as [s0' [l' [t' [E1 [E2 E3]]]]].
  rewrite Es in E1. injection E1 as <-. rewrite Hk in E2. injection E2 as <- <-.
  exists s0. split; auto.
Qed.

(** * C45 *)
Lemma C45_proof : forall o s, oracle_ok o -> wf s -> (exists f, solution s f) ->
  (forall p, field s p -> cand s p = []) ->
  exists t, foldM (fun s cls => apply_all o cls s) SOLVERS s = Ok t /\
    wf t /\ box_size t = box_size s /\ complete t /\ solution s (num t).
Proof.
  intros o s Ho W Hs Hc.
  assert (O : ok_sudoku (box_width s) (box_height s) s) by (apply ok_intro; auto).
  destruct (apply_all_ok _ _ (wf_w _ W) (wf_h _ W) o Ho s O Hs Hc) as [t [E [Ot S]]].
  pose proof Ot as [Wt [Ew Eh]]. exists t. splits; auto.
  - unfold box_size; congruence.
  - intros p Fp. unfold field in Fp; rewrite Ew, Eh in Fp. pose proof (proj1 (proj1 S) p Fp). lia.
Qed.

(** * C46 *)
Definition hint_good (w h : Z) (F : grid -> Prop) (t : sudoku) (st : step) : Prop :=
  exists cls, In cls SOLVERS /\ cls <> Bruteforce /\ step_good w h F cls t st.

Lemma hints_safe : forall w h o s (F : grid -> Prop), 1 <= w -> 1 <= h -> oracle_ok o ->
  (forall g, F g -> valid_grid w h g) -> SInv w h F s ->
  gsafe (SInv w h F) (hint_good w h F) (fun t r => r = t /\ SInv w h F t) (hints o s) s.
Proof.
  intros w h o s F Hw Hh Ho FV S. unfold hints.
  apply (gsafe_gfor (SInv w h F) (A := step) _ (fun acc t => acc = t /\ SInv w h F t)); auto.
  intros cls acc cur Hin [-> Sc].
  assert (D : cls = Bruteforce \/ cls <> Bruteforce) by (destruct cls; auto; right; discriminate).
  destruct D as [->|D]; [simpl; auto|].
  assert (N0 : cls <> BasicFish 0).
  { intros ->. simpl in Hin. repeat (destruct Hin as [E|Hin]; [discriminate|]). destruct Hin. }
  assert (E : match cls with Bruteforce => Ret cur | _ => MSolvers.find o cls cur end = MSolvers.find o cls cur).
  { destruct cls; auto. congruence. }
  rewrite E.
  eapply gsafe_weaken; [apply (find_safe w h Hw Hh F FV o cls cur Ho Sc D N0)| |auto].
  intros t a G. exists cls; auto.
Qed.

Lemma C46_proof : forall o s f, oracle_ok o -> wf s -> consistent s f ->
  gresult (hints o s) s = Ok s /\
  (forall e, ~ raises_when (fun u => like s u /\ consistent u f) (hints o s) s e) /\
  (forall t st, yields_when (fun u => like s u /\ consistent u f) (hints o s) s t st ->
     In (st_class st) SOLVERS /\ st_class st <> Bruteforce /\ st_class st <> CalculateCandidates /\
     match st_class st with
     | NakedSingle | HiddenSingle => sets_only f st
     | HiddenTuple _ => never_drops f st
     | _ => never_removes f st
     end /\ applies s f st).
Proof.
  intros o s f Ho W C.
  assert (V : valid_grid (box_width s) (box_height s) f) by apply C.
  assert (S : SInv (box_width s) (box_height s) (eq f) s) by (apply consistent_SInv; auto; apply like_refl; auto).
  assert (FV : forall g, f = g -> valid_grid (box_width s) (box_height s) g) by (intros g <-; auto).
  pose proof (hints_safe _ _ o s (eq f) (wf_w _ W) (wf_h _ W) Ho FV S) as H.
  assert (M : forall u, like s u /\ consistent u f -> SInv (box_width s) (box_height s) (eq f) u).
  { intros u [L1 L2]. apply consistent_SInv; auto. }
  splits.
  - destruct (gsafe_run _ _ _ _ s S H) as [[r [R1 [R2 _]]] _]. congruence.
  - intros e R. eapply gsafe_no_raise; [exact H|]. eapply raises_when_mono; [exact M|exact R].
  - intros t st Y.
    assert (Lt : like s t /\ consistent t f).
    { eapply (yields_when_ok (fun u => like s u /\ consistent u f)); [|exact Y]. split; auto. apply like_refl; auto. }
    destruct (gsafe_yields _ _ _ _ _ _ _ H (yields_when_mono _ _ _ _ _ _ M Y)) as [cls [G1 [G2 G]]].
    pose proof G as [E1 [E2 [E3 [E4 [E5 [E6 E7]]]]]]. specialize (E7 f eq_refl).
    assert (Nc : st_class st <> CalculateCandidates).
    { intros X. unfold effective in E6. rewrite X in E6. destruct E6 as [p [P1 [P2 P3]]].
      destruct Lt as [L1 [_ L2]]. specialize (L2 p). rewrite P3 in L2. apply L2.
      apply (like_field s t p L1). apply E4. rewrite P2; left; auto. }
    splits; try congruence.
    + unfold sound in E7. rewrite <- E1 in G2. destruct (st_class st); auto; congruence.
    + eapply good_applies; eauto.
Qed.

(** * C47 *)
Lemma step_cmp_key : forall a b, step_cmp a b =
  pair_cmp (pair_cmp (list_cmp coord_cmp) (list_cmp coord_cmp)) (list_cmp zcmp) (key a) (key b).
Proof. reflexivity. Qed.

Lemma key_good : good_cmp (pair_cmp (pair_cmp (list_cmp coord_cmp) (list_cmp coord_cmp)) (list_cmp zcmp)).
Proof.
  apply pair_cmp_good; [apply pair_cmp_good|]; apply list_cmp_good; try apply coord_cmp_good. apply zcmp_good.
Qed.

Lemma C47_proof :
  (forall a b, step_eq a b = true <-> key a = key b) /\
  (forall a, step_lt a a = false) /\
  (forall a b c, step_lt a b = true -> step_lt b c = true -> step_lt a c = true) /\
  (forall a b, step_lt a b = true \/ step_eq a b = true \/ step_lt b a = true) /\
  (forall a b, step_lt a b = true -> step_eq a b = false /\ step_lt b a = false) /\
  (forall a b, step_le a b = true <-> step_lt a b = true \/ step_eq a b = true) /\
  (forall a b, step_gt a b = step_lt b a) /\
  (forall a b, step_ge a b = step_le b a) /\
  (forall cls c c' a a' v v', Permutation c c' -> Permutation a a' -> Permutation v v' ->
     new_step cls c a v = new_step cls c' a' v').
Proof.
  pose proof key_good as G.
  assert (Eq1 : forall a b, step_eq a b = true <-> key a = key b).
  { intros a b. unfold step_eq. rewrite step_cmp_key, <- (gc_eq _ G).
    destruct (pair_cmp _ _ (key a) (key b)); split; congruence. }
  assert (An : forall a b, step_cmp b a = CompOpp (step_cmp a b)).
  { intros a b. rewrite !step_cmp_key. apply (gc_anti _ G). }
  splits; auto.
  - intros a. unfold step_lt. rewrite step_cmp_key, (gc_refl _ G). reflexivity.
  - intros a b c. unfold step_lt. intros H1 H2.
    assert (X : step_cmp a c = Lt).
    { rewrite step_cmp_key. eapply (gc_trans _ G) with (y := key b); rewrite <- step_cmp_key.
      - destruct (step_cmp a b); congruence.
      - destruct (step_cmp b c); congruence. }
    rewrite X; auto.
  - intros a b. unfold step_lt, step_eq. rewrite (An a b). destruct (step_cmp a b); simpl; auto.
  - intros a b. unfold step_lt, step_eq. rewrite (An a b). destruct (step_cmp a b); simpl; auto; discriminate.
  - intros a b. unfold step_le. rewrite orb_true_iff. tauto.
  - intros a b. unfold step_gt, step_lt, step_eq. rewrite (An a b). destruct (step_cmp a b); auto.
  - intros a b. unfold step_ge, step_le, step_lt, step_eq. rewrite (An a b). destruct (step_cmp a b); auto.
  - intros cls c c' a a' v v' P1 P2 P3. unfold new_step.
    rewrite (py_sorted_canonical _ coord_cmp_good _ _ P1), (py_sorted_canonical _ coord_cmp_good _ _ P2),
      (py_sorted_canonical _ zcmp_good _ _ P3). reflexivity.
Qed.
