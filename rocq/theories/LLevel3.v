(** Lemmas for C117-C119: plays and runs of solve() on the same level. *)
From Verif Require Export LLevel2.

Local Opaque MSudoku.surrounding_of.

Lemma rated_solver : forall cls k, RATINGS cls = Ok k -> In cls SOLVERS.
Proof.
  intros cls k H. destruct cls as [| | |n|n|n|n|]; unfold SOLVERS; simpl; try tauto;
    do 6 (destruct n as [|n]; [simpl in H; try discriminate; tauto|]); simpl in H; discriminate.
Qed.
Lemma rated_range : forall cls k, RATINGS cls = Ok k -> 0 <= k <= 10 /\ (cls <> Bruteforce -> k <= 7) /\ (cls <> CalculateCandidates -> 1 <= k).
Proof.
  intros cls k H. destruct cls as [| | |n|n|n|n|];
    try (injection H as <-; repeat split; intros; try lia; congruence);
    do 6 (destruct n as [|n]; [simpl in H; try discriminate; injection H as <-; repeat split; intros; lia|]); simpl in H; discriminate.
Qed.
Lemma solver_eq_calc : forall cls : solver, cls = CalculateCandidates \/ cls <> CalculateCandidates.
Proof. intros []; (left; reflexivity) || (right; discriminate). Qed.
Lemma solver_eq_brute : forall cls : solver, cls = Bruteforce \/ cls <> Bruteforce.
Proof. intros []; (left; reflexivity) || (right; discriminate). Qed.
Lemma solver_rated : forall cls, In cls SOLVERS -> exists k, RATINGS cls = Ok k.
Proof. intros cls H. unfold SOLVERS in H. simpl in H. repeat (destruct H as [<-|H]; [simpl; eauto|]). destruct H. Qed.
(** The ratings rise along SOLVERS. *)
Lemma rated_before : forall pre cls post k c kc, SOLVERS = pre ++ cls :: post -> RATINGS cls = Ok k -> RATINGS c = Ok kc -> kc < k -> In c pre.
Proof.
  intros pre cls post k c kc E H Hc L. pose proof (rated_solver c kc Hc) as Hin. rewrite E in Hin.
  apply in_app_iff in Hin. destruct Hin as [|Hin]; auto. exfalso.
  unfold SOLVERS in E.
  do 17 (destruct pre as [|x pre];
    [injection E as <- <-; simpl in Hin; injection H as <-;
     repeat (destruct Hin as [<-|Hin]; [injection Hc as <-; lia|]); destruct Hin
    |injection E as <- E; cbn [app] in E]).
  destruct pre; discriminate.
Qed.

Section Level.
Variables w h : Z.
Hypothesis Hw : 1 <= w.
Hypothesis Hh : 1 <= h.
Local Notation kept := (kept w h).
Local Notation Good := (Good w h).

Lemma kept_ok : forall s, kept s -> ok_sudoku w h s.
Proof. intros s [[S _] _]. apply (SInv_ok _ _ _ _ S). Qed.
Lemma kept_ne : forall s p, kept s -> field s p -> cand s p <> [].
Proof. intros s p K Fp. pose proof (kept_ok s K) as [_ [Ew Eh]]. unfold field in Fp. rewrite Ew, Eh in Fp. apply (gd_ne w h); auto. apply K. Qed.

(** No class up to [r] finds anything. *)
Definition closed (o : oracle) (r : Z) (s : sudoku) : Prop :=
  forall cls k, RATINGS cls = Ok k -> k <= r -> all_steps o cls s [].

Lemma closed_keeps : forall o r s, oracle_ok o -> kept s -> closed o r s -> r < 10 ->
  forall cls k, RATINGS cls = Ok k -> k <= r -> keeps s cls.
Proof.
  intros o r s Ho K Cl Hr cls k Hk Lk. pose proof K as [G [Td [C1 C2]]]. pose proof (kept_ok s K) as [W [Ew Eh]].
  destruct (kept_consistent w h s K) as [g Cg].
  assert (Fc : forall p, field s p <-> cell w h p) by (intros p; unfold field; rewrite Ew, Eh; reflexivity).
  assert (B1 : forall p x, field s p -> num s p <> 0 -> In x (cand s p) -> x = num s p) by (intros p x Fp; apply Td, Fc; auto).
  assert (B2 : forall p q x, field s p -> field s q -> peers (box_width s) (box_height s) p q -> num s p <> 0 -> In x (cand s q) -> x <> num s p).
  { rewrite Ew, Eh. intros p q x Fp Fq. apply C1; apply Fc; auto. }
  assert (B3 : forall p x, field s p -> In x (cand s p) -> 1 <= x <= box_width s * box_height s).
  { rewrite Ew, Eh. intros p x Fp. apply C2, Fc; auto. }
  destruct (rated_range cls k Hk) as [R0 [R1 R2]].
  destruct (solver_eq_calc cls) as [->|Nc]; [simpl; auto|].
  assert (Nb : cls <> Bruteforce) by (intros ->; injection Hk as <-; lia).
  assert (R : 1 <= r) by (specialize (R2 Nc); lia).
  assert (B4 : forall p v, field s p -> cand s p = [v] -> num s p <> 0).
  { intros p v Fp E. assert (N1 : all_steps o NakedSingle s []) by (apply (Cl NakedSingle 1); auto).
    rewrite (kept_single w h o s K N1 p v) by (auto; apply Fc; auto). pose proof (B3 p v Fp). rewrite E in H. specialize (H (or_introl eq_refl)). lia. }
  assert (B5 : forall p k v, field s p -> hidden_value s k p v -> num s p <> 0).
  { intros p k0 v Fp H Z0. assert (N1 : all_steps o HiddenSingle s []) by (apply (Cl HiddenSingle 1); auto).
    destruct (hidden_single_all o s Ho W) as [fs [ys [A [[_ B] D]]]]. unfold all_steps in *. rewrite N1 in A. injection A as <-.
    inversion D; subst. apply (proj2 (B p)). split; auto. split; auto. exists k0, v; auto. }
  assert (NT : forall n, (forall m, (2 <= m <= n)%nat -> exists k, RATINGS (NakedTuple m) = Ok k /\ k <= r) -> keeps_naked s n).
  { intros n Hn. intros k0 q0 fields vals L1 F0 Nf Uf Lv Hv.
    apply (keep_naked s g W Cg B1 B2 B3 B4 n) with (m := length fields) (fields := fields); auto.
    intros m Hm. destruct (Hn m Hm) as [km [X Y]]. apply (no_naked o s W m). apply (Cl _ km); auto. }
  assert (HT : forall n, (forall m, (2 <= m <= n)%nat -> exists k, RATINGS (HiddenTuple m) = Ok k /\ k <= r) -> keeps_hidden s n).
  { intros n Hn. intros k0 q0 nums fields L1 F0 Nf Uf Lv Hv.
    apply (keep_hidden s g W Cg B1 B2 B3 B4 B5 n) with (m := length nums); auto.
    intros m Hm. destruct (Hn m Hm) as [km [X Y]]. apply (no_hidden_tuple o s W m). apply (Cl _ km); auto. }
  assert (PT : forall n, (forall m, (2 <= m <= n)%nat -> exists k, RATINGS (PointingTuple m) = Ok k /\ k <= r) -> keeps_pointing s n).
  { intros n Hn. intros k0 k2 q0 q2 c cl X F0 Hc L Hcl H2.
    apply (keep_pointing s g W Cg B1 B2 B3 B4 B5 n) with (k := k0) (q0 := q0); auto.
    intros m Hm k1 k3 q v cl' aff KK P. destruct (Hn m Hm) as [km [Y1 Y2]].
    destruct (pointing_all o m s W) as [ys [A [B _]]]. pose proof (Cl _ km Y1 Y2) as Z. unfold all_steps in *. rewrite Z in A. injection A as <-.
    refine (proj2 (B (mkStep (PointingTuple m) cl' aff [v] [])) _). exists k1, k3, q, v, cl', aff. split; [exact KK|]. split; [exact P|]. repeat split. }
  assert (BF : forall n, (forall m, (2 <= m <= n)%nat -> exists k, RATINGS (BasicFish m) = Ok k /\ k <= r) -> keeps_fish s n).
  { intros n Hn. intros line other c lines keys X Hc L Nl Rl Lk2 Hk2.
    assert (Fi : forall m, (2 <= m <= n)%nat -> forall lines cov cl aff, ~ fish s m line other c lines cov cl aff).
    { intros m Hm lines' cov cl aff P. destruct (Hn m Hm) as [km [Y1 Y2]].
      destruct (fish_all o m s W) as [ys [A [_ B]]]; [lia|]. pose proof (Cl _ km Y1 Y2) as Z. unfold all_steps in *. rewrite Z in A. injection A as <-.
      refine (proj2 (B (mkStep (BasicFish m) cl aff [c] [])) _). exists line, other, c, lines', cov, cl, aff.
      split; [exact X|]. split; [exact P|]. repeat split. }
    destruct X as [[X1 X2]|[X1 X2]].
    - apply (keep_fish s g W Cg B1 B2 B3 B4 B5 line other KRow KCol) with (n := n) (m := length lines) (lines := lines); auto.
    - apply (keep_fish s g W Cg B1 B2 B3 B4 B5 line other KCol KRow) with (n := n) (m := length lines) (lines := lines); auto. }
  assert (KS : keeps_single s).
  { split.
    - intros p q v Fp Fq E P. apply (single_peer s B1 B2 B4 p q v); auto.
    - intros p k0 v Fp Hv H. apply (place_single s g W Cg B1 B2 B3 B4 B5 p k0 v); auto. }
  destruct cls as [| | |n|n|n|n|]; try congruence; simpl; auto;
    [apply NT|apply HT|apply PT|split; [apply BF|]];
    (do 6 (destruct n as [|n];
      [simpl in Hk; try discriminate; injection Hk as <-; try discriminate;
       intros m Hm; do 6 (destruct m as [|m]; [first [lia|simpl; eexists; split; [reflexivity|lia]]|]); lia
      |])); simpl in Hk; discriminate.
Qed.

(** * One step *)
(** [t] has no other candidates than [s]. *)
Definition lower (s t : sudoku) : Prop := forall p x, cell w h p -> In x (cand t p) -> In x (cand s p).
Lemma lower_trans : forall a b c, lower a b -> lower b c -> lower a c.
Proof. intros a b c H1 H2 p x Cp Hx. apply H1, H2; auto. Qed.
Lemma lower_above : forall s t, kept s -> kept t -> lower s t -> above t s.
Proof.
  intros s t Ks Kt L. pose proof (kept_ok s Ks) as O. pose proof (kept_ok t Kt) as [_ [Ew Eh]].
  split; [rewrite Ew, Eh; auto|]. intros p x Fp. apply L. unfold field in Fp. rewrite Ew, Eh in Fp. auto.
Qed.
Lemma above_lower : forall s t, kept t -> above t s -> lower s t.
Proof.
  intros s t Kt [_ A] p x Cp. pose proof (kept_ok t Kt) as [_ [Ew Eh]]. apply A. unfold field. rewrite Ew, Eh. auto.
Qed.

Lemma link_lower : forall (F : grid -> Prop) cls g s st t, cls <> CalculateCandidates -> F g -> SInv w h F s -> link w h F cls s st t -> lower s t.
Proof.
  intros F cls g s st t N Hg Si [_ [_ [L1 [_ [La [_ [[_ [_ [_ L3]]] [L4 _]]]]]]]] p x Cp Hx. rewrite <- L1 in N.
  specialize (L4 g Hg). unfold sound in L4.
  assert (Set1 : forall p1 v, affected st = [p1] -> values st = [v] -> sets_only g st ->
     (forall x, In x (cand t p1) <-> x = v) ->
     (forall q x, cell w h q -> q <> p1 -> (In x (cand t q) <-> In x (cand s q) /\ ~ (peers w h p1 q /\ x = v))) -> In x (cand s p)).
  { intros p1 v Ea Ev [p' [Ea' Ev']] E2 E3. destruct (coord_eq_dec p p1) as [->|D].
    - apply E2 in Hx. assert (p' = p1) by congruence. assert (v = g p') by congruence. subst. apply (si_cand _ _ _ _ Si); auto.
    - apply E3 in Hx; auto. tauto. }
  destruct (st_class st); try congruence;
    try (destruct L3 as [N1 K1]; apply K1 in Hx; tauto);
    destruct L3 as [p1 [v [A1 [A2 [A3 [A4 A5]]]]]]; apply (Set1 p1 v); auto.
Qed.
Lemma chain_lower : forall (F : grid -> Prop) cls g s l t, (forall g, F g -> valid_grid w h g) -> cls <> CalculateCandidates -> F g -> SInv w h F s ->
  chain (link w h F cls) s l t -> lower s t.
Proof.
  intros F cls g s l t FV N Hg Si C; induction C as [s|s st t l u L C IH]; [intros p x _ H; exact H|].
  eapply lower_trans; [eapply link_lower; eauto|]. apply IH.
  destruct L as [L1 [L2 [L3 [L4 [L5 [L6 [L7 [L8 L9]]]]]]]]. eapply effect_SInv; eauto.
Qed.

(** A kept sudoku stays kept, and gets smaller. *)
Lemma link_kept : forall s cls st t, cls <> Bruteforce -> cls <> CalculateCandidates -> kept s -> SInv w h (solution s) t ->
  link w h (solution s) cls s st t -> kept t /\ lower s t /\ (measure w h t < measure w h s)%nat.
Proof.
  intros s cls st t N1 N2 K Si L. pose proof K as [G [Td Ca]]. pose proof G as [S [g Hg]]. pose proof (SInv_ok _ _ _ _ S) as O.
  assert (FV : forall g, solution s g -> valid_grid w h g) by (intros; eapply gd_valid; eauto).
  assert (C : chain (link w h (solution s) cls) s [st] t) by (econstructor; [exact L|constructor]).
  destruct (good_ded w h cls s [st] t G N1 Si C) as [Gt _]. split; [|split].
  - split; auto. split; [eapply chain_tidy; eauto|eapply chain_calm; eauto].
  - eapply link_lower; eauto.
  - eapply link_measure; eauto.
Qed.
Lemma brute_kept : forall s st t f, kept s -> solution s f -> link w h (eq f) Bruteforce s st t ->
  (forall p, In p (affected st) -> num s p = 0) ->
  kept t /\ lower s t /\ (measure w h t < measure w h s)%nat.
Proof.
  intros s st t f K Hf L Z0. pose proof K as [G [Td Ca]]. pose proof G as [S [g Hg]]. pose proof (SInv_ok _ _ _ _ S) as O.
  assert (V : valid_grid w h f) by (eapply gd_valid; eauto).
  assert (FV : forall g, eq f g -> valid_grid w h g) by (intros g' <-; auto).
  assert (Sf : SInv w h (eq f) s) by (eapply SInv_anti; [|exact S]; intros g' <-; auto).
  pose proof L as [_ [L2 [L3 [L4 [L5 [L6 [L7 [L8 L9]]]]]]]].
  assert (Sft : SInv w h (eq f) t) by (eapply effect_SInv; eauto).
  pose proof (SInv_ok _ _ _ _ Sft) as Ot. pose proof O as [W [Ew Eh]]. pose proof Ot as [Wt [Ewt Eht]].
  assert (C : chain (link w h (eq f) Bruteforce) s [st] t) by (econstructor; [exact L|constructor]).
  pose proof L7 as [_ [_ [_ Ef]]]. rewrite L3 in Ef. destruct Ef as [p [v [A1 [A2 [A3 [A4 A5]]]]]].
  assert (Vp : f p = v).
  { specialize (L8 f eq_refl). unfold sound in L8. rewrite L3 in L8. destruct L8 as [p' [X Y]]. congruence. }
  assert (Cp : cell w h p) by (apply L5; rewrite A1; left; auto).
  assert (Zp : num s p = 0) by (apply Z0; rewrite A1; left; auto).
  assert (Sub : forall g', solution t g' -> solution s g').
  { intros g' [V' H']. split; [rewrite Ew, Eh; rewrite Ewt, Eht in V'; auto|]. intros q Fq.
    unfold field in Fq. rewrite Ew, Eh in Fq. destruct (coord_eq_dec q p) as [->|D]; [left; auto|].
    assert (Ft : field t q) by (unfold field; rewrite Ewt, Eht; auto).
    destruct (H' q Ft) as [X|X]; rewrite A3, (coord_eqb_neq q p D) in X by auto; auto. }
  assert (Val : forall g', solution t g' -> g' p = v).
  { intros g' [V' H']. assert (Ft : field t p) by (unfold field; rewrite Ewt, Eht; auto).
    assert (Np : num t p = v) by (rewrite A3 by auto; rewrite coord_eqb_refl; auto).
    pose proof (proj1 V p Cp). destruct (H' p Ft); lia. }
  split; [split; [constructor|split]|split].
  - apply (effect_SInv w h (solution t)) with (st := st) (s := s); auto.
    + intros g' Hg'. rewrite <- Ewt, <- Eht. apply Hg'.
    + eapply SInv_anti; [|exact S]. auto.
    + intros g' Hg'. unfold sound. rewrite L3. exists p. split; auto. rewrite A2. f_equal. symmetry. auto.
  - exists f. split; [rewrite Ewt, Eht; auto|]. intros q Fq. unfold field in Fq. rewrite Ewt, Eht in Fq. apply (si_num _ _ _ _ Sft); auto.
  - eapply chain_tidy; eauto. discriminate.
  - eapply (chain_calm w h) with (F := eq f) (cls := Bruteforce) (g := f); eauto. discriminate.
  - eapply link_lower with (F := eq f) (g := f); eauto. discriminate.
  - eapply link_measure with (F := eq f) (g := f); eauto. discriminate.
Qed.

Lemma steps_yield : forall o cls s ys, all_steps o cls s ys -> ys = gyields (MSolvers.find o cls s) s.
Proof.
  intros o cls s ys E. unfold all_steps, glist in E. destruct (gresult (MSolvers.find o cls s) s); [injection E as <-; auto|discriminate].
Qed.

Lemma kept_step : forall o cls k s, oracle_ok o -> kept s -> RATINGS cls = Ok k ->
  exists ys, all_steps o cls s ys /\ forall st, In st ys -> exists st' s', apply st s = Ok (st', s') /\
    kept s' /\ lower s s' /\ (measure w h s' < measure w h s)%nat.
Proof.
  intros o cls k s Ho K Hk. pose proof K as [G [Td Ca]]. pose proof G as [S [g Hg]]. pose proof (SInv_ok _ _ _ _ S) as O. pose proof O as [W [Ew Eh]].
  assert (FV : forall g, solution s g -> valid_grid w h g) by (intros; eapply gd_valid; eauto).
  destruct (solver_eq_brute cls) as [->|Nb].
  - destruct (bruteforce_all o s Ho W) as [ys [A [_ B]]]. destruct B as [f [fs [Hf [[_ Hfs] F2]]]]; [eauto|].
    exists ys. split; auto. intros st Hst. destruct (Forall2_in_r _ _ _ _ F2 Hst) as [p [Hp [E1 [E2 [E3 [E4 E5]]]]]].
    apply Hfs in Hp. destruct Hp as [Fp Zp]. assert (Cp : cell w h p) by (unfold field in Fp; rewrite Ew, Eh in Fp; auto).
    assert (V : valid_grid w h f) by auto.
    assert (G1 : step_good w h (eq f) Bruteforce s st).
    { unfold step_good. rewrite E1, E2, E3, E5. splits; auto; try discriminate; try (intros q [<-|[]]; auto).
      - unfold effective. rewrite E1. exists p, (f p). rewrite E2, E3, E4. splits; auto. rewrite Zp. pose proof (proj1 V p Cp). lia.
      - intros g' <-. unfold sound. rewrite E1. exists p. auto. }
    assert (Sf : SInv w h (eq f) s) by (eapply SInv_anti; [|exact S]; intros g' <-; auto).
    destruct (good_apply w h (eq f) ltac:(intros g' <-; auto) Bruteforce s st Sf G1) as [st' [t' [Ea [S' L]]]].
    exists st', t'. split; auto. apply (brute_kept s st' t' f); auto.
    intros q Hq. pose proof L as [_ [_ [L3 [_ [_ [L6 _]]]]]]. unfold effective in L6. rewrite L3 in L6.
    destruct L6 as [p' [v' [_ [X _]]]].
    assert (Aff : affected st' = affected st).
    { destruct (apply_ok w h st s O (good_shaped _ _ _ _ _ _ G1) E5) as [x [t [Y1 [Y2 [Y3 [Y4 _]]]]]]. rewrite Y1 in Ea. injection Ea as -> ->. auto. }
    rewrite Aff, E3 in Hq. destruct Hq as [<-|[]]; auto.
  - assert (Nf : cls <> BasicFish 0) by (intros ->; discriminate).
    pose proof (find_safe w h Hw Hh (solution s) FV o cls s Ho S Nb Nf) as Sa.
    destruct (gsafe_run (SInv w h (solution s)) _ _ _ s S Sa) as [[r [R _]] H].
    exists (gyields (MSolvers.find o cls s) s). split; [unfold all_steps, glist; rewrite R; reflexivity|].
    intros st Hst. pose proof (H st Hst) as G1.
    destruct (solver_eq_calc cls) as [->|Nc].
    + exfalso. destruct G1 as [X1 [_ [_ [X2 [_ [X3 _]]]]]]. unfold effective in X3. rewrite X1 in X3. destruct X3 as [p [_ [X3 X4]]].
      revert X4. apply (gd_ne w h); auto. apply X2. rewrite X3; left; auto.
    + destruct (good_apply w h (solution s) FV cls s st S G1) as [st' [t' [Ea [S' L]]]].
      exists st', t'. split; auto. eapply link_kept; eauto.
Qed.

Lemma play_kept : forall r s t, play r s t -> kept s -> kept t /\ lower s t.
Proof.
  intros r s t P; induction P as [s|s st st' s1 t H A P IH]; intros K; [split; auto; intros p x _ X; exact X|].
  destruct H as [o [cls [ys [k [Ho [Hy [Hst [Hk _]]]]]]]].
  destruct (kept_step o cls k s Ho K Hk) as [ys' [Hy' H']]. unfold all_steps in *. assert (ys' = ys) by congruence. subst ys'.
  destruct (H' st Hst) as [st2 [s2 [E [K2 [L2 _]]]]]. assert (X : (st2, s2) = (st', s1)) by congruence. injection X as -> ->.
  destruct (IH K2) as [Kt Lt]. split; auto. eapply lower_trans; eauto.
Qed.

Lemma play_above : forall o r T s t, oracle_ok o -> r < 10 -> kept T -> closed o r T -> play r s t -> above T s -> above T t.
Proof.
  intros o r T s t Ho Hr K Cl P; induction P as [s|s st st' s1 t H A P IH]; intros Ab; auto. apply IH.
  destruct H as [o' [cls [ys [k [Ho' [Hy [Hst [Hk Lk]]]]]]]]. pose proof (kept_ok T K) as [W [Ew Eh]].
  apply (step_above T W ltac:(lia) ltac:(lia) (fun p => kept_ne T p K) o' cls s ys st st' s1); auto. apply (closed_keeps o r T Ho K Cl Hr cls k); auto.
Qed.

(** Playing on to the end. *)
Lemma closed_or : forall o r s, oracle_ok o -> kept s ->
  closed o r s \/ exists st st' s', hint_up_to r s st /\ apply st s = Ok (st', s') /\ kept s' /\ lower s s' /\ (measure w h s' < measure w h s)%nat.
Proof.
  intros o r s Ho K.
  assert (X : forall l, (forall cls k, In cls l -> RATINGS cls = Ok k -> k <= r -> all_steps o cls s []) \/
     exists st st' s', hint_up_to r s st /\ apply st s = Ok (st', s') /\ kept s' /\ lower s s' /\ (measure w h s' < measure w h s)%nat).
  { induction l as [|cls l [IH|IH]]; [left; intros cls k []| |right; auto].
    destruct (RATINGS cls) as [k|e] eqn:Hk.
    2:{ left. intros c kc [<-|Hin] Hc Lc; [congruence|eauto]. }
    destruct (Z_le_gt_dec k r) as [Lk|Gk].
    2:{ left. intros c kc [<-|Hin] Hc Lc; [assert (kc = k) by congruence; lia|eauto]. }
    destruct (kept_step o cls k s Ho K Hk) as [ys [Hy H]]. destruct ys as [|st ys].
    - left. intros c kc [<-|Hin] Hc Lc; eauto.
    - right. destruct (H st (or_introl eq_refl)) as [st' [s' [E Y]]]. exists st, st', s'. split; auto.
      exists o, cls, (st :: ys), k. splits; auto. left; auto. }
  destruct (X SOLVERS) as [Y|Y]; [left|right; auto]. intros cls k Hk Lk. apply (Y cls k); auto. eapply rated_solver; eauto.
Qed.
Lemma play_on : forall o r n s, oracle_ok o -> kept s -> (measure w h s < n)%nat ->
  exists t, play r s t /\ kept t /\ lower s t /\ closed o r t.
Proof.
  intros o r n; induction n as [|n IH]; intros s Ho K M; [lia|].
  destruct (closed_or o r s Ho K) as [C|[st [st' [s' [H [E [K' [L M']]]]]]]].
  - exists s. split; [constructor|]. split; auto. split; auto. intros p x _ X; exact X.
  - destruct (IH s' Ho K') as [t [P [Kt [Lt Ct]]]]; [lia|]. exists t. split; [econstructor; eauto|]. split; auto. split; auto. eapply lower_trans; eauto.
Qed.
Lemma stuck_closed : forall o r s, oracle_ok o -> kept s -> stuck r s -> closed o r s.
Proof.
  intros o r s Ho K St cls k Hk Lk. destruct (kept_step o cls k s Ho K Hk) as [ys [Hy _]]. destruct ys as [|st ys]; auto.
  exfalso. apply (St st). exists o, cls, (st :: ys), k. splits; auto. left; auto.
Qed.

(** * Complete sudokus *)
Lemma complete_cand : forall s p, kept s -> complete s -> cell w h p -> cand s p = [num s p].
Proof.
  intros s p K C Cp. pose proof (kept_ok s K) as [W [Ew Eh]]. assert (Fp : field s p) by (unfold field; rewrite Ew, Eh; auto).
  destruct (kept_consistent w h s K) as [g Cg]. apply (filled_cand s g W Cg); auto.
  intros q x Fq. apply K. unfold field in Fq. rewrite Ew, Eh in Fq. auto.
Qed.
Lemma complete_below : forall o r s t, oracle_ok o -> 1 <= r -> kept s -> kept t -> complete s -> lower s t -> closed o r t -> complete t.
Proof.
  intros o r s t Ho Hr Ks Kt C L Cl p Fp. pose proof (kept_ok t Kt) as [W [Ew Eh]]. unfold field in Fp. rewrite Ew, Eh in Fp.
  assert (E : cand t p = [num s p]).
  { assert (Fp' : field t p) by (unfold field; rewrite Ew, Eh; auto).
    pose proof (cand_nodup t W p Fp') as Nd. pose proof (kept_ne t p Kt Fp') as Ne.
    assert (X : forall x, In x (cand t p) -> x = num s p).
    { intros x Hx. apply L in Hx; auto. rewrite (complete_cand s p Ks C Fp) in Hx. destruct Hx as [<-|[]]; auto. }
    destruct (cand t p) as [|a [|b l]]; [congruence| |].
    - f_equal. apply X; left; auto.
    - exfalso. inv Nd. apply H1. left. rewrite (X a), (X b); simpl; auto. }
  rewrite (kept_single w h o t Kt (Cl NakedSingle 1 eq_refl ltac:(lia)) p (num s p) Fp E).
  pose proof (kept_ok s Ks) as [_ [Ew' Eh']]. apply C. unfold field. rewrite Ew', Eh'. auto.
Qed.
Lemma complete_measure : forall s, kept s -> complete s -> measure w h s = (Z.to_nat (w * h) * Z.to_nat (w * h))%nat.
Proof.
  intros s K C. unfold measure.
  assert (E : (Z.to_nat (w * h) * Z.to_nat (w * h))%nat =
     list_sum (map (fun _ : coord => 1%nat) (list_prod (py_range (w * h)) (py_range (w * h))))).
  { assert (L : forall l : list coord, list_sum (map (fun _ => 1%nat) l) = length l) by (induction l; simpl; auto).
    rewrite L. unfold coord. rewrite prod_length, !length_py_range. reflexivity. }
  rewrite E. f_equal. apply map_ext_in. intros p Hp. apply (LSolvers3.in_cells w h) in Hp.
  unfold weight. rewrite (complete_cand s p K C Hp). pose proof (kept_ok s K) as [_ [Ew Eh]].
  destruct (num s p =? 0) eqn:Z0; auto. b2p. exfalso. apply (C p); auto. unfold field. rewrite Ew, Eh. auto.
Qed.

(** * Rounds of solve() *)
Lemma round_level : forall o s steps u, oracle_ok o -> kept s -> solve_round o SOLVERS s = Ok (steps, u) -> steps <> [] ->
  exists pre cls post, SOLVERS = pre ++ cls :: post /\ (forall c, In c pre -> all_steps o c s []) /\
    drive (MSolvers.find o cls s) s = Ok (steps, u) /\ (forall st, In st steps -> st_class st = cls) /\
    cls <> CalculateCandidates /\ kept u /\ lower s u /\ (length steps + measure w h u <= measure w h s)%nat.
Proof.
  intros o s steps u Ho K E Ne. pose proof (round_kept w h Hw Hh o s steps u Ho K E) as Ku.
  destruct (round_first o SOLVERS s steps u E Ne) as [pre [cls [post [E1 [E2 E3]]]]].
  exists pre, cls, post. split; auto. split; auto. split; auto.
  pose proof K as [G [Td Ca]]. pose proof G as [S [g Hg]]. pose proof (SInv_ok _ _ _ _ S) as O.
  assert (FV : forall g, solution s g -> valid_grid w h g) by (intros; eapply gd_valid; eauto).
  assert (Hin : In cls SOLVERS) by (rewrite E1; apply in_elt). rewrite SOLVERS_eq in Hin. destruct Hin as [<-|Hin]; [|apply in_app_iff in Hin; destruct Hin as [Hin|[<-|[]]]].
  - exfalso. apply Ne. destruct (calculate_drive w h (solution s) FV s (SInv_WInv _ _ _ _ S)) as [st' [s' [E' [_ [_ [_ [_ C]]]]]]].
    change (MSolvers.find o CalculateCandidates s) with (calculate_find s) in E3. rewrite E' in E3. injection E3 as -> ->.
    apply C. intros p Cp. apply (gd_ne w h); auto.
  - destruct (DED_deductive cls Hin) as [D1 [D2 D3]].
    destruct (ded_drive w h Hw Hh o Ho (solution s) FV cls s (DED_deductive cls Hin) S) as [l [s' [E' [S' C]]]].
    rewrite E' in E3. injection E3 as -> ->. split; [eapply chain_class; eauto|]. split; auto. split; auto.
    split; [eapply chain_lower; eauto|eapply chain_measure; eauto].
  - destruct (brute_drive w h Hw Hh o Ho s O) as [[B1 B2]|[f' [st' [u' [B1 [B2 [B3 [B4 [B5 [B6 B7]]]]]]]]]].
    + exfalso. eapply B1; eauto.
    + change (MSolvers.find o Bruteforce s) with (bruteforce_find o s) in E3. rewrite B2 in E3. injection E3 as -> ->.
      split; auto. split; [discriminate|]. split; auto. destruct B7 as [S' C]; [intros p Cp; apply (si_cand _ _ _ _ S); auto|].
      assert (V : forall g, f' = g -> valid_grid w h g) by (intros g' <-; auto).
      assert (Sf : SInv w h (eq f') s) by (eapply SInv_anti; [|exact S]; intros g' <-; auto).
      split; [eapply chain_lower; eauto; discriminate|eapply chain_measure; eauto; discriminate].
Qed.
Lemma round_end : forall o s u, oracle_ok o -> kept s -> solve_round o SOLVERS s = Ok ([], u) -> u = s /\ complete s.
Proof.
  intros o s u Ho K E. pose proof K as [G [Td Ca]]. pose proof G as [S [g Hg]]. pose proof (SInv_ok _ _ _ _ S) as O.
  assert (FV : forall g, solution s g -> valid_grid w h g) by (intros; eapply gd_valid; eauto).
  destruct (round_ok w h Hw Hh o Ho (solution s) FV s (SInv_WInv _ _ _ _ S)) as [st [v [E' R]]].
  rewrite E in E'. injection E' as <- <-.
  inversion R as [st' u' Ns Su C Hn' Hc Hx | cls st' u' Hin Ns Hc St Su C
                     | f st' u' Ns Hc St Sol Ou Hn' Hb C | Hc St Hd]; subst; try congruence.
  split; auto. destruct Hd as [Hd|[f [Hd1 Hd2]]]; [exfalso; eapply Hd; eauto|].
  destruct O as [W [Ew Eh]]. intros p Fp. unfold field in Fp. rewrite Ew, Eh in Fp. rewrite Hd2 by auto. pose proof (proj1 (FV f Hd1) p Fp). lia.
Qed.

Definition all_up_to (r : Z) (l : list step) : Prop := forall st, In st l -> exists k, RATINGS (st_class st) = Ok k /\ k <= r.

(** solve() with steps up to [r] gets as far as the candidates of [T], where nothing is left to be found. *)
Lemma loop_above : forall o r T, oracle_ok o -> r < 10 -> kept T -> closed o r T -> forall fuel s l t, kept s -> solve_loop fuel o s = Ok (l, t) ->
  all_up_to r l -> above T s -> above T t /\ kept t /\ complete t.
Proof.
  intros o r T Ho Hr KT Cl fuel; induction fuel as [|fuel IH]; intros s l t K E Up Ab; [discriminate|].
  cbn [solve_loop] in E. destruct (solve_round o SOLVERS s) as [[steps u]|] eqn:R; [|discriminate]. cbn [rbind] in E.
  destruct steps as [|x steps].
  - injection E as <- <-. destruct (round_end o s u Ho K R) as [-> C]. auto.
  - destruct (solve_loop fuel o u) as [[l' t']|] eqn:E'; [|discriminate]. cbn [rbind] in E. injection E as <- <-.
    destruct (round_level o s _ u Ho K R) as [pre [cls [post [E1 [E2 [E3 [E4 [_ [Ku _]]]]]]]]]; [discriminate|].
    apply (IH u l' t'); auto.
    + intros st Hst. apply Up. change (In st ((x :: steps) ++ l')). apply in_app_iff; auto.
    + pose proof (kept_ok T KT) as [W [Ew Eh]]. destruct (Up x) as [k [Hk Lk]]; [left; auto|]. rewrite (E4 x) in Hk by (left; auto).
      apply (class_above T W ltac:(lia) ltac:(lia) (fun p => kept_ne T p KT) o cls s (x :: steps) u); auto. apply (closed_keeps o r T Ho KT Cl Hr cls k); auto.
Qed.

(** solve() does not use a step rated higher than [r], if a sudoku with nothing left to be found up to [r] is complete. *)
Lemma loop_up_to : forall o r s0, oracle_ok o -> (forall T, kept T -> closed o r T -> lower s0 T -> complete T) ->
  forall fuel s l t, kept s -> lower s0 s -> solve_loop fuel o s = Ok (l, t) -> all_up_to r l.
Proof.
  intros o r s0 Ho H fuel; induction fuel as [|fuel IH]; intros s l t K L E; [discriminate|].
  cbn [solve_loop] in E. destruct (solve_round o SOLVERS s) as [[steps u]|] eqn:R; [|discriminate]. cbn [rbind] in E.
  destruct steps as [|x steps]; [injection E as <- <-; intros st []|].
  destruct (solve_loop fuel o u) as [[l' t']|] eqn:E'; [|discriminate]. cbn [rbind] in E. injection E as <- <-.
  destruct (round_level o s _ u Ho K R) as [pre [cls [post [E1 [E2 [E3 [E4 [_ [Ku [Lu M]]]]]]]]]]; [discriminate|].
  intros st Hst. change (In st ((x :: steps) ++ l')) in Hst. apply in_app_iff in Hst. destruct Hst as [Hst|Hst].
  - rewrite (E4 st Hst). destruct (solver_rated cls) as [k Hk]; [rewrite E1; apply in_elt|]. exists k. split; auto.
    destruct (Z_le_gt_dec k r) as [|Gk]; auto. exfalso.
    assert (Cl : closed o r s). { intros c kc Hc Lc. apply E2. eapply rated_before; eauto. lia. }
    pose proof (complete_measure s K (H s K Cl L)) as M1. pose proof (LSolvers4.good_size w h Hw Hh u (proj1 Ku)) as M2. simpl in M. lia.
  - apply (IH u l' t'); auto. eapply lower_trans; eauto.
Qed.

(** * Both together *)
Lemma play_zero : forall r s t, r < 1 -> play r s t -> kept s -> t = s.
Proof.
  intros r s t Hr P K. destruct P as [s|s st st' s1 t H A P]; auto. exfalso.
  destruct H as [o [cls [ys [k [Ho [Hy [Hst [Hk Lk]]]]]]]].
  assert (cls = CalculateCandidates).
  { destruct (solver_eq_calc cls) as [|N]; auto. destruct (rated_range cls k Hk) as [_ [_ X]]. specialize (X N). lia. }
  subst cls. pose proof K as [G _]. pose proof G as [S [g Hg]]. pose proof (SInv_ok _ _ _ _ S) as O.
  assert (FV : forall g, solution s g -> valid_grid w h g) by (intros; eapply gd_valid; eauto).
  pose proof (find_safe w h Hw Hh (solution s) FV o CalculateCandidates s Ho S ltac:(discriminate) ltac:(discriminate)) as Sa.
  destruct (gsafe_run (SInv w h (solution s)) _ _ _ s S Sa) as [_ X]. rewrite (steps_yield _ _ _ _ Hy) in Hst.
  destruct (X st Hst) as [X1 [_ [_ [X2 [_ [X3 _]]]]]]. unfold effective in X3. rewrite X1 in X3. destruct X3 as [p [_ [X3 X4]]].
  revert X4. apply (gd_ne w h); auto. apply X2. rewrite X3; left; auto.
Qed.

Lemma loop_zero : forall o r s fuel l t, oracle_ok o -> r < 1 -> kept s -> solve_loop fuel o s = Ok (l, t) -> (complete s <-> all_up_to r l).
Proof.
  intros o r s fuel l t Ho Hr K E. destruct fuel as [|fuel]; [discriminate|].
  cbn [solve_loop] in E. destruct (solve_round o SOLVERS s) as [[steps u]|] eqn:R; [|discriminate]. cbn [rbind] in E.
  destruct steps as [|x steps].
  - injection E as <- <-. split; [intros _ st []|]. intros _. eapply round_end; eauto.
  - destruct (solve_loop fuel o u) as [[l' t']|] eqn:E'; [|discriminate]. cbn [rbind] in E. injection E as <- <-.
    destruct (round_level o s _ u Ho K R) as [pre [cls [post [E1 [E2 [E3 [E4 [Nc [Ku [Lu M]]]]]]]]]]; [discriminate|]. split.
    + intros C. exfalso. pose proof (complete_measure s K C) as M1. pose proof (LSolvers4.good_size w h Hw Hh u (proj1 Ku)) as M2. simpl in M. lia.
    + intros Up. exfalso. destruct (Up x) as [k [Hk Lk]]; [left; auto|]. rewrite (E4 x) in Hk by (left; auto).
      destruct (rated_range cls k Hk) as [_ [_ X]]. specialize (X Nc). lia.
Qed.

Lemma solvable_zero : forall r s, r < 1 -> kept s -> (solvable_with r s <-> complete s).
Proof.
  intros r s Hr K. split.
  - intros [u [P Cu]]. rewrite <- (play_zero r s u Hr P K). auto.
  - intros C. exists s. split; [constructor|auto].
Qed.

(** Every sudoku in which nothing up to [r] is left to be found decides. *)
Lemma solvable_closed : forall o r s T, oracle_ok o -> 1 <= r < 10 -> kept s -> kept T -> lower s T -> closed o r T -> solvable_with r s -> complete T.
Proof.
  intros o r s T Ho Hr K KT L Cl [u [P Cu]]. destruct (play_kept r s u P K) as [Ku Lu].
  assert (A : above T u) by (apply (play_above o r T s u); auto; [lia|apply lower_above; auto]).
  apply (complete_below o r u T); auto; [lia|]. apply above_lower; auto.
Qed.

Lemma solvable_run : forall o r s fuel l t, oracle_ok o -> r < 10 -> kept s -> solve_loop fuel o s = Ok (l, t) ->
  (solvable_with r s <-> all_up_to r l).
Proof.
  intros o r s fuel l t Ho Hr K E. destruct (Z_lt_ge_dec r 1) as [R1|R1].
  { rewrite solvable_zero by auto. eapply loop_zero; eauto. }
  split.
  - intros So. eapply loop_up_to; [exact Ho| |exact K|intros p x _ X; exact X|exact E].
    intros T KT Cl L. apply (solvable_closed o r s T); auto. lia.
  - intros Up. destruct (play_on o r (S (measure w h s)) s Ho K) as [T [P [KT [L Cl]]]]; [lia|].
    exists T. split; auto. destruct (loop_above o r T Ho Hr KT Cl fuel s l t K E Up) as [A [Kt Ct]]; [apply lower_above; auto|].
    apply (complete_below o r t T); auto; [lia|]. apply above_lower; auto.
Qed.
(** With Bruteforce every sudoku is solved. *)
Lemma solvable_ten : forall o r s, oracle_ok o -> 10 <= r -> kept s -> solvable_with r s.
Proof.
  intros o r s Ho Hr K. destruct (play_on o r (S (measure w h s)) s Ho K) as [T [P [KT [L Cl]]]]; [lia|].
  exists T. split; auto. intros p Fp Z0. pose proof (kept_ok T KT) as [W _].
  destruct (bruteforce_all o T Ho W) as [ys [A [_ B]]]. destruct B as [f [fs [Hf [[_ Hfs] F2]]]]; [apply KT|].
  pose proof (Cl Bruteforce 10 eq_refl Hr) as Y. unfold all_steps in *. rewrite Y in A. injection A as <-. inversion F2; subst.
  apply (proj2 (Hfs p)). split; auto.
Qed.
End Level.
