(** Lemmas for C116: which tuples solve() can use. *)
From Verif Require Export LDual.

Local Opaque MSudoku.surrounding_of.

(** * The effect of a tuple step *)
Lemma dual_effect : forall s n m aff cl cl' vals vals' a b, wf s -> (forall p, In p aff -> field s p) ->
  step_is (HiddenTuple n) cl aff vals a -> step_is (NakedTuple m) cl' aff vals' b ->
  (forall p x, In p aff -> In x (cand s p) -> (In x vals' <-> ~ In x vals)) -> same_effect s a b.
Proof.
  intros s n m aff cl cl' vals vals' a b W Fa [A1 [A2 [A3 [A4 A5]]]] [B1 [B2 [B3 [B4 B5]]]] H.
  pose proof (ok_intro _ _ s W eq_refl eq_refl) as O.
  destruct (apply_fresh _ _ a s O) as [xa [t [_ [Ea [Ta _]]]]]; auto.
  { unfold applicable. rewrite A1, A3. auto. }
  destruct (apply_fresh _ _ b s O) as [xb [u [_ [Eb [Tb _]]]]]; auto.
  { unfold applicable. rewrite B1, B3. auto. }
  unfold applied, puts, replaces, drops in Ta, Tb. rewrite A1, A3, A4 in Ta. rewrite B1, B3, B4 in Tb.
  destruct Ta as [W1 [D1 [E1 [_ [N1 [_ C1]]]]]]. destruct Tb as [W2 [D2 [E2 [_ [N2 [_ C2]]]]]].
  assert (t = u).
  { assert (Ft : forall p, field t p <-> cell (box_width s) (box_height s) p) by (intros p; unfold field; rewrite D1, E1; reflexivity).
    assert (Fu : forall p, field u p <-> cell (box_width s) (box_height s) p) by (intros p; unfold field; rewrite D2, E2; reflexivity).
    apply sudoku_ext; auto; try congruence.
    - intros p Fp. apply Ft in Fp. rewrite N1, N2; auto.
    - intros p Fp. apply (sset_ext zcmp zcmp_good); [apply cand_sset; auto|apply cand_sset; auto; apply Fu, Ft; auto|].
      apply Ft in Fp. intros x. rewrite C1, C2 by auto.
      split; intros [X Y]; split; auto; intros [Z1 [Z2 Z3]]; apply Y; split; auto; split; auto.
      + apply (proj1 (H p x Z1 X)); auto.
      + apply (proj2 (H p x Z1 X)); auto. }
  subst u. do 3 eexists. split; eauto.
Qed.

(** * Rounds of solve() *)
Lemma drive_none : forall g s s', drive g s = Ok ([], s') -> s' = s /\ glist g s = Ok [].
Proof.
  intros g s s' H. destruct g as [r|a k|e]; cbn [drive] in H.
  - split; [congruence|reflexivity].
  - destruct (apply a s) as [[a' s2]|]; [|discriminate]. cbn [rbind] in H.
    destruct (drive (k s2) s2) as [[l' s3]|]; discriminate.
  - discriminate.
Qed.
Lemma drive_some : forall g s l s', drive g s = Ok (l, s') -> glist g s = Ok [] -> l = [].
Proof.
  intros g s l s' H E. destruct g as [r|a k|e]; cbn [drive] in H.
  - congruence.
  - unfold glist in E. cbn [gresult gyields] in E. destruct (gresult (k s) s); discriminate.
  - discriminate.
Qed.

Lemma round_first : forall o l s steps u, solve_round o l s = Ok (steps, u) -> steps <> [] ->
  exists pre cls post, l = pre ++ cls :: post /\ (forall c, In c pre -> all_steps o c s []) /\
    drive (MSolvers.find o cls s) s = Ok (steps, u).
Proof.
  intros o l; induction l as [|c l IH]; intros s steps u H Ne; cbn [solve_round] in H; [congruence|].
  destruct (drive (MSolvers.find o c s) s) as [[st s']|] eqn:E; [|discriminate]. cbn [rbind] in H.
  destruct st as [|x st].
  - destruct (drive_none _ _ _ E) as [-> E']. destruct (IH s steps u H Ne) as [pre [cls [post [A [B C]]]]].
    exists (c :: pre), cls, post. split; [rewrite A; reflexivity|]. split; auto. intros c' [<-|X]; auto.
  - injection H as <- <-. exists [], c, l. split; [reflexivity|]. split; [intros ? []|]. auto.
Qed.

(** Which classes come before the tuples. *)
Lemma solvers_before : forall pre cls post, SOLVERS = pre ++ cls :: post ->
  match cls with
  | NakedTuple n => In CalculateCandidates pre /\ In NakedSingle pre /\ In HiddenSingle pre /\
      forall m, (2 <= m < n)%nat -> In (HiddenTuple m) pre
  | HiddenTuple n => In CalculateCandidates pre /\ In NakedSingle pre /\ forall m, (2 <= m <= n)%nat -> In (NakedTuple m) pre
  | _ => True
  end.
Proof.
  intros pre cls post E. unfold SOLVERS in E.
  do 17 (destruct pre as [|c pre];
    [injection E as <- <-; auto; simpl; try (split; [tauto|]; split; [tauto|]; try (split; [tauto|]);
       intros m Hm; do 6 (destruct m as [|m]; [simpl; first [lia|tauto]|]); lia)
    |injection E as <- E]; cbn [app] in E).
  destruct pre; discriminate.
Qed.

(** * What solve() keeps true *)
Section Calm.
Variables w h : Z.
Hypothesis Hw : 1 <= w.
Hypothesis Hh : 1 <= h.

(** Candidates are numbers of the sudoku, and no number is a candidate of a peer. *)
Definition calm (s : sudoku) : Prop :=
  (forall p q x, cell w h p -> cell w h q -> peers w h p q -> num s p <> 0 -> In x (cand s q) -> x <> num s p) /\
  (forall p x, cell w h p -> In x (cand s p) -> 1 <= x <= w * h).

Lemma link_calm : forall (F : grid -> Prop) cls g s st t, cls <> CalculateCandidates -> F g -> valid_grid w h g -> link w h F cls s st t -> calm s -> calm t.
Proof.
  intros F cls g s st t N Hg V [Wi [_ [L1 [_ [La [_ [[_ [_ [_ L3]]] [L4 _]]]]]]]] [C1 C2]. rewrite <- L1 in N.
  specialize (L4 g Hg). unfold sound in L4.
  assert (Less : (forall q, cell w h q -> num t q = num s q) -> (forall q x, cell w h q -> In x (cand t q) -> In x (cand s q)) -> calm t).
  { intros E1 E2. split.
    - intros p q x Cp Cq P Np Hx. rewrite E1 in * by auto. apply (C1 p q); auto.
    - intros p x Cp Hx. apply (C2 p); auto. }
  assert (Set1 : forall p v, affected st = [p] -> values st = [v] -> sets_only g st ->
     (forall q, cell w h q -> num t q = if coord_eqb q p then v else num s q) ->
     (forall x, In x (cand t p) <-> x = v) ->
     (forall q x, cell w h q -> q <> p -> (In x (cand t q) <-> In x (cand s q) /\ ~ (peers w h p q /\ x = v))) -> calm t).
  { intros p v Ea Ev [p' [Ea' Ev']] E1 E2 E3.
    assert (p' = p) by congruence. subst p'. assert (Gv : g p = v) by congruence.
    assert (Cp : cell w h p) by (apply La; rewrite Ea; left; auto).
    split.
    - intros a b x Ca Cb P Na Hx. rewrite E1 in * by auto. destruct (coord_eqb a p) eqn:Ep.
      + apply coord_eqb_eq in Ep; subst a. assert (b <> p) by (intros ->; apply P; auto).
        apply E3 in Hx; auto. intros ->. destruct Hx as [_ Hx]. apply Hx; auto.
      + destruct (coord_eq_dec b p) as [->|D].
        * apply E2 in Hx. subst x. intros E.
          destruct (wi_num _ _ _ _ Wi g a Hg Ca) as [X|X]; [congruence|].
          apply (proj2 V a p Ca Cp P). congruence.
        * apply E3 in Hx; auto. apply (C1 a b); tauto.
    - intros a x Ca Hx. destruct (coord_eq_dec a p) as [->|D].
      + apply E2 in Hx. subst x. rewrite <- Gv. apply V; auto.
      + apply E3 in Hx; auto. apply (C2 a); tauto. }
  destruct (st_class st); try congruence;
    try (destruct L3 as [N1 K1]; apply Less; auto; intros q x Cq Hx; apply K1 in Hx; tauto);
    destruct L3 as [p [v [A1 [A2 [A3 [A4 A5]]]]]]; apply (Set1 p v); auto.
Qed.
Lemma chain_calm : forall (F : grid -> Prop) cls g s l t, cls <> CalculateCandidates -> F g -> valid_grid w h g ->
  chain (link w h F cls) s l t -> calm s -> calm t.
Proof.
  intros F cls g s l t N Hg V C; induction C as [s|s st t l u L C IH]; intros T; auto. apply IH. exact (link_calm F cls g s st t N Hg V L T).
Qed.

Definition kept (s : sudoku) : Prop := Good w h s /\ tidy w h s /\ calm s.

(** With these, a unit is settled as soon as the first classes find nothing. *)
Lemma kept_single : forall o s, kept s -> all_steps o NakedSingle s [] ->
  forall p v, cell w h p -> cand s p = [v] -> num s p = v.
Proof.
  intros o s [G [T C]] N p v Cp E. pose proof G as [SI [g Hg]]. pose proof (SInv_ok _ _ _ _ SI) as [W [Ew Eh]].
  assert (Fp : field s p) by (unfold field; rewrite Ew, Eh; auto).
  destruct (naked_single_all o s W) as [fs [ys [A [[_ B] D]]]]. unfold all_steps in *. rewrite N in A. injection A as <-.
  inversion D; subst. destruct (Z.eq_dec (num s p) 0) as [Z0|Z0].
  - exfalso. apply (proj2 (B p)). split; auto. split; auto. eauto.
  - symmetry. apply T; auto. rewrite E. left; auto.
Qed.
Lemma together_peers : forall s k p p', box_width s = w -> box_height s = h -> together s k p p' -> p <> p' -> peers w h p p'.
Proof. intros s k p p' <- <- T D. split; auto. destruct k; simpl in T; auto. Qed.

Lemma kept_settled : forall o s k q, kept s -> all_steps o NakedSingle s [] -> settled s k q.
Proof.
  intros o s k q K N. pose proof K as [G [T [C1 C2]]]. pose proof G as [SI [g Hg]]. pose proof (SInv_ok _ _ _ _ SI) as [W [Ew Eh]].
  split.
  - intros p v [Fp _] Hv. unfold field in Fp. rewrite Ew, Eh in *. apply (C2 p); auto.
  - intros p p' v [Fp Tp] [Fp' Tp'] D E Hv. unfold field in Fp, Fp'. rewrite Ew, Eh in *.
    pose proof (kept_single o s K N p v Fp E) as Np.
    assert (1 <= v <= w * h) by (apply (C2 p); auto; rewrite E; left; auto).
    assert (v <> num s p); [|congruence]. apply (C1 p p'); auto; [|lia].
    apply (together_peers s k); auto. eapply together_trans; eauto. apply together_sym; auto.
Qed.
Lemma kept_hidden : forall o s k q, oracle_ok o -> kept s -> all_steps o HiddenSingle s [] -> no_hidden s k q.
Proof.
  intros o s k q Ho K N p v [Fp _] L H. pose proof K as [G [T _]]. pose proof G as [SI [g Hg]]. pose proof (SInv_ok _ _ _ _ SI) as [W [Ew Eh]].
  destruct (hidden_single_all o s Ho W) as [fs [ys [A [[_ B] D]]]]. unfold all_steps in *. rewrite N in A. injection A as <-.
  inversion D; subst. apply (proj2 (B p)). split; auto. split; [|eauto].
  destruct (Z.eq_dec (num s p) 0) as [Z0|Z0]; auto. exfalso.
  assert (Cp : cell w h p) by (unfold field in Fp; rewrite Ew, Eh in Fp; auto).
  assert (Nd : NoDup (cand s p)) by (apply (sset_NoDup _ zcmp_good); apply cand_sset; auto).
  destruct (cand s p) as [|a [|b l]] eqn:E; simpl in L; try lia.
  assert (a = num s p) by (apply T; auto; rewrite E; left; auto).
  assert (b = num s p) by (apply T; auto; rewrite E; right; left; auto).
  inversion Nd as [|x y Q1 Q2]; subst. apply Q1. left. congruence.
Qed.
Lemma kept_consistent : forall s, kept s -> exists f, consistent s f.
Proof.
  intros s [G _]. pose proof G as [SI [g Hg]]. pose proof (SInv_ok _ _ _ _ SI) as [W [Ew Eh]].
  exists g. split; auto. intros p Fp. apply (si_cand _ _ _ _ SI); auto. unfold field in Fp. rewrite Ew, Eh in Fp. auto.
Qed.

(** * The tuples that solve() can use *)
Definition allowed (cls : solver) : Prop :=
  match cls with
  | NakedTuple n => (2 * n <= Z.to_nat (w * h))%nat
  | HiddenTuple n => (2 * n < Z.to_nat (w * h))%nat
  | _ => True
  end.

Lemma no_naked : forall o s, wf s -> forall n, all_steps o (NakedTuple n) s [] -> forall k q cl aff vals, ~ naked_tuple s n k q cl aff vals.
Proof.
  intros o s W n N k q cl aff vals X. destruct (naked_all o n s W) as [ys [A [_ [_ B]]]].
  unfold all_steps in *. rewrite N in A. injection A as <-. destruct (B _ _ _ _ _ X) as [st [[] _]].
Qed.
Lemma no_hidden_tuple : forall o s, wf s -> forall n, all_steps o (HiddenTuple n) s [] ->
  forall k q places cl aff vals, ~ hidden_tuple s n k q places cl aff vals.
Proof.
  intros o s W n N k q places cl aff vals X. destruct (hidden_all o n s W) as [ys [A [B _]]].
  unfold all_steps in *. rewrite N in A. injection A as <-.
  refine (proj2 (B (mkStep (HiddenTuple n) cl aff vals [])) _). exists k, q, places, cl, aff, vals. split; [exact X|]. repeat split.
Qed.
Lemma some_naked : forall o s, wf s -> forall n, (forall k q cl aff vals, ~ naked_tuple s n k q cl aff vals) -> all_steps o (NakedTuple n) s [].
Proof.
  intros o s W n X. destruct (naked_all o n s W) as [ys [A [_ [B _]]]]. destruct ys as [|st ys]; auto.
  destruct (B st (or_introl eq_refl)) as [k [q [cl [aff [vals [Y _]]]]]]. exfalso. eapply X; eauto.
Qed.
Lemma some_hidden : forall o s, wf s -> forall n, (forall k q places cl aff vals, ~ hidden_tuple s n k q places cl aff vals) -> all_steps o (HiddenTuple n) s [].
Proof.
  intros o s W n X. destruct (hidden_all o n s W) as [ys [A [B _]]]. destruct ys as [|st ys]; auto.
  destruct (proj1 (B st) (or_introl eq_refl)) as [k [q [places [cl [aff [vals [Y _]]]]]]]. exfalso. eapply X; eauto.
Qed.

Lemma round_allowed : forall o s steps u st, oracle_ok o -> kept s -> solve_round o SOLVERS s = Ok (steps, u) -> In st steps -> allowed (st_class st).
Proof.
  intros o s steps u st Ho K E Hst.
  assert (Ne : steps <> []) by (intros ->; destruct Hst).
  pose proof K as [G _]. pose proof G as [SI [g Hg]]. pose proof (SInv_ok _ _ _ _ SI) as O. pose proof O as [W [Ew Eh]].
  destruct (kept_consistent s K) as [f Cf].
  assert (FV : forall g, solution s g -> valid_grid w h g) by (intros; eapply gd_valid; eauto).
  destruct (round_first o SOLVERS s steps u E Ne) as [pre [cls [post [E1 [E2 E3]]]]].
  assert (Cls : st_class st = cls \/ st_class st = CalculateCandidates \/ st_class st = Bruteforce).
  { assert (In cls SOLVERS) by (rewrite E1; apply in_elt). rewrite SOLVERS_eq in H. destruct H as [<-|H]; [|apply in_app_iff in H; destruct H as [H|[<-|[]]]].
    - destruct (calculate_drive w h (solution s) FV s (SInv_WInv _ _ _ _ SI)) as [st' [s' [E' [_ [C _]]]]].
      change (MSolvers.find o CalculateCandidates s) with (calculate_find s) in E3. rewrite E' in E3. injection E3 as -> ->.
      left. eapply chain_class; eauto.
    - destruct (ded_drive w h Hw Hh o Ho (solution s) FV cls s (DED_deductive cls H) SI) as [l [s' [E' [_ C]]]].
      rewrite E' in E3. injection E3 as -> ->. left. eapply chain_class; eauto.
    - destruct (brute_drive w h Hw Hh o Ho s O) as [[B1 B2]|[f' [st' [u' [B1 [B2 [B3 [B4 [B5 [B6 B7]]]]]]]]]].
      + exfalso. eapply B1; eauto.
      + change (MSolvers.find o Bruteforce s) with (bruteforce_find o s) in E3. rewrite B2 in E3. injection E3 as -> ->. auto. }
  destruct Cls as [Cls|[Cls|Cls]]; [|rewrite Cls; simpl; auto|rewrite Cls; simpl; auto]. rewrite Cls.
  pose proof (solvers_before pre cls post E1) as SB. destruct cls as [| | |n|n|n|n|]; simpl; auto.
  - destruct SB as [_ [B1 [B2 B3]]]. destruct (le_lt_dec (2 * n) (Z.to_nat (w * h))) as [|Lt]; auto. exfalso. apply Ne.
    apply (drive_some _ _ _ _ E3). apply some_naked; auto. intros k q cl aff vals X.
    destruct (naked_hidden s k q f W (proj1 X) Cf (kept_settled o s k q K (E2 _ B1)) n cl aff vals (kept_hidden o s k q Ho K (E2 _ B2)) X)
      as [m [places [cl' [vals' [Y [L1 [L2 _]]]]]]].
    rewrite Ew, Eh in L2. revert Y. apply (no_hidden_tuple o s W m). apply E2. apply B3. lia.
  - destruct SB as [_ [B1 B3]]. destruct (le_lt_dec (Z.to_nat (w * h)) (2 * n)) as [Le|]; auto. exfalso. apply Ne.
    apply (drive_some _ _ _ _ E3). apply some_hidden; auto. intros k q places cl aff vals X.
    destruct (hidden_naked s k q f W (proj1 X) Cf (kept_settled o s k q K (E2 _ B1)) n places cl aff vals X)
      as [m [cl' [vals' [Y [L1 [L2 _]]]]]].
    rewrite Ew, Eh in L2. revert Y. apply (no_naked o s W m). apply E2. apply B3. lia.
Qed.

Lemma round_kept : forall o s steps u, oracle_ok o -> kept s -> solve_round o SOLVERS s = Ok (steps, u) -> kept u.
Proof.
  intros o s steps u Ho K E. pose proof K as [G [T C0]]. pose proof G as [SI [g Hg]]. pose proof (SInv_ok _ _ _ _ SI) as O.
  assert (FV : forall g, solution s g -> valid_grid w h g) by (intros; eapply gd_valid; eauto).
  destruct (round_ok w h Hw Hh o Ho (solution s) FV s (SInv_WInv _ _ _ _ SI)) as [st [v [E' R]]].
  rewrite E in E'. injection E' as <- <-.
  inversion R as [st' u' Ns Su C Hn' Hc Hx | cls st' u' Hin Ns Hc St Su C
                     | f st' u' Ns Hc St Sol Ou Hn' Hb C | Hc St Hd]; subst; auto.
  - exfalso. apply Hx. intros p Cp. apply (gd_ne w h); auto.
  - destruct (DED_deductive cls Hin) as [N1 [N2 _]]. destruct (good_ded w h cls s steps u G N2 Su C) as [Gu _].
    split; auto. split; [eapply chain_tidy; eauto|eapply chain_calm; eauto].
  - destruct C as [Su C]. { intros p Cp. apply (si_cand _ _ _ _ SI); auto. }
    destruct (good_brute w h f s u Su O Sol Hn') as [Gu _].
    split; auto. split; [eapply chain_tidy; eauto; discriminate|].
    eapply (chain_calm (eq f) Bruteforce f); eauto. discriminate.
Qed.

Lemma loop_allowed : forall o, oracle_ok o -> forall fuel s l t, kept s -> solve_loop fuel o s = Ok (l, t) ->
  forall st, In st l -> allowed (st_class st).
Proof.
  intros o Ho fuel; induction fuel as [|fuel IH]; intros s l t K E st Hst; [discriminate|].
  cbn [solve_loop] in E. destruct (solve_round o SOLVERS s) as [[steps u]|] eqn:R; [|discriminate]. cbn [rbind] in E.
  destruct steps as [|x steps]; [injection E as <- <-; destruct Hst|].
  destruct (solve_loop fuel o u) as [[l' t']|] eqn:E'; [|discriminate]. cbn [rbind] in E. injection E as <- <-.
  change (In st ((x :: steps) ++ l')) in Hst. apply in_app_iff in Hst. destruct Hst as [Hst|Hst].
  - eapply round_allowed; eauto.
  - apply (IH u l' t'); auto. eapply round_kept; eauto.
Qed.

Lemma solve_allowed : forall o fuel s l t f, oracle_ok o -> ok_sudoku w h s -> solution s f -> solve fuel o s = Ok (l, t) ->
  forall st, In st l -> allowed (st_class st).
Proof.
  intros o fuel s l t f0 Ho O Hf0 H. pose proof O as [W [Ew Eh]].
  destruct (solve_start w h o s O) as [s0 [[A0 E0] [O0 [N0 [C0 W0]]]]]. rewrite E0 in H.
  pose proof (solutions_eq w h s s0 O O0 N0) as Sol0.
  assert (FV : forall g, solution s g -> valid_grid w h g) by (intros g Hg; exact (gd_valid w h Hw Hh s g O Hg)).
  destruct (calculate_drive w h (solution s) FV s0 W0) as [st [s1 [E [S1 [C [Hn [Hc Hemp]]]]]]].
  pose proof (SInv_ok _ _ _ _ S1) as O1.
  assert (Sol1 : forall f, solution s1 f <-> solution s f).
  { intros f. rewrite <- Sol0. apply solutions_eq with (w := w) (h := h); auto. }
  assert (Num : forall p, cell w h p -> num s1 p = num s p) by (intros; rewrite Hn, N0; auto).
  assert (In0 : forall p, cell w h p -> num s p = 0 \/ num s p = f0 p).
  { intros p Cp. apply Hf0. unfold field. rewrite Ew, Eh. auto. }
  assert (K1 : kept s1).
  { split; [constructor; [|exists f0; apply Sol1; auto]; eapply SInv_anti; [|exact S1]; intros g Hg; apply Sol1; auto|].
    split.
    - intros p x Cp Np Hx. rewrite Num in * by auto. rewrite Hc, C0 in Hx by auto.
      rewrite (proj2 (Z.eqb_neq _ _) Np) in Hx. destruct Hx as [<-|[]]; auto.
    - assert (Cand : forall p x, cell w h p -> In x (cand s1 p) ->
         (num s p <> 0 /\ x = num s p) \/ (num s p = 0 /\ In x (pcalc s0 p))).
      { intros p x Cp Hx. rewrite Hc, C0 in Hx by auto. destruct (num s p =? 0) eqn:Z; b2p; auto.
        left. split; auto. destruct Hx as [<-|[]]; auto. }
      destruct O0 as [W00 [Ew0 Eh0]].
      assert (Fs : forall p, cell w h p -> field s0 p) by (intros; unfold field; rewrite Ew0, Eh0; auto).
      split.
      + intros p q x Cp Cq P Np Hx. rewrite Num in * by auto.
        destruct (Cand q x Cq Hx) as [[Z1 Z2]|[Z1 Z2]].
        * destruct (In0 p Cp) as [X|X]; [congruence|]. destruct (In0 q Cq) as [Y|Y]; [congruence|].
          subst x. rewrite X, Y. intros E2. apply (proj2 (FV f0 Hf0) p q); auto.
        * apply in_pcalc_empty in Z2; auto; [|rewrite N0; auto]. destruct Z2 as [_ Z2]. rewrite Ew0, Eh0 in Z2.
          intros ->. apply (Z2 p); auto. apply peers_sym; auto.
      + intros p x Cp Hx. destruct (Cand p x Cp Hx) as [[Z1 Z2]|[Z1 Z2]].
        * destruct (In0 p Cp) as [X|X]; [congruence|]. rewrite Z2, X. apply (FV f0 Hf0); auto.
        * apply in_pcalc_empty in Z2; auto; [|rewrite N0; auto]. unfold NN in Z2. rewrite Ew0, Eh0 in Z2. tauto. }
  intros x Hx. destruct st as [|a st].
  - inv C. eapply loop_allowed; eauto.
  - destruct fuel as [|fuel]; [discriminate|]. cbn [solve_loop] in H. rewrite SOLVERS_eq in H. cbn [solve_round] in H.
    change (MSolvers.find o CalculateCandidates s0) with (calculate_find s0) in H. rewrite E in H. cbn [rbind] in H.
    destruct (solve_loop fuel o s1) as [[l' t']|] eqn:E'; [|discriminate]. cbn [rbind] in H. injection H as <- <-.
    change (In x ((a :: st) ++ l')) in Hx. apply in_app_iff in Hx. destruct Hx as [Hx|Hx].
    + rewrite (chain_class w h _ _ _ _ _ C x Hx). simpl. auto.
    + eapply loop_allowed; eauto.
Qed.
End Calm.
