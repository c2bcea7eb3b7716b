(** Lemmas for C134: a callback that applies the steps to another sudoku. *)
From Verif Require Export LReport.

Local Opaque MSudoku.surrounding_of.

Section Mirror.
Variables w h : Z.
Hypothesis Hw : 1 <= w.
Hypothesis Hh : 1 <= h.

Lemma same_state : forall t u, ok_sudoku w h t -> ok_sudoku w h u ->
  (forall p, cell w h p -> num t p = num u p) ->
  (forall p x, cell w h p -> (In x (cand t p) <-> In x (cand u p))) -> t = u.
Proof.
  intros t u [Wt [Et Ft]] [Wu [Eu Fu]] N C. apply sudoku_ext; auto; try congruence.
  - intros p Fp. apply N. unfold field in Fp. rewrite Et, Ft in Fp. auto.
  - intros p Fp. unfold field in Fp. rewrite Et, Ft in Fp.
    apply (sset_ext _ zcmp_good); auto using cand_sset.
    + apply cand_sset; auto. unfold field. rewrite Et, Ft. auto.
    + apply cand_sset; auto. unfold field. rewrite Eu, Fu. auto.
Qed.

Lemma single_acts : forall s p v (l : list coord), ok_sudoku w h s -> cell w h p ->
  (forall q, In q l -> cell w h q /\ q <> p) ->
  exists s', foldM do_action (SetNumber (fst p) (snd p) v :: SetCandidates (fst p) (snd p) [v]
                           :: map (fun q => RemoveCandidates (fst q) (snd q) [v]) l) s = Ok s' /\
   ok_sudoku w h s' /\ (forall q, cell w h q -> num s' q = if coord_eqb q p then v else num s q) /\
   (forall x, In x (cand s' p) <-> x = v) /\
   (forall q x, cell w h q -> q <> p -> (In x (cand s' q) <-> In x (cand s q) /\ ~ (In q l /\ x = v))).
Proof.
  intros s p v l O Cp Hl. pose proof O as O'. destruct O' as [W [Ew Eh]].
  assert (Fp : field s p) by (unfold field; rewrite Ew, Eh; auto).
  set (s1 := pset s p v). set (s2 := pcset s1 p [v]).
  assert (W1 : wf s1) by (apply pset_wf; auto).
  assert (F1 : field s1 p) by auto.
  assert (Zv : zsset [v]) by (repeat constructor).
  assert (W2 : wf s2) by (apply pcset_wf; auto).
  assert (O2 : ok_sudoku w h s2) by (apply ok_intro; auto).
  destruct (removes_ok w h (fun _ => [v]) l s2 O2) as [s' [E' [O' [N' C']]]].
  { intros q Hq; apply Hl in Hq; tauto. }
  exists s'. split; [|split; auto].
  - cbn [foldM do_action]. destruct p as [r c]; cbn [fst snd] in *.
    rewrite setitem_ok by auto. cbn [rbind]. rewrite set_candidates_ok by auto. cbn [rbind]. exact E'.
  - split; [|split].
    + intros q Cq. rewrite N'. unfold s2. rewrite num_pcset. unfold s1.
      apply num_pset; auto. unfold field; rewrite Ew, Eh; auto.
    + intros x. rewrite C' by auto. unfold s2. rewrite cand_pcset by auto. rewrite coord_eqb_refl.
      simpl. split; [intuition|]. intros ->; split; auto. intros [X _].
      apply Hl in X. tauto.
    + intros q x Cq Nq. rewrite C' by auto. unfold s2. rewrite cand_pcset; auto.
      2:{ unfold field; simpl. rewrite Ew, Eh; auto. }
      rewrite coord_eqb_neq by auto. unfold s1. rewrite cand_pset. simpl. intuition.
Qed.

(** The candidates of a field with a number are that number. *)
Definition neat (s : sudoku) : Prop :=
  forall p x, cell w h p -> num s p <> 0 -> (In x (cand s p) <-> x = num s p).

(** [m] has the numbers of [s], and its candidates at the empty fields for which they are known. *)
Definition mirrors (s m : sudoku) : Prop :=
  ok_sudoku w h m /\ (forall p, cell w h p -> num m p = num s p) /\
  (forall p x, cell w h p -> num s p = 0 -> cand s p <> [] -> (In x (cand m p) <-> In x (cand s p))).

Lemma some_in : forall (l : list Z) x, In x l -> l <> [].
Proof. intros l x H ->; destruct H. Qed.

(** Steps that remove candidates: the same fields of [s] and of [m]. *)
Lemma mirror_removes : forall (R : coord -> list Z) l s t m, ok_sudoku w h s -> ok_sudoku w h t -> neat s -> mirrors s m ->
  (forall q, In q l -> cell w h q /\ num s q = 0 /\ cand s q <> []) ->
  (forall q, cell w h q -> num t q = num s q) ->
  (forall q x, cell w h q -> (In x (cand t q) <-> In x (cand s q) /\ ~ (In q l /\ In x (R q)))) ->
  let acts := map (fun q => RemoveCandidates (fst q) (snd q) (R q)) l in
  exists m', foldM do_action acts m = Ok m' /\ foldM do_action acts s = Ok t /\ mirrors t m' /\ neat t.
Proof.
  intros R l s t m Os Ot Ns [Om [Mn Mc]] Hl Tn Tc acts.
  assert (Cl : forall q, In q l -> cell w h q) by (intros q Hq; apply Hl; auto).
  destruct (removes_ok w h R l m Om Cl) as [m' [E1 [O1 [N1 C1]]]].
  destruct (removes_ok w h R l s Os Cl) as [t' [E2 [O2 [N2 C2]]]].
  assert (t' = t).
  { apply same_state; auto.
    - intros p Cp. rewrite N2, Tn; auto.
    - intros p x Cp. rewrite C2, Tc; tauto. }
  subst t'. exists m'. split; [exact E1|]. split; [exact E2|]. split; [split; [auto|split]|].
  - intros p Cp. rewrite N1, Tn; auto.
  - intros p x Cp Zp Np. rewrite C1, Tc by auto. rewrite Tn in Zp by auto.
    assert (D : cand s p <> []).
    { destruct (cand t p) as [|y c] eqn:E; [congruence|]. apply some_in with (x := y).
      apply (Tc p y Cp). rewrite E. left; auto. }
    rewrite (Mc p x Cp Zp D). tauto.
  - intros p x Cp Np. rewrite Tn in * by auto. rewrite Tc by auto. rewrite (Ns p x Cp Np).
    split; [tauto|]. intros ->. split; auto. intros [X _]. apply Hl in X. tauto.
Qed.

Lemma link_mirror : forall (F : grid -> Prop) cls g s st t m a, F g -> valid_grid w h g -> link w h F cls s st t ->
  neat s -> mirrors s m -> bare st = a ->
  exists acts m', build_actions a m = Ok acts /\ acts <> [] /\ foldM do_action acts m = Ok m' /\
    foldM do_action acts s = Ok t /\ mirrors t m' /\ neat t.
Proof.
  intros F cls g s st t m a Hg V [Wi [Wt [_ [Ne [La [Ef [Et [Ls _]]]]]]]] Ns M Ea.
  pose proof (WInv_ok _ _ _ _ Wi) as Os. pose proof (WInv_ok _ _ _ _ Wt) as Ot.
  specialize (Ls g Hg). pose proof (wi_num _ _ _ _ Wi g) as Hn. specialize (fun p => Hn p Hg).
  destruct Et as [_ [_ [_ Et]]]. pose proof M as [Om [Mn Mc]].
  unfold effective in Ef. unfold sound in Ls.
  subst a. unfold build_actions. cbn [bare st_class].
  assert (Single : forall p v, affected st = [p] -> values st = [v] -> num s p <> v -> sets_only g st ->
      (forall q, cell w h q -> num t q = if coord_eqb q p then v else num s q) ->
      (forall x, In x (cand t p) <-> x = v) ->
      (forall q x, cell w h q -> q <> p -> (In x (cand t q) <-> In x (cand s q) /\ ~ (peers w h p q /\ x = v))) ->
      exists acts m', build_single (bare st) m = Ok acts /\ acts <> [] /\ foldM do_action acts m = Ok m' /\
        foldM do_action acts s = Ok t /\ mirrors t m' /\ neat t).
  { intros p v Ea Ev Nv [p' [Ea' Ev']] T1 T2 T3.
    assert (p' = p) by congruence. subst p'. assert (Gv : g p = v) by congruence.
    assert (Cp : cell w h p) by (apply La; rewrite Ea; left; auto).
    assert (Z0 : num s p = 0) by (destruct (Hn p Cp); congruence).
    assert (Vz : v <> 0). { destruct V as [V1 _]. specialize (V1 p Cp). lia. }
    destruct (build_single_ok w h (bare st) m p v Om Cp Ea Ev) as [l [E Hl]].
    assert (Hl' : forall q, In q l -> cell w h q /\ q <> p).
    { intros q Hq. apply Hl in Hq. destruct Hq as [H1 [[H2 _] _]]. split; auto. }
    destruct (single_acts m p v l Om Cp Hl') as [m' [E1 [O1 [N1 [C1 D1]]]]].
    destruct (single_acts s p v l Os Cp Hl') as [t' [E2 [O2 [N2 [C2 D2]]]]].
    (* a peer with a number has another number *)
    assert (Other : forall q, cell w h q -> peers w h p q -> num s q <> 0 -> num s q <> v).
    { intros q Cq P Nq Eq. destruct (Hn q Cq) as [X|X]; [congruence|].
      apply (proj2 V p q Cp Cq P). congruence. }
    assert (Tc : forall q x, cell w h q -> q <> p ->
       (In x (cand s q) /\ ~ (In q l /\ x = v) <-> In x (cand s q) /\ ~ (peers w h p q /\ x = v))).
    { intros q x Cq Nq. split; intros [X1 X2]; split; auto; intros [X3 X4]; subst x.
      - destruct (Z.eq_dec (num s q) 0) as [Z|Z].
        + apply X2; split; auto. apply Hl. split; auto. split; auto.
          apply (Mc q v Cq Z); auto. apply some_in with (x := v); auto.
        + apply (Ns q v Cq Z) in X1. apply (Other q Cq X3 Z). auto.
      - apply X2. apply Hl in X3. tauto. }
    assert (t' = t).
    { apply same_state; auto.
      - intros q Cq. rewrite N2, T1; auto.
      - intros q x Cq. destruct (coord_eq_dec q p) as [->|D]; [rewrite C2, T2; tauto|].
        rewrite D2, T3 by auto. apply Tc; auto. }
    subst t'. exists (SetNumber (fst p) (snd p) v :: SetCandidates (fst p) (snd p) [v]
       :: map (fun q => RemoveCandidates (fst q) (snd q) [v]) l), m'.
    split; [exact E|]. split; [discriminate|]. split; [exact E1|]. split; [exact E2|]. split; [split; [auto|split]|].
    - intros q Cq. rewrite N1, T1 by auto. destruct (coord_eqb q p); auto.
    - intros q x Cq Zq Nq. rewrite T1 in Zq by auto. destruct (coord_eqb q p) eqn:Eq; [congruence|].
      assert (D : q <> p) by (intros ->; rewrite coord_eqb_refl in Eq; discriminate).
      rewrite D1, D2 by auto.
      assert (Ne2 : cand s q <> []).
      { destruct (cand t q) as [|y c] eqn:Ec; [congruence|]. apply some_in with (x := y).
        apply (D2 q y Cq D). rewrite Ec. left; auto. }
      rewrite (Mc q x Cq Zq Ne2). tauto.
    - intros q x Cq Nq. rewrite T1 in * by auto. destruct (coord_eqb q p) eqn:Eq.
      + apply coord_eqb_eq in Eq. subst q. apply T2.
      + assert (D : q <> p) by (intros ->; rewrite coord_eqb_refl in Eq; discriminate).
        rewrite T3 by auto. rewrite (Ns q x Cq Nq). split; [tauto|]. intros ->. split; auto.
        intros [P E0]. apply (Other q Cq P Nq); auto. }
  (* fields that lose a candidate are empty *)
  assert (Void : forall p y, cell w h p -> In y (cand s p) -> y <> g p -> num s p = 0).
  { intros p y Cp Hy Ny. destruct (Hn p Cp) as [Z|Z]; auto.
    destruct (Z.eq_dec (num s p) 0) as [Z0|Z0]; auto. apply (Ns p y Cp Z0) in Hy. congruence. }
  assert (Drop : never_removes g st -> (forall p, In p (affected st) -> exists v, In v (cand s p) /\ In v (values st)) ->
     forall q, In q (affected st) -> cell w h q /\ num s q = 0 /\ cand s q <> []).
  { intros Nr Ex q Hq. destruct (Ex q Hq) as [v [H1 H2]]. split; auto. split.
    - apply (Void q v); auto. intros E. apply (Nr q v Hq H2). auto.
    - eapply some_in; eauto. }
  assert (Mne : forall f : coord -> action, map f (affected st) <> []).
  { intros f E. apply Ne. destruct (affected st); auto; discriminate. }
  destruct (st_class st).
  - (* CalculateCandidates *)
    destruct Ef as [p [E1 [E2 E3]]]. destruct Et as [T1 T2].
    assert (Cp : cell w h p) by (apply La; rewrite E2; left; auto).
    unfold build_calculate. cbn [clues values bare]. rewrite E1. unfold list_get. cbn -[foldM do_action].
    destruct Os as [Ws [Ews Ehs]]. destruct Om as [Wm [Ewm Ehm]].
    assert (Fs : forall q, cell w h q -> field s q) by (intros; unfold field; rewrite Ews, Ehs; auto).
    assert (Fm : forall q, cell w h q -> field m q) by (intros; unfold field; rewrite Ewm, Ehm; auto).
    assert (Zv : zsset (sof_list zcmp (values st))) by apply (sof_list_sset _ zcmp_good).
    assert (Zp : num s p = 0).
    { destruct (Z.eq_dec (num s p) 0) as [Z|Z]; auto. exfalso.
      pose proof (proj2 (Ns p (num s p) Cp Z) eq_refl) as X. rewrite E3 in X. destruct X. }
    exists [SetCandidates (fst p) (snd p) (values st)], (pcset m p (sof_list zcmp (values st))).
    split; [reflexivity|]. split; [discriminate|]. cbn [foldM do_action].
    destruct p as [r c]; cbn [fst snd]. rewrite set_candidates_ok by auto. cbn [rbind].
    rewrite set_candidates_ok by auto. cbn [rbind].
    assert (Oe : ok_sudoku w h (pcset s (r, c) (sof_list zcmp (values st)))).
    { apply ok_intro; auto. apply pcset_wf; auto. }
    assert (T2' : forall q x, cell w h q -> (In x (cand t q) <-> if coord_eqb q (r, c) then In x (values st) else In x (cand s q))).
    { intros q x Cq. rewrite T2 by auto. rewrite E2. cbn [existsb]. rewrite orb_false_r. reflexivity. }
    split; [reflexivity|]. split; [|split; [split; [|split]|]].
    + f_equal. apply same_state; auto.
      * intros q Cq. rewrite num_pcset, T1; auto.
      * intros q x Cq. rewrite cand_pcset, T2' by auto. destruct (coord_eqb q (r, c)); [apply (In_sof_list _ zcmp_good)|tauto].
    + apply ok_intro; auto. apply pcset_wf; auto.
    + intros q Cq. rewrite num_pcset, T1, Mn; auto.
    + intros q x Cq Zq Nq. rewrite T1 in Zq by auto. rewrite cand_pcset, T2' by auto.
      destruct (coord_eqb q (r, c)) eqn:Eq; [apply (In_sof_list _ zcmp_good)|]. apply Mc; auto.
      destruct (cand t q) as [|y k] eqn:Ec; [congruence|]. apply some_in with (x := y).
      pose proof (T2' q y Cq) as X. rewrite Ec, Eq in X. apply X. left; auto.
    + intros q x Cq Nq. rewrite T1 in * by auto. rewrite T2' by auto. destruct (coord_eqb q (r, c)) eqn:Eq; [|apply Ns; auto].
      apply coord_eqb_eq in Eq. congruence.
  - destruct Ef as [p [v [_ [A1 [A2 [A3 _]]]]]]. destruct Et as [p' [v' [B1 [B2 [B3 [B4 B5]]]]]].
    assert (p' = p) by congruence. assert (v' = v) by congruence. subst p' v'. apply (Single p v); auto.
    intros E0. destruct Ls as [p' [G1 G2]]. assert (p' = p) by congruence. subst p'.
    assert (Cp : cell w h p) by (apply La; rewrite A1; left; auto). destruct V as [V1 _]. specialize (V1 p Cp).
    assert (g p = v) by congruence. lia.
  - destruct Ef as [p [v [_ [A1 [A2 [A3 A4]]]]]]. destruct Et as [p' [v' [B1 [B2 [B3 [B4 B5]]]]]].
    assert (p' = p) by congruence. assert (v' = v) by congruence. subst p' v'. apply (Single p v); auto. lia.
  - destruct Ef as [_ Ef]. destruct Et as [T1 T2]. pose proof (Drop Ls Ef) as Hq.
    unfold build_naked. cbn [values affected bare].
    rewrite (mapM_get w h m (fun ij c => RemoveCandidates (fst ij) (snd ij) (sinter zcmp (sof_list zcmp (values st)) c))) by auto.
    destruct (mirror_removes (fun q => sinter zcmp (sof_list zcmp (values st)) (cand m q)) (affected st) s t m) as [m' X]; auto.
    + intros q x Cq. rewrite T2 by auto. rewrite (In_sinter _ zcmp_good), (In_sof_list _ zcmp_good).
      split; intros [X1 X2]; split; auto; intros [X3 X4]; apply X2; try tauto.
      destruct (Hq q X3) as [_ [Y1 Y2]]. split; auto. split; auto. apply (Mc q x Cq Y1 Y2); auto.
    + eexists; exists m'. split; [reflexivity|]. split; [apply Mne|]. exact X.
  - destruct Et as [T1 T2].
    assert (Hq : forall q, In q (affected st) -> cell w h q /\ num s q = 0 /\ cand s q <> []).
    { intros q Hq. destruct (Ef q Hq) as [v [H1 H2]]. split; auto. split; [|eapply some_in; eauto].
      apply (Void q v); auto. intros ->. apply H2. apply Ls; auto. }
    unfold build_hidden. cbn [values affected bare].
    rewrite (mapM_get w h m (fun ij c => RemoveCandidates (fst ij) (snd ij) (sdiff zcmp c (sof_list zcmp (values st))))) by auto.
    destruct (mirror_removes (fun q => sdiff zcmp (cand m q) (sof_list zcmp (values st))) (affected st) s t m) as [m' X]; auto.
    + intros q x Cq. rewrite T2 by auto. rewrite (In_sdiff _ zcmp_good), (In_sof_list _ zcmp_good).
      split; intros [X1 X2]; split; auto.
      * intros [X3 [X4 X5]]. auto.
      * intros X3. destruct (in_dec Z.eq_dec x (values st)) as [|N]; auto. exfalso. apply X2. split; auto. split; auto.
        destruct (Hq q X3) as [_ [Y1 Y2]]. apply (Mc q x Cq Y1 Y2); auto.
    + eexists; exists m'. split; [reflexivity|]. split; [apply Mne|]. exact X.
  - destruct Ef as [Nv Ef]. destruct Et as [T1 T2]. pose proof (Drop Ls Ef) as Hq.
    unfold build_pointing. cbn [values affected bare].
    destruct (mirror_removes (fun q => values st) (affected st) s t m) as [m' X]; auto.
    destruct (values st) as [|v vs]; [congruence|]. unfold list_get. cbn -[foldM].
    eexists; exists m'. split; [reflexivity|]. split; [apply Mne|]. exact X.
  - destruct Ef as [Nv Ef]. destruct Et as [T1 T2]. pose proof (Drop Ls Ef) as Hq.
    unfold build_fish. cbn [values affected bare].
    destruct (mirror_removes (fun q => values st) (affected st) s t m) as [m' X]; auto.
    eexists; exists m'. split; [reflexivity|]. split; [apply Mne|]. exact X.
  - destruct Ef as [p [v [_ [A1 [A2 A3]]]]]. destruct Et as [p' [v' [B1 [B2 [B3 [B4 B5]]]]]].
    assert (p' = p) by congruence. assert (v' = v) by congruence. subst p' v'. apply (Single p v); auto.
Qed.

(** * The loops *)
Definition somelink (s : sudoku) (st : step) (t : sudoku) : Prop :=
  exists F cls g, F g /\ valid_grid w h g /\ link w h F cls s st t.

Lemma drive_applying : forall g s l t m, gall unbuilt g -> drive g s = Ok (l, t) -> chain somelink s l t -> neat s -> mirrors s m ->
  exists m', drive_report sudoku applying g m s = Ok (m', py_len l, t) /\ neat t /\ mirrors t m'.
Proof.
  intros g; induction g as [r|a k IH|e]; intros s l t m G E C N M; cbn [drive drive_report] in *.
  - injection E as <- <-. exists m. auto.
  - destruct G as [G1 G2]. destruct (MSolvers.apply a s) as [[st s1]|e] eqn:Ea; [|discriminate]. cbn [rbind] in E.
    destruct (drive (k s1) s1) as [[l' t']|e] eqn:Ed; [|discriminate]. cbn [rbind] in E. injection E as <- <-.
    inversion C as [|s0 st0 s2 l0 u L C' X1 X2 X3]; subst.
    pose proof (apply_bare a s st s1 G1 Ea) as Eb.
    assert (s2 = s1).
    { destruct L as [F [cls [g [_ [_ L]]]]]. destruct L as [_ [_ [_ [_ [_ [_ [_ [_ L]]]]]]]].
      unfold MSolvers.apply in Ea. destruct (match actions a with [] => _ | _ => _ end) as [acts|]; [|discriminate]. cbn [rbind] in Ea.
      destruct (foldM do_action acts s) as [s3|] eqn:Ef; [|discriminate]. cbn [rbind] in Ea. injection Ea as <- <-.
      cbn [actions] in L. congruence. }
    subst s2. destruct L as [F [cls [g [Hg [V L]]]]].
    destruct (link_mirror F cls g s st s1 m a Hg V L N M Eb) as [acts [m1 [B1 [B2 [B3 [B4 [B5 B6]]]]]]].
    unfold applying at 1. unfold MSolvers.apply at 1. rewrite G1, B1. cbn [rbind]. rewrite B3. cbn [rbind].
    unfold MSolvers.apply at 1. cbn [actions]. destruct acts as [|x acts]; [congruence|]. cbn [rbind]. rewrite B4. cbn [rbind].
    destruct (IH s1 s1 l' t' m1 (G2 s1) Ed C' B6 B5) as [m' [D1 [D2 D3]]]. rewrite D1. cbn [rbind].
    exists m'. split; auto. do 3 f_equal. unfold py_len. cbn [length]. lia.
  - discriminate.
Qed.

Lemma drive_nil : forall g s t, drive g s = Ok ([], t) -> t = s.
Proof.
  intros [r|a k|e] s t E; cbn [drive] in E; [congruence| |discriminate].
  destruct (MSolvers.apply a s) as [[st s1]|]; [|discriminate]. cbn [rbind] in E.
  destruct (drive (k s1) s1) as [[l' t']|]; [|discriminate]. discriminate.
Qed.

Lemma round_applying : forall o l s st t m, solve_round o l s = Ok (st, t) -> chain somelink s st t -> neat s -> mirrors s m ->
  exists m', solve_round_report sudoku applying o l m s = Ok (m', match st with [] => false | _ => true end, t) /\
    neat t /\ mirrors t m'.
Proof.
  intros o l; induction l as [|cls l IH]; intros s st t m E C N M; cbn [solve_round solve_round_report] in *.
  - injection E as <- <-. exists m; auto.
  - destruct (drive (MSolvers.find o cls s) s) as [[st1 s1]|] eqn:Ed; [|discriminate]. cbn [rbind] in E.
    destruct st1 as [|x st1].
    + pose proof (drive_nil _ _ _ Ed). subst s1.
      destruct (drive_applying _ _ _ _ m (find_unbuilt o cls s) Ed (ch_nil _ _) N M) as [m1 [D1 [D2 D3]]].
      rewrite D1. cbn [rbind]. change (0 <? py_len (@nil step)) with false. cbn [rbind].
      apply IH; auto.
    + injection E as <- <-.
      destruct (drive_applying _ _ _ _ m (find_unbuilt o cls s) Ed C N M) as [m1 [D1 [D2 D3]]].
      rewrite D1. cbn [rbind]. exists m1. auto.
Qed.

Lemma chain_some : forall (F : grid -> Prop) cls g s l t, F g -> valid_grid w h g -> chain (link w h F cls) s l t -> chain somelink s l t.
Proof. intros F cls g s l t Hg V C; induction C; econstructor; eauto. exists F, cls, g; auto. Qed.

Lemma round_some : forall o s st t, oracle_ok o -> kept w h s -> solve_round o SOLVERS s = Ok (st, t) -> chain somelink s st t.
Proof.
  intros o s steps u Ho K E. pose proof K as [G [T C0]]. pose proof G as [SI [g Hg]]. pose proof (SInv_ok _ _ _ _ SI) as O.
  assert (FV : forall g, solution s g -> valid_grid w h g) by (intros; eapply gd_valid; eauto).
  destruct (round_ok w h Hw Hh o Ho (solution s) FV s (SInv_WInv _ _ _ _ SI)) as [st [v [E' R]]].
  rewrite E in E'. injection E' as <- <-.
  inversion R as [st' u' Ns Su C Hn' Hc Hx | cls st' u' Hin Ns Hc St Su C
                     | f st' u' Ns Hc St Sol Ou Hn' Hb C | Hc St Hd]; subst.
  - eapply chain_some; eauto.
  - eapply chain_some; eauto.
  - destruct C as [Su C]. { intros p Cp. apply (si_cand _ _ _ _ SI); auto. }
    apply chain_some with (F := eq f) (cls := Bruteforce) (g := f); auto.
  - constructor.
Qed.

Lemma loop_applying : forall o, oracle_ok o -> forall fuel s l t m, kept w h s -> solve_loop fuel o s = Ok (l, t) -> neat s -> mirrors s m ->
  exists m', solve_loop_report sudoku applying fuel o m s = Ok (m', t) /\ neat t /\ mirrors t m'.
Proof.
  intros o Ho fuel; induction fuel as [|fuel IH]; intros s l t m K E N M; [discriminate|].
  cbn [solve_loop solve_loop_report] in *. destruct (solve_round o SOLVERS s) as [[steps u]|] eqn:R; [|discriminate]. cbn [rbind] in E.
  destruct (round_applying o SOLVERS s steps u m R (round_some o s steps u Ho K R) N M) as [m1 [D1 [D2 D3]]].
  rewrite D1. cbn [rbind]. destruct steps as [|x steps]; [injection E as <- <-; exists m1; auto|].
  destruct (solve_loop fuel o u) as [[l' t']|] eqn:E'; [|discriminate]. cbn [rbind] in E. injection E as <- <-.
  apply (IH u l' t' m1); auto. eapply round_kept; eauto.
Qed.

Lemma solve_applying : forall o fuel s l t m f0, oracle_ok o -> ok_sudoku w h s -> ok_sudoku w h m ->
  (forall p, cell w h p -> num m p = num s p) -> solution s f0 -> solve fuel o s = Ok (l, t) ->
  exists m', solve_report sudoku applying fuel o m s = Ok (m', t) /\ mirrors t m'.
Proof.
  intros o fuel s l t m f0 Ho O Om Nm Hf0 H. pose proof O as [W [Ew Eh]].
  destruct (solve_start w h o s O) as [s0 [[A0 E0] [O0 [N0 [C0 W0]]]]]. rewrite E0 in H.
  assert (A1 : solve_report sudoku applying fuel o m s = solve_loop_report sudoku applying fuel o m s0).
  { unfold solve_report. destruct (copy s false) as [c|]; [|discriminate]. cbn [rbind] in *. rewrite A0. reflexivity. }
  rewrite A1. clear A1.
  pose proof (solutions_eq w h s s0 O O0 N0) as Sol0.
  assert (FV : forall g, solution s g -> valid_grid w h g) by (intros g Hg; exact (gd_valid w h Hw Hh s g O Hg)).
  destruct (calculate_drive w h (solution s) FV s0 W0) as [st [s1 [E [S1 [C [Hn [Hc Hemp]]]]]]].
  pose proof (SInv_ok _ _ _ _ S1) as O1.
  assert (Sol1 : forall f, solution s1 f <-> solution s f).
  { intros f. rewrite <- Sol0. apply solutions_eq with (w := w) (h := h); auto. }
  assert (Num : forall p, cell w h p -> num s1 p = num s p) by (intros; rewrite Hn, N0; auto).
  assert (In0 : forall p, cell w h p -> num s p = 0 \/ num s p = f0 p).
  { intros p Cp. apply Hf0. unfold field. rewrite Ew, Eh. auto. }
  assert (Nt : neat s0).
  { intros p x Cp Np. rewrite N0 in * by auto. rewrite C0 by auto. rewrite (proj2 (Z.eqb_neq _ _) Np). simpl. intuition. }
  assert (M0 : mirrors s0 m).
  { split; auto. split; [intros p Cp; rewrite N0; auto|]. intros p x Cp Zp Np. exfalso. apply Np.
    rewrite N0 in Zp by auto. rewrite C0, Zp by auto. reflexivity. }
  assert (K1 : kept w h s1).
  { split; [constructor; [|exists f0; apply Sol1; auto]; eapply SInv_anti; [|exact S1]; intros g Hg; apply Sol1; auto|].
    split.
    - intros p x Cp Np Hx. rewrite Num in * by auto. rewrite Hc, C0 in Hx by auto.
      rewrite (proj2 (Z.eqb_neq _ _) Np) in Hx. destruct Hx as [<-|[]]; auto.
    - assert (Cand : forall p x, cell w h p -> In x (cand s1 p) ->
         (num s p <> 0 /\ x = num s p) \/ (num s p = 0 /\ In x (pcalc s0 p))).
      { intros p x Cp Hx. rewrite Hc, C0 in Hx by auto. destruct (num s p =? 0) eqn:Z; b2p; auto.
        left. split; auto. destruct Hx as [<-|[]]; auto. }
      destruct O0 as [W00 [Ew0 Eh0]].
      assert (Fs : forall p, cell w h p -> field s0 p) by (intros; unfold field; rewrite Ew0, Eh0; auto).
      split.
      + intros p q x Cp Cq P Np Hx. rewrite Num in * by auto.
        destruct (Cand q x Cq Hx) as [[Z1 Z2]|[Z1 Z2]].
        * destruct (In0 p Cp) as [X|X]; [congruence|]. destruct (In0 q Cq) as [Y|Y]; [congruence|].
          subst x. rewrite X, Y. intros E2. apply (proj2 (FV f0 Hf0) p q); auto.
        * apply in_pcalc_empty in Z2; auto; [|rewrite N0; auto]. destruct Z2 as [_ Z2]. rewrite Ew0, Eh0 in Z2.
          intros ->. apply (Z2 p); auto. apply peers_sym; auto.
      + intros p x Cp Hx. destruct (Cand p x Cp Hx) as [[Z1 Z2]|[Z1 Z2]].
        * destruct (In0 p Cp) as [X|X]; [congruence|]. rewrite Z2, X. apply (FV f0 Hf0); auto.
        * apply in_pcalc_empty in Z2; auto; [|rewrite N0; auto]. unfold NN in Z2. rewrite Ew0, Eh0 in Z2. tauto. }
  destruct st as [|a st].
  - inv C. destruct (loop_applying o Ho fuel s1 l t m K1 H Nt M0) as [m' [X1 [X2 X3]]]. exists m'; auto.
  - destruct fuel as [|fuel]; [discriminate|]. cbn [solve_loop solve_loop_report] in *.
    assert (R : solve_round o SOLVERS s0 = Ok (a :: st, s1)).
    { rewrite SOLVERS_eq. cbn [solve_round].
      change (MSolvers.find o CalculateCandidates s0) with (calculate_find s0). rewrite E. reflexivity. }
    rewrite R in H. cbn [rbind] in H.
    destruct (round_applying o SOLVERS s0 (a :: st) s1 m R (chain_some _ _ f0 _ _ _ Hf0 (FV f0 Hf0) C) Nt M0) as [m1 [D1 [D2 D3]]].
    rewrite D1. cbn [rbind].
    destruct (solve_loop fuel o s1) as [[l' t']|] eqn:E'; [|discriminate]. cbn [rbind] in H. injection H as <- <-.
    destruct (loop_applying o Ho fuel s1 l' t' m1 K1 E' D2 D3) as [m' [X1 [X2 X3]]]. exists m'; auto.
Qed.
End Mirror.
