(** Algorithm X for any exact cover problem: the lemmas of LDlx.v without the matrix of a sudoku. *)
From Verif Require Export LDlx.

Section Cover.
Variables (cs : list xkey) (Y : ydict).
Hypothesis Ncs : NoDup cs.
Hypothesis Ny : NoDup (dkeys Y).
Hypothesis Nr : forall i l, In (i, l) Y -> NoDup l.
Hypothesis Kr : forall i l k, In (i, l) Y -> In k l -> In k cs.
Definition gK (i : xrow) : list xkey := match dget xrow_eqb Y i with Ok l => l | Err _ => [] end.
Definition g_vkey (j : xkey) : Prop := In j cs.
Definition g_vrow (i : xrow) : Prop := In i (dkeys Y) /\ gK i <> [].

Lemma Y_in : forall i l, In (i, l) Y -> dget xrow_eqb Y i = Ok l /\ gK i = l.
Proof.
  intros i l H. assert (E : dget xrow_eqb Y i = Ok l) by (apply (dget_NoDup _ xrow_eqb_eq); auto). split; auto. unfold gK. rewrite E. reflexivity.
Qed.
Lemma Y_get0 : forall i, In i (dkeys Y) -> dget xrow_eqb Y i = Ok (gK i) /\ In (i, gK i) Y.
Proof.
  intros i H. apply in_map_iff in H as [[i' l] [<- H]]. cbn [fst]. destruct (Y_in i' l H) as [E <-]. auto.
Qed.
Lemma g_Y_get : forall i, g_vrow i -> dget xrow_eqb Y i = Ok (gK i).
Proof. intros i [H _]. apply Y_get0; auto. Qed.
Lemma g_K_valid : forall i k, g_vrow i -> In k (gK i) -> g_vkey k.
Proof. intros i k [H _]. apply (Kr i). apply Y_get0; auto. Qed.
Lemma g_K_NoDup : forall i, NoDup (gK i).
Proof.
  intros i. unfold gK. destruct (dget xrow_eqb Y i) as [l|] eqn:E; [|constructor]. apply (Nr i). apply dget_In in E; auto. apply xrow_eqb_eq.
Qed.

Definition g_Kc (cov : list xkey) (j : xkey) : Prop := g_vkey j /\ ~ In j cov.
Definition g_Pc (cov : list xkey) (j : xkey) (i : xrow) : Prop :=
  g_vrow i /\ In j (gK i) /\ disj (gK i) cov.
Definition g_XI (cov : list xkey) : xdict -> Prop := XQ (g_Kc cov) (g_Pc cov).

Lemma g_XI_ext : forall cov cov' X, (forall k, In k cov <-> In k cov') -> g_XI cov X -> g_XI cov' X.
Proof.
  intros cov cov' X H HX. eapply XQ_ext; [| |apply HX].
  - intros j; unfold g_Kc; rewrite H; tauto.
  - intros j i _; unfold g_Pc, disj. split; intros [H1 [H2 H3]]; splits; auto;
      intros k Hk Hc; apply (H3 k Hk), H, Hc.
Qed.

(** * exact_cover *)
Lemma g_exact_cover_ok : exists X, exact_cover cs Y = Ok X /\ g_XI [] X /\
  length X = length cs.
Proof.
  unfold exact_cover.
  set (X0 := map (fun j => (j, [])) cs).
  assert (D0 : dkeys X0 = id cs).
  { unfold X0, dkeys; rewrite map_map; simpl. apply map_id. }
  match goal with |- context [foldM ?f ?l ?a] =>
    destruct (foldM_ind f (fun pre X => XQ g_vkey (fun j i => In i (map fst pre) /\ In j (gK i)) X) l a)
      as [X [E H]] end.
  - unfold XQ; splits.
    + rewrite D0; exact Ncs.
    + rewrite D0; unfold g_vkey, id; tauto.
    + intros j rs Hg. apply dget_In in Hg; [|apply xkey_eqb_eq].
      unfold X0 in Hg; apply in_map_iff in Hg. destruct Hg as [k [Ek _]]; inv Ek.
      split; [constructor|]. simpl; tauto.
  - intros pre [i ks] post X Hl HX. simpl.
    assert (Hi : In (i, ks) Y) by (rewrite Hl; apply in_or_app; simpl; auto).
    destruct (Y_in i ks Hi) as [_ Ei].
    match goal with |- context [foldM ?f ?l ?a] =>
      destruct (foldM_ind f (fun kpre X => XQ g_vkey (fun j i' =>
          (In i' (map fst pre) /\ In j (gK i')) \/ (i' = i /\ In j kpre)) X) l a) as [X' [E' H']] end.
    + eapply XQ_ext; [| |apply HX]; intros; simpl; tauto.
    + intros kpre k kpost X1 Hk HX1.
      destruct (x_add_ok _ _ _ k i HX1) as [X2 [E2 H2]].
      { apply (Kr i ks); auto. rewrite Hk; apply in_or_app; simpl; auto. }
      exists X2; split; auto. eapply XQ_ext; [| |apply H2]; [intros; tauto|].
      intros j i' _; simpl. rewrite in_app_iff; simpl. intuition.
    + exists X'; split; auto. eapply XQ_ext; [| |apply H']; [intros; tauto|].
      intros j i' _; simpl. rewrite map_app, in_app_iff; simpl. rewrite <- Ei. intuition; subst; auto.
  - exists X; split; auto. split.
    + eapply XQ_ext; [| |apply H].
      * intros j; unfold g_Kc; simpl; tauto.
      * intros j i _; simpl. unfold g_Pc, disj.
        unfold g_vrow, dkeys. split; [|intuition]. intros [H1 H2]. splits; auto. intros E0. rewrite E0 in H2. destruct H2.
    + destruct H as [Hn [Hk _]]. apply Nat.le_antisymm.
      * rewrite <- (map_length fst X). apply NoDup_incl_length; auto. intros j Hj; apply Hk; auto.
      * rewrite <- (map_length fst X). apply NoDup_incl_length; [exact Ncs|].
        intros j Hj; apply Hk; auto.
Qed.

(** * One column *)
Lemma g_cover_rows_ok : forall cov j rows X, g_XI cov X -> g_Kc cov j ->
  sset xrow_cmp rows -> (forall i, In i rows <-> g_Pc cov j i) ->
  exists X', cover_rows Y j rows X = Ok X' /\
    XQ (g_Kc cov) (fun k i => g_Pc cov k i /\ (k = j \/ ~ In i rows)) X' /\ length X' = length X.
Proof.
  intros cov j rows X HX Hj Hs Hi. unfold cover_rows.
  match goal with |- context [foldM ?f ?l ?a] =>
    destruct (foldM_ind f (fun pre X =>
      XQ (g_Kc cov) (fun k i => g_Pc cov k i /\ (k = j \/ ~ In i pre)) X) l a) as [X' [E H]] end.
  - eapply XQ_ext; [| |apply HX]; simpl; intros; tauto.
  - intros pre i post X1 Hl HX1.
    assert (Pi : g_Pc cov j i) by (apply Hi; rewrite Hl; apply in_or_app; simpl; auto).
    destruct Pi as [Vi [Ji Di]].
    assert (Ni : ~ In i pre).
    { pose proof (sset_NoDup _ xrow_good rows Hs) as Hn. rewrite Hl in Hn.
      apply NoDup_remove_2 in Hn. intros Hc; apply Hn, in_or_app; auto. }
    rewrite g_Y_get by auto. simpl.
    match goal with |- context [foldM ?f ?l ?a] =>
      destruct (foldM_ind f (fun kpre X => XQ (g_Kc cov) (fun k i' =>
         g_Pc cov k i' /\ (k = j \/ (~ In i' pre /\ ~ (i' = i /\ In k kpre)))) X) l a) as [X2 [E2 H2]] end.
    + eapply XQ_ext; [| |apply HX1]; simpl; intros; tauto.
    + intros kpre k kpost X2 Hk HX2.
      assert (Kk : In k (gK i)) by (rewrite Hk; apply in_or_app; simpl; auto).
      assert (Nk : ~ In k kpre).
      { pose proof (g_K_NoDup i) as Hn. rewrite Hk in Hn.
        apply NoDup_remove_2 in Hn. intros Hc; apply Hn, in_or_app; auto. }
      destruct (xkey_eqb k j) eqn:Ekj; simpl.
      * apply xkey_eqb_eq in Ekj; subst k. exists X2; split; auto.
        eapply XQ_ext; [| |apply HX2]; [intros; tauto|].
        intros k i' _; simpl. rewrite in_app_iff; simpl.
        destruct (xkey_eq_dec k j); subst; [tauto|]. intuition congruence.
      * apply xkey_eqb_neq in Ekj.
        destruct (x_remove_ok _ _ _ k i HX2) as [X3 [E3 H3]].
        { split; [apply (g_K_valid i); auto | apply Di; auto]. }
        { split; [unfold g_Pc; auto|]. right; split; auto. intros [_ Hc]; auto. }
        exists X3; split; auto. eapply XQ_ext; [| |apply H3]; [intros; tauto|].
        intros k' i' _; simpl. rewrite in_app_iff; simpl.
        destruct (xkey_eq_dec k' k), (xrow_eq_dec i' i); subst; intuition congruence.
    + exists X2; split; auto. eapply XQ_ext; [| |apply H2]; [intros; tauto|].
      intros k i' _; simpl. rewrite in_app_iff; simpl.
      split; intros [Q H]; split; auto; destruct H as [H|H]; auto; right.
      * destruct H as [H1 H3]. intros [Hp|[->|[]]]; auto. apply H3; split; auto. apply Q.
      * split; [tauto|]. intros [-> _]; tauto.
  - exists X'; splits; auto. destruct H as [Hn [Hk _]], HX as [Hn' [Hk' _]].
    rewrite <- (map_length fst X), <- (map_length fst X').
    apply Nat.le_antisymm; apply NoDup_incl_length; auto; intros x Hx; [apply Hk', Hk | apply Hk, Hk']; auto.
Qed.

Lemma g_disj_cons : forall i j cov, disj (gK i) (j :: cov) <-> ~ In j (gK i) /\ disj (gK i) cov.
Proof.
  intros i j cov; unfold disj; simpl; split.
  - intros H; split; [intros Hj; apply (H j Hj); auto | intros k Hk Hc; apply (H k Hk); auto].
  - intros [H1 H2] k Hk [->|Hc]; auto. apply (H2 k); auto.
Qed.

Lemma g_select_step : forall cov j X, g_XI cov X -> g_Kc cov j ->
  exists rows X1 X2, dget xkey_eqb X j = Ok rows /\ sset xrow_cmp rows /\
    (forall i, In i rows <-> g_Pc cov j i) /\
    cover_rows Y j rows X = Ok X1 /\ dpop xkey_eqb X1 j = Ok (rows, X2) /\ g_XI (j :: cov) X2 /\
    length X = S (length X2).
Proof.
  intros cov j X HX Hj. destruct (XQ_get _ _ _ _ HX Hj) as [rows [Hg [S I]]].
  destruct (g_cover_rows_ok cov j rows X HX Hj S I) as [X1 [E1 [H1 L1]]].
  destruct (XQ_pop _ _ _ j H1 Hj) as [rs [X2 [E2 [S2 [I2 [H2 L2]]]]]].
  assert (rs = rows).
  { apply (sset_ext _ xrow_good); auto. intros i; rewrite I2, I; tauto. }
  subst rs. exists rows, X1, X2; splits; auto; [|congruence].
  eapply XQ_ext; [| |apply H2].
  - intros k; unfold g_Kc; simpl. intuition.
  - intros k i [Hk Hne]; simpl. rewrite I. unfold g_Pc. rewrite g_disj_cons.
    assert (Hd : In j (gK i) \/ ~ In j (gK i)).
    { destruct (in_dec xkey_eq_dec j (gK i)); auto. }
    tauto.
Qed.

(** The columns popped by select. *)
Inductive g_cols_of : list xkey -> list xkey -> list (list xrow) -> Prop :=
| cols_nil : forall cov, g_cols_of cov [] []
| cols_cons : forall cov j js rows cols,
    ~ In j cov -> sset xrow_cmp rows -> (forall i, In i rows <-> g_Pc cov j i) ->
    g_cols_of (j :: cov) js cols -> g_cols_of cov (j :: js) (rows :: cols).

Lemma g_select_fold : forall js cov X pre, g_XI cov X -> NoDup js ->
  (forall j, In j js -> g_Kc cov j) ->
  exists cols X',
    foldM (fun '(cols, X) j =>
           let* rows := dget xkey_eqb X j in
           let* X := cover_rows Y j rows X in
           let* (s, X) := dpop xkey_eqb X j in
           Ok (cols ++ [s], X)) js (pre, X) = Ok (pre ++ cols, X') /\
    g_cols_of cov js cols /\ g_XI (rev js ++ cov) X' /\ length X = (length js + length X')%nat.
Proof.
  induction js as [|j js IH]; intros cov X pre HX Hn Hj.
  - exists [], X; simpl. rewrite app_nil_r. splits; auto. constructor.
  - inv Hn. destruct (g_select_step cov j X HX) as [rows [X1 [X2 [E1 [S [I [E2 [E3 [HX2 L]]]]]]]]].
    { apply Hj; left; auto. }
    destruct (IH (j :: cov) X2 (pre ++ [rows]) HX2) as [cols [X' [E [Hc [HX' L']]]]]; auto.
    { intros k Hk. destruct (Hj k) as [V N]; [right; auto|]. split; auto.
      simpl; intros [<-|Hc]; auto. }
    exists (rows :: cols), X'. splits.
    + cbn [foldM]. rewrite E1. cbn [rbind]. rewrite E2. cbn [rbind]. rewrite E3. cbn [rbind].
      etransitivity; [exact E|]. rewrite <- app_assoc; auto.
    + constructor; auto. apply (Hj j); left; auto.
    + simpl; rewrite <- app_assoc; auto.
    + simpl; lia.
Qed.

Lemma g_select_ok : forall cov X r, g_XI cov X -> g_vrow r -> disj (gK r) cov ->
  exists cols X', select X Y r = Ok (cols, X') /\ g_cols_of cov (gK r) cols /\
    g_XI (rev (gK r) ++ cov) X' /\ length X = (length (gK r) + length X')%nat.
Proof.
  intros cov X r HX Hr Hd. unfold select. rewrite g_Y_get by auto.
  destruct (g_select_fold (gK r) cov X [] HX) as [cols [X' [E [Hc [HX' L]]]]].
  - apply g_K_NoDup.
  - intros j Hj; split; [apply (g_K_valid r); auto | apply Hd; auto].
  - exists cols, X'; splits; auto.
Qed.



Lemma g_select_err_fold : forall js cov X pre, g_XI cov X -> NoDup js ->
  (forall j, In j js -> g_vkey j) -> (exists j, In j js /\ In j cov) ->
    foldM (fun '(cols, X) j =>
           let* rows := dget xkey_eqb X j in
           let* X := cover_rows Y j rows X in
           let* (s, X) := dpop xkey_eqb X j in
           Ok (cols ++ [s], X)) js (pre, X) = Err KeyError.
Proof.
  induction js as [|j js IH]; intros cov X pre HX Hn Hj [k [Hk Hc]]; [destruct Hk|].
  inv Hn. cbn [foldM]. destruct (in_dec xkey_eq_dec j cov) as [D|D].
  - rewrite (XQ_get_err _ _ _ j HX); auto. unfold g_Kc; tauto.
  - destruct (g_select_step cov j X HX) as [rows [X1 [X2 [E1 [S [I [E2 [E3 [HX2 L]]]]]]]]].
    { split; auto. apply Hj; left; auto. }
    rewrite E1; cbn [rbind]. rewrite E2; cbn [rbind]. rewrite E3; cbn [rbind].
    apply (IH (j :: cov)); auto.
    + intros; apply Hj; right; auto.
    + destruct Hk as [->|Hk]; [contradiction|]. exists k; simpl; auto.
Qed.

Lemma disj_or : forall (a b : list xkey), disj a b \/ exists k, In k a /\ In k b.
Proof.
  intros a b. induction a as [|x a [IH|[k [H1 H2]]]]; [left; intros k []| |right; exists k; split; [right|]; auto].
  destruct (in_dec xkey_eq_dec x b) as [D|D]; [right; exists x; split; [left|]; auto|]. left. intros k [<-|H]; auto.
Qed.

(** select() succeeds exactly for the rows that are left, and for rows without columns, for which it does nothing. *)
Lemma g_select_cases : forall cov X r, g_XI cov X ->
  (In r (dkeys Y) /\ gK r = [] /\ select X Y r = Ok ([], X) /\ deselect X Y r [] = Ok X) \/
  (g_vrow r /\ disj (gK r) cov) \/ (~ In r (dkeys Y) \/ ~ disj (gK r) cov) /\ select X Y r = Err KeyError.
Proof.
  intros cov X r HX. destruct (in_dec xrow_eq_dec r (dkeys Y)) as [V|V].
  - destruct (Y_get0 r V) as [E _]. destruct (gK r) as [|k0 l] eqn:Ek.
    + left. split; auto. split; auto. unfold select, deselect. rewrite E. split; reflexivity.
    + right. rewrite <- Ek in *. assert (Vr : g_vrow r) by (split; auto; rewrite Ek; discriminate).
      destruct (disj_or (gK r) cov) as [D|D]; [left; auto|right]. split; [right; intros D2; destruct D as [k [H1 H2]]; apply (D2 k); auto|].
      unfold select. rewrite E. cbn [rbind]. apply (g_select_err_fold _ cov); auto; [apply g_K_NoDup|]. intros j Hj. apply (g_K_valid r); auto.
  - right. right. split; auto. unfold select. rewrite (dget_err _ xrow_eqb_eq) by auto. reflexivity.
Qed.

(** * deselect *)
Lemma g_uncover_rows_ok : forall cov j rows X, g_XI (j :: cov) X -> g_Kc cov j ->
  sset xrow_cmp rows -> (forall i, In i rows <-> g_Pc cov j i) ->
  exists X', uncover_rows Y j rows (dset xkey_eqb X j rows) = Ok X' /\ g_XI cov X'.
Proof.
  intros cov j rows X HX Hj Hs Hi. unfold uncover_rows.
  set (P0 := fun k i => (k = j /\ In i rows) \/ (k <> j /\ g_Pc (j :: cov) k i)).
  assert (H0 : XQ (g_Kc cov) P0 (dset xkey_eqb X j rows)).
  { eapply XQ_ext; [| |apply (XQ_set _ _ _ j rows HX Hs)].
    - intros k; unfold g_Kc in *; simpl. destruct (xkey_eq_dec k j); subst; intuition.
    - intros k i _; unfold P0; tauto. }
  match goal with |- context [foldM ?f ?l ?a] =>
    destruct (foldM_ind f (fun pre X =>
      XQ (g_Kc cov) (fun k i => P0 k i \/ (k <> j /\ In i pre /\ In k (gK i))) X) l a) as [X' [E H]] end.
  - eapply XQ_ext; [| |apply H0]; simpl; intros; tauto.
  - intros pre i post X1 Hl HX1.
    assert (Pi : g_Pc cov j i) by (apply Hi; rewrite Hl; apply in_or_app; simpl; auto).
    destruct Pi as [Vi [Ji Di]].
    rewrite g_Y_get by auto. simpl.
    match goal with |- context [foldM ?f ?l ?a] =>
      destruct (foldM_ind f (fun kpre X => XQ (g_Kc cov) (fun k i' =>
         P0 k i' \/ (k <> j /\ In i' pre /\ In k (gK i')) \/ (k <> j /\ i' = i /\ In k kpre)) X) l a)
       as [X2 [E2 H2]] end.
    + eapply XQ_ext; [| |apply HX1]; simpl; intros; tauto.
    + intros kpre k kpost X2 Hk HX2.
      assert (Kk : In k (gK i)) by (rewrite Hk; apply in_or_app; simpl; auto).
      destruct (xkey_eqb k j) eqn:Ekj; simpl.
      * apply xkey_eqb_eq in Ekj; subst k. exists X2; split; auto.
        eapply XQ_ext; [| |apply HX2]; [intros; tauto|].
        intros k i' _; simpl. rewrite in_app_iff; simpl. intuition congruence.
      * apply xkey_eqb_neq in Ekj.
        destruct (x_add_ok _ _ _ k i HX2) as [X3 [E3 H3]].
        { split; [apply (g_K_valid i); auto | apply Di; auto]. }
        exists X3; split; auto. eapply XQ_ext; [| |apply H3]; [intros; tauto|].
        intros k' i' _; simpl. rewrite in_app_iff; simpl. intuition; subst; tauto.
    + exists X2; split; auto. eapply XQ_ext; [| |apply H2]; [intros; tauto|].
      intros k i' _; simpl. rewrite in_app_iff; simpl. intuition; subst; tauto.
  - exists X'; split; auto. eapply XQ_ext; [| |apply H]; [intros; tauto|].
    intros k i [Vk Nk]; unfold P0; simpl. rewrite Hi. unfold g_Pc. rewrite g_disj_cons.
    assert (Hd : In j (gK i) \/ ~ In j (gK i)) by (destruct (in_dec xkey_eq_dec j (gK i)); auto).
    destruct (xkey_eq_dec k j); subst; tauto.
Qed.

Lemma g_deselect_fold : forall js cov X cols pre, g_XI (rev js ++ cov) X ->
  (forall j, In j js -> g_vkey j) -> g_cols_of cov js cols ->
  exists X',
    foldM (fun '(cols, X) j =>
             let* (s, cols) := list_pop cols in
             let X := dset xkey_eqb X j s in
             let* rows := dget xkey_eqb X j in
             let* X := uncover_rows Y j rows X in
             Ok (cols, X)) (rev js) (pre ++ cols, X) = Ok (pre, X') /\ g_XI cov X'.
Proof.
  induction js as [|j js IH]; intros cov X cols pre HX Hj Hc; inv Hc.
  - exists X; simpl. rewrite app_nil_r; auto.
  - simpl in HX. rewrite <- app_assoc in HX. simpl in HX.
    destruct (IH (j :: cov) X cols0 (pre ++ [rows])) as [X1 [E1 HX1]]; auto.
    { intros; apply Hj; right; auto. }
    simpl. rewrite foldM_app. rewrite <- app_assoc in E1. simpl in E1. rewrite E1.
    cbn [rbind foldM]. rewrite list_pop_app. cbn [rbind].
    rewrite (dget_dset _ xkey_eqb_eq), (proj2 (xkey_eqb_eq j j)) by auto. cbn [rbind].
    destruct (g_uncover_rows_ok cov j rows X1) as [X2 [E2 HX2]]; auto.
    { split; auto. apply Hj; left; auto. }
    rewrite E2. simpl. eauto.
Qed.

Lemma g_deselect_ok : forall cov X r cols, g_XI (rev (gK r) ++ cov) X -> g_vrow r ->
  g_cols_of cov (gK r) cols -> exists X', deselect X Y r cols = Ok X' /\ g_XI cov X'.
Proof.
  intros cov X r cols HX Hr Hc. unfold deselect. rewrite g_Y_get by auto.
  destruct (g_deselect_fold (gK r) cov X cols [] HX) as [X' [E H]]; auto.
  { intros; apply (g_K_valid r); auto. }
  exists X'. cbn [rbind]. change (@nil (list xrow) ++ cols) with cols in E.
  match goal with |- context [foldM ?f ?l ?a] =>
    replace (foldM f l a) with (@Ok (list (list xrow) * xdict) ([], X')) by (symmetry; exact E) end.
  auto.
Qed.

Lemma g_XI_get_eq : forall cov X X' k, g_XI cov X -> g_XI cov X' ->
  dget xkey_eqb X k = dget xkey_eqb X' k.
Proof.
  intros cov X X' k H H'.
  destruct (in_dec xkey_eq_dec k cs) as [V|V].
  - destruct (in_dec xkey_eq_dec k cov) as [D|D].
    + rewrite (XQ_get_err _ _ _ k H), (XQ_get_err _ _ _ k H'); auto; unfold g_Kc; tauto.
    + destruct (XQ_get _ _ _ k H) as [rs [E [S I]]]; [split; auto|].
      destruct (XQ_get _ _ _ k H') as [rs' [E' [S' I']]]; [split; auto|].
      rewrite E, E'. f_equal. apply (sset_ext _ xrow_good); auto.
      intros i; rewrite I, I'; tauto.
  - rewrite (XQ_get_err _ _ _ k H), (XQ_get_err _ _ _ k H'); auto; unfold g_Kc, g_vkey; tauto.
Qed.

Lemma g_XI_length : forall cov X X', g_XI cov X -> g_XI cov X' -> length X = length X'.
Proof.
  intros cov X X' [Hn [Hk _]] [Hn' [Hk' _]].
  rewrite <- (map_length fst X), <- (map_length fst X').
  apply Nat.le_antisymm; apply NoDup_incl_length; auto; intros x Hx; [apply Hk', Hk | apply Hk, Hk']; auto.
Qed.

(** * g_Exact covers *)
Definition g_Exact (cov : list xkey) (l : list xrow) : Prop :=
  (forall i, In i l -> g_vrow i /\ disj (gK i) cov) /\
  ForallOrdPairs (fun a b => disj (gK a) (gK b)) l /\
  (forall j, g_vkey j -> ~ In j cov -> exists i, In i l /\ In j (gK i)).



Lemma g_Exact_perm : forall cov l l', Permutation l l' -> g_Exact cov l -> g_Exact cov l'.
Proof.
  intros cov l l' P [E1 [E2 E3]]; unfold g_Exact; splits.
  - intros i Hi; apply E1. eapply Permutation_in; [apply Permutation_sym|]; eauto.
  - eapply FOP_perm; eauto. intros; apply disj_sym; auto.
  - intros j V N. destruct (E3 j V N) as [i [Hi Hj]]. exists i; split; auto.
    eapply Permutation_in; eauto.
Qed.

Lemma g_Exact_cons : forall cov r l,
  g_Exact cov (r :: l) <-> g_vrow r /\ disj (gK r) cov /\ g_Exact (rev (gK r) ++ cov) l.
Proof.
  intros cov r l; split.
  - intros [E1 [E2 E3]]. inv E2. rewrite Forall_forall in H1.
    destruct (E1 r) as [Vr Dr]; [left; auto|]. splits; auto. unfold g_Exact; splits; auto.
    + intros i Hi. destruct (E1 i) as [Vi Di]; [right; auto|]. split; auto.
      intros k Hk Hc. apply in_app_or in Hc. destruct Hc as [Hc|Hc]; [|apply (Di k); auto].
      apply in_rev in Hc. apply (H1 i Hi k); auto.
    + intros j V N. destruct (E3 j V) as [i [[<-|Hi] Hj]].
      * intros Hc; apply N, in_or_app; auto.
      * exfalso; apply N, in_or_app; left. apply in_rev; rewrite rev_involutive; auto.
      * eauto.
  - intros [Vr [Dr [E1 [E2 E3]]]]. unfold g_Exact; splits.
    + intros i [<-|Hi]; auto. destruct (E1 i Hi) as [Vi Di]; split; auto.
      intros k Hk Hc; apply (Di k Hk), in_or_app; auto.
    + constructor; auto. apply Forall_forall. intros i Hi k Hk Hc.
      destruct (E1 i Hi) as [Vi Di]. apply (Di k Hc), in_or_app; left.
      apply in_rev; rewrite rev_involutive; auto.
    + intros j V N. destruct (in_dec xkey_eq_dec j (gK r)) as [D|D].
      * exists r; simpl; auto.
      * destruct (E3 j V) as [i [Hi Hj]].
        { intros Hc. apply in_app_or in Hc. destruct Hc as [Hc|Hc]; auto.
          apply in_rev in Hc; auto. }
        exists i; simpl; auto.
Qed.

(** [ls] lists the exact covers of the columns outside [cov], each once up to
    order. *)
Definition g_Lists (cov : list xkey) (ls : list (list xrow)) : Prop :=
  (forall l, In l ls -> g_Exact cov l) /\
  (forall l0, g_Exact cov l0 -> exists l, In l ls /\ Permutation l0 l) /\
  ForallOrdPairs (fun a b => ~ Permutation a b) ls.






Section Solve.
Variable ord : list xrow -> list xrow -> list xrow.
Hypothesis ord_perm : forall p s, Permutation (ord p s) s.

(** The loop of solve over the rows of the chosen column. *)
Lemma g_xsolve_loop : forall fuel cov sol,
  (forall r X, g_vrow r -> disj (gK r) cov -> g_XI (rev (gK r) ++ cov) X ->
     (length X <= fuel - 1)%nat -> (1 <= fuel)%nat ->
     exists ls X', gresult (xsolve fuel ord Y X (sol ++ [r])) tt = Ok X' /\ g_XI (rev (gK r) ++ cov) X' /\
       gyields (xsolve fuel ord Y X (sol ++ [r])) tt = map (app (sol ++ [r])) ls /\
       g_Lists (rev (gK r) ++ cov) ls) ->
  forall c rs X, g_XI cov X -> (length X <= fuel)%nat -> (forall r, In r rs -> g_Pc cov c r) -> NoDup rs ->
    let g := gfor (fun X r =>
                  do* (cols, X) := lift (select X Y r) in
                  do* X := xsolve fuel ord Y X (sol ++ [r]) in
                  lift (deselect X Y r cols)) rs X in
    exists ls X', gresult g tt = Ok X' /\ g_XI cov X' /\ gyields g tt = map (app sol) ls /\
      (forall l, In l ls -> g_Exact cov l /\ exists r, In r rs /\ In r l) /\
      (forall r l0, In r rs -> g_Exact cov (r :: l0) -> exists l, In l ls /\ Permutation (r :: l0) l) /\
      ForallOrdPairs (fun a b => ~ Permutation a b) ls.
Proof.
  intros fuel cov sol IHf c rs; induction rs as [|r rs IH]; intros X HX HL Hr Hn g; subst g.
  - exists [], X; simpl; splits; auto.
    + intros l [].
    + intros r l0 [].
    + constructor.
  - inv Hn. destruct (Hr r) as [Vr [Cr Dr]]; [left; auto|].
    destruct (g_select_ok cov X r HX Vr Dr) as [cols [X1 [E1 [Hc [HX1 L1]]]]].
    assert (Lr : (1 <= length (gK r))%nat) by (destruct (gK r); [destruct Cr|cbn [length]; lia]).
    destruct (IHf r X1 Vr Dr HX1) as [ls1 [X2 [E2 [HX2 [Y2 [S2 [C2 U2]]]]]]]; [lia|lia|].
    destruct (g_deselect_ok cov X2 r cols HX2 Vr Hc) as [X3 [E3 HX3]].
    destruct (IH X3 HX3) as [ls2 [X4 [E4 [HX4 [Y4 [S4 [C4 U4]]]]]]]; auto.
    { rewrite (g_XI_length cov X3 X); auto. }
    { intros; apply Hr; right; auto. }
    exists (map (cons r) ls1 ++ ls2), X4.
    cbn [gfor]. rewrite gresult_gbind, gyields_gbind.
    rewrite E1. cbn [lift gbind]. rewrite gresult_gbind, gyields_gbind, E2. cbn [rbind].
    rewrite Y2, E3. cbn [lift gresult gyields rbind]. rewrite app_nil_r.
    rewrite E4, Y4. splits; auto.
    + rewrite map_app, map_map. f_equal. apply map_ext. intros l.
      rewrite <- app_assoc; auto.
    + intros l Hl. apply in_app_or in Hl. destruct Hl as [Hl|Hl].
      * apply in_map_iff in Hl; destruct Hl as [l' [<- Hl']].
        split; [apply g_Exact_cons; auto|]. exists r; simpl; auto.
      * destruct (S4 l Hl) as [Ex [r' [H' H'']]]. split; auto. exists r'; simpl; auto.
    + intros r' l0 [<-|Hr'] Ex.
      * apply g_Exact_cons in Ex. destruct Ex as [_ [_ Ex]].
        destruct (C2 l0 Ex) as [l [Hl Pl]]. exists (r :: l); split.
        -- apply in_or_app; left. apply in_map; auto.
        -- constructor; auto.
      * destruct (C4 r' l0 Hr' Ex) as [l [Hl Pl]]. exists l; split; auto. apply in_or_app; auto.
    + apply FOP_app; auto.
      * apply FOP_map. eapply FOP_impl; [|apply U2]. intros a b _ _ N P. apply N.
        eapply Permutation_cons_inv; eauto.
      * intros a b Ha Hb P. apply in_map_iff in Ha; destruct Ha as [l [<- Hl]].
        destruct (S4 b Hb) as [Ex [r' [H' H'']]].
        assert (Hrb : In r b) by (eapply Permutation_in; [apply P | left; auto]).
        assert (Hne : r <> r') by (intros <-; auto).
        destruct (Hr r') as [_ [Cr' _]]; [right; auto|].
        apply in_split in Hrb. destruct Hrb as [b1 [b2 ->]].
        assert (Hr'2 : In r' (b1 ++ b2)).
        { apply in_app_or in H''. apply in_or_app. destruct H'' as [H''|[H''|H'']]; auto. congruence. }
        apply (g_Exact_perm _ _ (r :: b1 ++ b2)) in Ex; [|apply Permutation_sym, Permutation_middle].
        destruct Ex as [_ [Ex _]]. inv Ex. rewrite Forall_forall in H3.
        apply (H3 r' Hr'2 c); auto.
Qed.

Lemma g_xsolve_ok : forall fuel cov sol X, g_XI cov X -> (length X <= fuel - 1)%nat ->
  (1 <= fuel)%nat ->
  exists ls X', gresult (xsolve fuel ord Y X sol) tt = Ok X' /\ g_XI cov X' /\
    gyields (xsolve fuel ord Y X sol) tt = map (app sol) ls /\ g_Lists cov ls.
Proof.
  induction fuel as [|fuel IH]; intros cov sol X HX HL Hf; [lia|].
  cbn [xsolve]. destruct X as [|e X].
  - exists [[]], []. cbn [yield gbind gresult gyields map]. rewrite app_nil_r. splits; auto.
    assert (HE : forall j, g_vkey j -> In j cov).
    { intros j V. destruct (in_dec xkey_eq_dec j cov); auto.
      destruct HX as [_ [Hk _]]. assert (In j (dkeys (@nil (xkey * list xrow)))) as []; apply Hk; split; auto. }
    unfold g_Lists; splits.
    + intros l [<-|[]]. unfold g_Exact; splits; [intros i [] | constructor |].
      intros j V N; exfalso; auto.
    + intros l0 [E1 _]. exists []; split; [left; auto|].
      destruct l0 as [|r l0]; auto. exfalso.
      destruct (E1 r) as [V D]; [left; auto|]. pose proof V as [_ Nn]. destruct (gK r) as [|k l] eqn:Ek; [congruence|].
      apply (D k); [rewrite ?Ek; left; auto|]. apply HE. apply (g_K_valid r); auto. rewrite Ek. left; auto.
    + repeat constructor.
  - pose proof (min_key_in' X e) as Hc. set (c := min_key e X) in *.
    set (X0 := e :: X) in *.
    assert (Kcc : g_Kc cov c) by (apply HX; auto).
    destruct (XQ_get _ _ _ c HX Kcc) as [rows [Hg [Hs Hi]]].
    rewrite Hg. cbn [lift gbind].
    assert (Hlen : (1 <= length X0)%nat \/ rows = []).
    { destruct rows as [|r rows]; auto. left.
      destruct (proj1 (Hi r)) as [Vr [Cr Dr]]; [left; auto|].
      destruct (g_select_ok cov X0 r HX Vr Dr) as [cols [X1 [E1 [_ [_ L1]]]]]. unfold X0; cbn [length]; lia. }
    destruct Hlen as [Hlen|Hlen].
    + destruct (g_xsolve_loop fuel cov sol) with (c := c) (rs := ord sol rows) (X := X0)
        as [ls [X' [E [HX' [HY [S1 [C1' U1]]]]]]]; auto.
      { simpl in HL. rewrite Nat.sub_0_r in HL. subst X0; simpl in *; lia. }
      { intros r Hr. apply Hi. eapply Permutation_in; eauto. }
      { eapply Permutation_NoDup; [apply Permutation_sym, ord_perm|].
        apply (sset_NoDup _ xrow_good); auto. }
      exists ls, X'; splits; auto. unfold g_Lists; splits; auto.
      * intros l Hl; apply S1; auto.
      * intros l0 Ex. destruct Ex as [Ex1 [Ex2 Ex3]].
        destruct Kcc as [Vc Nc]. destruct (Ex3 c Vc Nc) as [r [Hr Hcr]].
        assert (Hrr : In r (ord sol rows)).
        { eapply Permutation_in; [apply Permutation_sym, ord_perm|]. apply Hi.
          destruct (Ex1 r Hr); unfold g_Pc; auto. }
        apply in_split in Hr. destruct Hr as [l1 [l2 ->]].
        destruct (C1' r (l1 ++ l2) Hrr) as [l [Hl Pl]].
        { eapply g_Exact_perm; [apply Permutation_sym, Permutation_middle|]. unfold g_Exact; auto. }
        exists l; split; auto. eapply Permutation_trans; [|apply Pl].
        apply Permutation_sym, Permutation_middle.
    + assert (Ho : ord sol rows = []).
      { subst rows. apply Permutation_nil, Permutation_sym, ord_perm. }
      rewrite Ho. cbn [gfor gresult gyields]. exists [], X0; splits; auto.
      unfold g_Lists; splits; [intros l [] | | constructor].
      intros l0 [Ex1 [Ex2 Ex3]]. destruct Kcc as [Vc Nc]. destruct (Ex3 c Vc Nc) as [r [Hr Hcr]].
      exfalso. assert (In r rows) by (apply Hi; destruct (Ex1 r Hr); unfold g_Pc; auto).
      subst rows; auto.
Qed.
End Solve.
End Cover.