(** Algorithm X: select / deselect / solve on the dictionaries of dlx.py. *)
From Verif Require Export LSolve LDict LGen MDlx.

(** * Keys and rows *)
Lemma xkey_eqb_eq : forall a b, xkey_eqb a b = true <-> a = b.
Proof.
  intros [r c|r n|c n|b n] [r' c'|r' n'|c' n'|b' n']; simpl; split; intros H; try discriminate;
    try (apply andb_prop in H; destruct H as [H1 H2]; b2p; subst; auto; fail);
    inv H; rewrite !Z.eqb_refl; auto.
Qed.

Lemma xkey_eqb_neq : forall a b, xkey_eqb a b = false <-> a <> b.
Proof.
  intros a b; rewrite <- xkey_eqb_eq. destruct (xkey_eqb a b); split; congruence.
Qed.

Lemma xkey_eq_dec : forall a b : xkey, {a = b} + {a <> b}.
Proof. decide equality; apply Z.eq_dec. Qed.

Lemma xrow_good : good_cmp xrow_cmp.
Proof. repeat apply pair_cmp_good; apply zcmp_good. Qed.

Lemma xrow_eqb_eq : forall a b, xrow_eqb a b = true <-> a = b.
Proof. intros; apply cmp_eqb_eq, xrow_good. Qed.

Lemma xrow_eq_dec : forall a b : xrow, {a = b} + {a <> b}.
Proof. repeat decide equality. Qed.

(** * A dictionary X as a set of columns and a relation column / row *)
Definition XQ (Kp : xkey -> Prop) (P : xkey -> xrow -> Prop) (X : xdict) : Prop :=
  NoDup (dkeys X) /\
  (forall j, In j (dkeys X) <-> Kp j) /\
  (forall j rs, dget xkey_eqb X j = Ok rs ->
     sset xrow_cmp rs /\ forall i, In i rs <-> P j i).

Lemma XQ_ext : forall (Kp Kp' : xkey -> Prop) (P P' : xkey -> xrow -> Prop) X,
  (forall j, Kp j <-> Kp' j) -> (forall j i, Kp j -> (P j i <-> P' j i)) ->
  XQ Kp P X -> XQ Kp' P' X.
Proof.
  intros Kp Kp' P P' X HK HP [H1 [H2 H3]]; unfold XQ; splits; auto.
  - intros j; rewrite H2; auto.
  - intros j rs Hg. destruct (H3 j rs Hg) as [S I]; split; auto.
    intros i; rewrite I. apply HP. apply H2. apply (dget_keys _ xkey_eqb_eq); eauto.
Qed.

Lemma XQ_get : forall Kp P X j, XQ Kp P X -> Kp j ->
  exists rs, dget xkey_eqb X j = Ok rs /\ sset xrow_cmp rs /\ forall i, In i rs <-> P j i.
Proof.
  intros Kp P X j [H1 [H2 H3]] Hj. apply H2 in Hj.
  apply (dget_keys _ xkey_eqb_eq) in Hj. destruct Hj as [rs Hg]. exists rs; split; auto.
Qed.

Lemma XQ_get_err : forall Kp P X j, XQ Kp P X -> ~ Kp j -> dget xkey_eqb X j = Err KeyError.
Proof.
  intros Kp P X j [H1 [H2 H3]] Hj. apply (dget_err _ xkey_eqb_eq). rewrite H2; auto.
Qed.

Lemma XQ_set : forall Kp P X k rs, XQ Kp P X -> sset xrow_cmp rs ->
  XQ (fun j => j = k \/ Kp j) (fun j i => (j = k /\ In i rs) \/ (j <> k /\ P j i))
     (dset xkey_eqb X k rs).
Proof.
  intros Kp P X k rs [H1 [H2 H3]] S; unfold XQ; splits.
  - apply (dset_NoDup _ xkey_eqb_eq); auto.
  - intros j; rewrite (dset_keys _ xkey_eqb_eq), H2; tauto.
  - intros j rs'. rewrite (dget_dset _ xkey_eqb_eq). destruct (xkey_eqb j k) eqn:E.
    + intros Hg; inv Hg. apply xkey_eqb_eq in E. split; auto. intros; tauto.
    + apply xkey_eqb_neq in E. intros Hg; destruct (H3 _ _ Hg) as [S' I]; split; auto.
      intros i; rewrite I; tauto.
Qed.

Lemma x_add_ok : forall (Kp : xkey -> Prop) P X k i, XQ Kp P X -> Kp k ->
  exists X', x_add X k i = Ok X' /\ XQ Kp (fun j i' => P j i' \/ (j = k /\ i' = i)) X'.
Proof.
  intros Kp P X k i H Hk. destruct (XQ_get _ _ _ _ H Hk) as [rs [Hg [S I]]].
  unfold x_add; rewrite Hg; simpl. eexists; split; [reflexivity|].
  eapply XQ_ext; [| |apply (XQ_set _ _ _ k _ H (sadd_sset _ xrow_good i rs S))].
  - intros j; simpl; split; auto. intros [->|?]; auto.
  - intros j i' _; simpl. rewrite (In_sadd _ xrow_good), I.
    destruct (xkey_eq_dec j k); subst; tauto.
Qed.

Lemma x_remove_ok : forall (Kp : xkey -> Prop) (P : xkey -> xrow -> Prop) X k i, XQ Kp P X -> Kp k -> P k i ->
  exists X', x_remove X k i = Ok X' /\ XQ Kp (fun j i' => P j i' /\ ~ (j = k /\ i' = i)) X'.
Proof.
  intros Kp P X k i H Hk Hi. destruct (XQ_get _ _ _ _ H Hk) as [rs [Hg [S I]]].
  unfold x_remove, sremove; rewrite Hg; simpl.
  rewrite (proj2 (smem_In _ xrow_good i rs)) by (apply I; auto). simpl.
  eexists; split; [reflexivity|].
  eapply XQ_ext; [| |apply (XQ_set _ _ _ k _ H (sdiscard_sset xrow_cmp i rs S))].
  - intros j; simpl; split; auto. intros [->|?]; auto.
  - intros j i' _; simpl. rewrite (In_sdiscard _ xrow_good), I.
    destruct (xkey_eq_dec j k); subst; tauto.
Qed.

Lemma dpop_length : forall (X X' : xdict) k v, dpop xkey_eqb X k = Ok (v, X') ->
  length X = S (length X').
Proof.
  induction X as [|[k' v'] X IH]; intros X' k v H; simpl in H; [discriminate|].
  destruct (xkey_eqb k k'); [inv H; auto|].
  destruct (dpop xkey_eqb X k) as [[r t']|] eqn:E; simpl in H; [|discriminate].
  inv H. simpl; f_equal; eauto.
Qed.

Lemma XQ_pop : forall (Kp : xkey -> Prop) P X k, XQ Kp P X -> Kp k ->
  exists rs X', dpop xkey_eqb X k = Ok (rs, X') /\ sset xrow_cmp rs /\ (forall i, In i rs <-> P k i) /\
    XQ (fun j => Kp j /\ j <> k) P X' /\ length X = S (length X').
Proof.
  intros Kp P X k H Hk. destruct (XQ_get _ _ _ _ H Hk) as [rs [Hg [S I]]].
  destruct H as [H1 [H2 H3]].
  destruct (dpop_ok _ xkey_eqb_eq X k rs H1 Hg) as [X' [E [N [HK HG]]]].
  exists rs, X'. splits; auto.
  - unfold XQ; splits; auto.
    + intros j; rewrite HK, H2; tauto.
    + intros j rs' Hg'. assert (j <> k).
      { assert (In j (dkeys X')) by (apply (dget_keys _ xkey_eqb_eq); eauto). apply HK; auto. }
      rewrite HG in Hg' by auto. apply H3; auto.
  - eapply dpop_length; eauto.
Qed.

Section AlgX.
Variables R C : Z.
Hypothesis R1 : 1 <= R.
Hypothesis C1 : 1 <= C.
Notation n := (R * C).
Notation K := (keys_of R C).
Notation Y := (build_Y R C).

Definition vkey (j : xkey) : Prop := In j (all_keys n).
Definition vrow (i : xrow) : Prop := In i (all_rows n).
Definition disj (a b : list xkey) : Prop := forall k, In k a -> ~ In k b.

Lemma in_all_keys : forall j, vkey j <->
  match j with
  | RC r c => 0 <= r < n /\ 0 <= c < n
  | RN x m | CN x m | BN x m => 0 <= x < n /\ 1 <= m <= n
  end.
Proof.
  intros j; unfold vkey, all_keys. rewrite !in_app_iff, !in_map_iff.
  destruct j as [r c|r m|c m|b m]; split.
  all: try (intros [[x [E H]]|[[x [E H]]|[[x [E H]]|[x [E H]]]]]; destruct x as [x y]; inv E;
    rewrite in_prod_iff in H; rewrite ?in_py_range, ?in_py_range2 in H; simpl in *; lia).
  - intros H. left. exists (r, c); split; auto; apply in_prod_iff; rewrite !in_py_range; auto.
  - intros H. right; left. exists (r, m); split; auto; apply in_prod_iff; rewrite in_py_range, in_py_range2; lia.
  - intros H. right; right; left. exists (c, m); split; auto; apply in_prod_iff; rewrite in_py_range, in_py_range2; lia.
  - intros H. right; right; right. exists (b, m); split; auto; apply in_prod_iff; rewrite in_py_range, in_py_range2; lia.
Qed.

Lemma in_all_rows : forall r c m, vrow (r, c, m) <-> 0 <= r < n /\ 0 <= c < n /\ 1 <= m <= n.
Proof.
  intros r c m; unfold vrow, all_rows, xrow. rewrite !in_prod_iff, !in_py_range, in_py_range2. lia.
Qed.

Lemma NoDup_all_keys : NoDup (all_keys n).
Proof.
  unfold all_keys. repeat rewrite NoDup_app_iff.
  assert (forall (A : Z -> Z -> xkey) l m, NoDup l -> NoDup m ->
    (forall x y x' y', A x y = A x' y' -> x = x' /\ y = y') ->
    NoDup (map (fun rc : Z * Z => A (fst rc) (snd rc)) (list_prod l m))) as G.
  { intros A l m Hl Hm HA. apply NoDup_map_inj; [|apply NoDup_list_prod; auto].
    intros [x y] [x' y'] _ _ E; simpl in E. apply HA in E; destruct E; subst; auto. }
  splits; try (apply G; auto using NoDup_py_range, NoDup_py_range2; intros x y x' y' E; inv E; auto).
  all: intros x Hx; rewrite ?in_app_iff, ?in_map_iff in *;
    destruct Hx as [y [<- _]]; intros H;
    repeat (destruct H as [H|H]); destruct H as [z [E _]]; discriminate.
Qed.

Lemma box_no : forall r c, 0 <= r < n -> 0 <= c < n ->
  0 <= r / R < C /\ 0 <= c / C < R /\ 0 <= (r / R) * R + c / C < n.
Proof.
  intros r c Hr Hc.
  assert (0 <= r / R < C) by (apply div_bound; lia).
  assert (0 <= c / C < R) by (apply div_bound; lia).
  splits; try lia; nia.
Qed.

Lemma K_valid : forall i k, vrow i -> In k (K i) -> vkey k.
Proof.
  intros [[r c] m] k Hi Hk. apply in_all_rows in Hi. destruct Hi as [Hr [Hc Hm]].
  destruct (box_no r c Hr Hc) as [_ [_ Hb]].
  apply in_all_keys. simpl in Hk. destruct Hk as [<-|[<-|[<-|[<-|[]]]]]; auto.
Qed.

Lemma K_NoDup : forall i, NoDup (K i).
Proof.
  intros [[r c] m]; simpl. repeat constructor; simpl; intuition discriminate.
Qed.

Lemma K_length : forall i, length (K i) = 4%nat.
Proof. intros [[r c] m]; reflexivity. Qed.

Lemma Y_get : forall i, vrow i -> dget xrow_eqb Y i = Ok (K i).
Proof.
  intros i Hi. apply (dget_NoDup _ xrow_eqb_eq).
  - unfold build_Y, dkeys. rewrite map_map; simpl. rewrite map_id.
    unfold all_rows. repeat apply NoDup_list_prod; auto using NoDup_py_range, NoDup_py_range2.
  - unfold build_Y. apply in_map_iff. exists i; auto.
Qed.

Lemma Y_get_err : forall i, ~ vrow i -> dget xrow_eqb Y i = Err KeyError.
Proof.
  intros i Hi. apply (dget_err _ xrow_eqb_eq). unfold build_Y, dkeys. rewrite map_map; simpl.
  rewrite map_id; auto.
Qed.

(** Columns not in [cov]; rows of column [j] all of whose columns are uncovered. *)
Definition Kc (cov : list xkey) (j : xkey) : Prop := vkey j /\ ~ In j cov.
Definition Pc (cov : list xkey) (j : xkey) (i : xrow) : Prop :=
  vrow i /\ In j (K i) /\ disj (K i) cov.
Definition XI (cov : list xkey) : xdict -> Prop := XQ (Kc cov) (Pc cov).

Lemma XI_ext : forall cov cov' X, (forall k, In k cov <-> In k cov') -> XI cov X -> XI cov' X.
Proof.
  intros cov cov' X H HX. eapply XQ_ext; [| |apply HX].
  - intros j; unfold Kc; rewrite H; tauto.
  - intros j i _; unfold Pc, disj. split; intros [H1 [H2 H3]]; splits; auto;
      intros k Hk Hc; apply (H3 k Hk), H, Hc.
Qed.

(** * exact_cover *)
Lemma exact_cover_ok : exists X, exact_cover (all_keys n) Y = Ok X /\ XI [] X /\
  length X = length (all_keys n).
Proof.
  unfold exact_cover.
  set (X0 := map (fun j => (j, [])) (all_keys n)).
  assert (D0 : dkeys X0 = all_keys n).
  { unfold X0, dkeys; rewrite map_map; simpl. apply map_id. }
  match goal with |- context [foldM ?f ?l ?a] =>
    destruct (foldM_ind f (fun pre X => XQ vkey (fun j i => In i (map fst pre) /\ In j (K i)) X) l a)
      as [X [E H]] end.
  - unfold XQ; splits.
    + rewrite D0; apply NoDup_all_keys.
    + rewrite D0; unfold vkey; tauto.
    + intros j rs Hg. apply dget_In in Hg; [|apply xkey_eqb_eq].
      unfold X0 in Hg; apply in_map_iff in Hg. destruct Hg as [k [Ek _]]; inv Ek.
      split; [constructor|]. simpl; tauto.
  - intros pre [i ks] post X Hl HX. simpl.
    assert (Hi : vrow i /\ ks = K i).
    { assert (H : In (i, ks) Y) by (rewrite Hl; apply in_or_app; simpl; auto).
      unfold build_Y in H; apply in_map_iff in H. destruct H as [x [Ex Hx]]; inv Ex; auto. }
    destruct Hi as [Hi ->].
    match goal with |- context [foldM ?f ?l ?a] =>
      destruct (foldM_ind f (fun kpre X => XQ vkey (fun j i' =>
          (In i' (map fst pre) /\ In j (K i')) \/ (i' = i /\ In j kpre)) X) l a) as [X' [E' H']] end.
    + eapply XQ_ext; [| |apply HX]; intros; simpl; tauto.
    + intros kpre k kpost X1 Hk HX1.
      destruct (x_add_ok _ _ _ k i HX1) as [X2 [E2 H2]].
      { apply (K_valid i); auto. rewrite Hk; apply in_or_app; simpl; auto. }
      exists X2; split; auto. eapply XQ_ext; [| |apply H2]; [intros; tauto|].
      intros j i' _; simpl. rewrite in_app_iff; simpl. intuition.
    + exists X'; split; auto. eapply XQ_ext; [| |apply H']; [intros; tauto|].
      intros j i' _; simpl. rewrite map_app, in_app_iff; simpl. intuition; subst; auto.
  - exists X; split; auto. split.
    + eapply XQ_ext; [| |apply H].
      * intros j; unfold Kc; simpl; tauto.
      * intros j i _; simpl. unfold Pc, disj.
        assert (Hm : In i (map fst Y) <-> vrow i).
        { unfold build_Y; rewrite map_map; simpl. rewrite map_id; unfold vrow; tauto. }
        rewrite Hm. intuition.
    + destruct H as [Hn [Hk _]]. apply Nat.le_antisymm.
      * rewrite <- (map_length fst X). apply NoDup_incl_length; auto. intros j Hj; apply Hk; auto.
      * rewrite <- (map_length fst X). apply NoDup_incl_length; [apply NoDup_all_keys|].
        intros j Hj; apply Hk; auto.
Qed.

(** * One column *)
Lemma cover_rows_ok : forall cov j rows X, XI cov X -> Kc cov j ->
  sset xrow_cmp rows -> (forall i, In i rows <-> Pc cov j i) ->
  exists X', cover_rows Y j rows X = Ok X' /\
    XQ (Kc cov) (fun k i => Pc cov k i /\ (k = j \/ ~ In i rows)) X' /\ length X' = length X.
Proof.
  intros cov j rows X HX Hj Hs Hi. unfold cover_rows.
  match goal with |- context [foldM ?f ?l ?a] =>
    destruct (foldM_ind f (fun pre X =>
      XQ (Kc cov) (fun k i => Pc cov k i /\ (k = j \/ ~ In i pre)) X) l a) as [X' [E H]] end.
  - eapply XQ_ext; [| |apply HX]; simpl; intros; tauto.
  - intros pre i post X1 Hl HX1.
    assert (Pi : Pc cov j i) by (apply Hi; rewrite Hl; apply in_or_app; simpl; auto).
    destruct Pi as [Vi [Ji Di]].
    assert (Ni : ~ In i pre).
    { pose proof (sset_NoDup _ xrow_good rows Hs) as Hn. rewrite Hl in Hn.
      apply NoDup_remove_2 in Hn. intros Hc; apply Hn, in_or_app; auto. }
    rewrite Y_get by auto. simpl.
    match goal with |- context [foldM ?f ?l ?a] =>
      destruct (foldM_ind f (fun kpre X => XQ (Kc cov) (fun k i' =>
         Pc cov k i' /\ (k = j \/ (~ In i' pre /\ ~ (i' = i /\ In k kpre)))) X) l a) as [X2 [E2 H2]] end.
    + eapply XQ_ext; [| |apply HX1]; simpl; intros; tauto.
    + intros kpre k kpost X2 Hk HX2.
      assert (Kk : In k (K i)) by (rewrite Hk; apply in_or_app; simpl; auto).
      assert (Nk : ~ In k kpre).
      { pose proof (K_NoDup i) as Hn. rewrite Hk in Hn.
        apply NoDup_remove_2 in Hn. intros Hc; apply Hn, in_or_app; auto. }
      destruct (xkey_eqb k j) eqn:Ekj; simpl.
      * apply xkey_eqb_eq in Ekj; subst k. exists X2; split; auto.
        eapply XQ_ext; [| |apply HX2]; [intros; tauto|].
        intros k i' _; simpl. rewrite in_app_iff; simpl.
        destruct (xkey_eq_dec k j); subst; [tauto|]. intuition congruence.
      * apply xkey_eqb_neq in Ekj.
        destruct (x_remove_ok _ _ _ k i HX2) as [X3 [E3 H3]].
        { split; [apply (K_valid i); auto | apply Di; auto]. }
        { split; [unfold Pc; auto|]. right; split; auto. intros [_ Hc]; auto. }
        exists X3; split; auto. eapply XQ_ext; [| |apply H3]; [intros; tauto|].
        intros k' i' _; simpl. rewrite in_app_iff; simpl.
        destruct (xkey_eq_dec k' k), (xrow_eq_dec i' i); subst; intuition congruence.
    + exists X2; split; auto. eapply XQ_ext; [| |apply H2]; [intros; tauto|].
      intros k i' _; simpl. rewrite in_app_iff; simpl.
      split; intros [Q H]; split; auto; destruct H as [H|H]; auto; right.
      * destruct H as [H1 H3]. intros [Hp|[->|[]]]; auto. apply H3; split; auto. apply Q.
      * split; [tauto|]. intros [-> _]; tauto.
  - exists X'; splits; auto. destruct H as [Hn [Hk _]], HX as [Hn' [Hk' _]].
    rewrite <- (map_length fst X), <- (map_length fst X').
    apply Nat.le_antisymm; apply NoDup_incl_length; auto; intros x Hx; [apply Hk', Hk | apply Hk, Hk']; auto.
Qed.

Lemma disj_cons : forall i j cov, disj (K i) (j :: cov) <-> ~ In j (K i) /\ disj (K i) cov.
Proof.
  intros i j cov; unfold disj; simpl; split.
  - intros H; split; [intros Hj; apply (H j Hj); auto | intros k Hk Hc; apply (H k Hk); auto].
  - intros [H1 H2] k Hk [->|Hc]; auto. apply (H2 k); auto.
Qed.

Lemma select_step : forall cov j X, XI cov X -> Kc cov j ->
  exists rows X1 X2, dget xkey_eqb X j = Ok rows /\ sset xrow_cmp rows /\
    (forall i, In i rows <-> Pc cov j i) /\
    cover_rows Y j rows X = Ok X1 /\ dpop xkey_eqb X1 j = Ok (rows, X2) /\ XI (j :: cov) X2 /\
    length X = S (length X2).
Proof.
  intros cov j X HX Hj. destruct (XQ_get _ _ _ _ HX Hj) as [rows [Hg [S I]]].
  destruct (cover_rows_ok cov j rows X HX Hj S I) as [X1 [E1 [H1 L1]]].
  destruct (XQ_pop _ _ _ j H1 Hj) as [rs [X2 [E2 [S2 [I2 [H2 L2]]]]]].
  assert (rs = rows).
  { apply (sset_ext _ xrow_good); auto. intros i; rewrite I2, I; tauto. }
  subst rs. exists rows, X1, X2; splits; auto; [|congruence].
  eapply XQ_ext; [| |apply H2].
  - intros k; unfold Kc; simpl. intuition.
  - intros k i [Hk Hne]; simpl. rewrite I. unfold Pc. rewrite disj_cons.
    assert (Hd : In j (K i) \/ ~ In j (K i)).
    { destruct (in_dec xkey_eq_dec j (K i)); auto. }
    tauto.
Qed.

(** The columns popped by select. *)
Inductive cols_of : list xkey -> list xkey -> list (list xrow) -> Prop :=
| cols_nil : forall cov, cols_of cov [] []
| cols_cons : forall cov j js rows cols,
    ~ In j cov -> sset xrow_cmp rows -> (forall i, In i rows <-> Pc cov j i) ->
    cols_of (j :: cov) js cols -> cols_of cov (j :: js) (rows :: cols).

Lemma select_fold : forall js cov X pre, XI cov X -> NoDup js ->
  (forall j, In j js -> Kc cov j) ->
  exists cols X',
    foldM (fun '(cols, X) j =>
           let* rows := dget xkey_eqb X j in
           let* X := cover_rows Y j rows X in
           let* (s, X) := dpop xkey_eqb X j in
           Ok (cols ++ [s], X)) js (pre, X) = Ok (pre ++ cols, X') /\
    cols_of cov js cols /\ XI (rev js ++ cov) X' /\ length X = (length js + length X')%nat.
Proof.
  induction js as [|j js IH]; intros cov X pre HX Hn Hj.
  - exists [], X; simpl. rewrite app_nil_r. splits; auto. constructor.
  - inv Hn. destruct (select_step cov j X HX) as [rows [X1 [X2 [E1 [S [I [E2 [E3 [HX2 L]]]]]]]]].
    { apply Hj; left; auto. }
    destruct (IH (j :: cov) X2 (pre ++ [rows]) HX2) as [cols [X' [E [Hc [HX' L']]]]]; auto.
    { intros k Hk. destruct (Hj k) as [V N]; [right; auto|]. split; auto.
      simpl; intros [<-|Hc]; auto. }
    exists (rows :: cols), X'. splits.
    + cbn [foldM]. rewrite E1. cbn [rbind]. rewrite E2. cbn [rbind]. rewrite E3. cbn [rbind].
      etransitivity; [exact E|]. rewrite <- app_assoc; auto.
    + constructor; auto. apply (Hj j); left; auto.
    + simpl; rewrite <- app_assoc; auto.
    + simpl; lia.
Qed.

Lemma select_ok : forall cov X r, XI cov X -> vrow r -> disj (K r) cov ->
  exists cols X', select X Y r = Ok (cols, X') /\ cols_of cov (K r) cols /\
    XI (rev (K r) ++ cov) X' /\ length X = (4 + length X')%nat.
Proof.
  intros cov X r HX Hr Hd. unfold select. rewrite Y_get by auto.
  destruct (select_fold (K r) cov X [] HX) as [cols [X' [E [Hc [HX' L]]]]].
  - apply K_NoDup.
  - intros j Hj; split; [apply (K_valid r); auto | apply Hd; auto].
  - exists cols, X'; splits; auto. rewrite <- (K_length r); auto.
Qed.

Lemma select_err_fold : forall js cov X pre, XI cov X -> NoDup js ->
  (forall j, In j js -> vkey j) -> (exists j, In j js /\ In j cov) ->
    foldM (fun '(cols, X) j =>
           let* rows := dget xkey_eqb X j in
           let* X := cover_rows Y j rows X in
           let* (s, X) := dpop xkey_eqb X j in
           Ok (cols ++ [s], X)) js (pre, X) = Err KeyError.
Proof.
  induction js as [|j js IH]; intros cov X pre HX Hn Hj [k [Hk Hc]]; [destruct Hk|].
  inv Hn. cbn [foldM]. destruct (in_dec xkey_eq_dec j cov) as [D|D].
  - rewrite (XQ_get_err _ _ _ j HX); auto. unfold Kc; tauto.
  - destruct (select_step cov j X HX) as [rows [X1 [X2 [E1 [S [I [E2 [E3 [HX2 L]]]]]]]]].
    { split; auto. apply Hj; left; auto. }
    rewrite E1; cbn [rbind]. rewrite E2; cbn [rbind]. rewrite E3; cbn [rbind].
    apply (IH (j :: cov)); auto.
    + intros; apply Hj; right; auto.
    + destruct Hk as [->|Hk]; [contradiction|]. exists k; simpl; auto.
Qed.

Lemma select_err : forall cov X r, XI cov X -> ~ (vrow r /\ disj (K r) cov) ->
  select X Y r = Err KeyError.
Proof.
  intros cov X r HX H. unfold select.
  destruct (in_dec xrow_eq_dec r (all_rows n)) as [V|V].
  - rewrite Y_get by auto. simpl. apply (select_err_fold _ cov); auto; [apply K_NoDup| |].
    + intros; apply (K_valid r); auto.
    + destruct (existsb (fun j => existsb (xkey_eqb j) cov) (K r)) eqn:E.
      * apply existsb_exists in E. destruct E as [j [Hj E]]. apply existsb_exists in E.
        destruct E as [k [Hk E]]. apply xkey_eqb_eq in E; subst. eauto.
      * exfalso; apply H; split; auto. intros j Hj Hc.
        rewrite existsb_false_iff in E. specialize (E j Hj). rewrite existsb_false_iff in E.
        specialize (E j Hc). apply xkey_eqb_neq in E; auto.
  - rewrite Y_get_err by auto. reflexivity.
Qed.

(** * deselect *)
Lemma uncover_rows_ok : forall cov j rows X, XI (j :: cov) X -> Kc cov j ->
  sset xrow_cmp rows -> (forall i, In i rows <-> Pc cov j i) ->
  exists X', uncover_rows Y j rows (dset xkey_eqb X j rows) = Ok X' /\ XI cov X'.
Proof.
  intros cov j rows X HX Hj Hs Hi. unfold uncover_rows.
  set (P0 := fun k i => (k = j /\ In i rows) \/ (k <> j /\ Pc (j :: cov) k i)).
  assert (H0 : XQ (Kc cov) P0 (dset xkey_eqb X j rows)).
  { eapply XQ_ext; [| |apply (XQ_set _ _ _ j rows HX Hs)].
    - intros k; unfold Kc in *; simpl. destruct (xkey_eq_dec k j); subst; intuition.
    - intros k i _; unfold P0; tauto. }
  match goal with |- context [foldM ?f ?l ?a] =>
    destruct (foldM_ind f (fun pre X =>
      XQ (Kc cov) (fun k i => P0 k i \/ (k <> j /\ In i pre /\ In k (K i))) X) l a) as [X' [E H]] end.
  - eapply XQ_ext; [| |apply H0]; simpl; intros; tauto.
  - intros pre i post X1 Hl HX1.
    assert (Pi : Pc cov j i) by (apply Hi; rewrite Hl; apply in_or_app; simpl; auto).
    destruct Pi as [Vi [Ji Di]].
    rewrite Y_get by auto. simpl.
    match goal with |- context [foldM ?f ?l ?a] =>
      destruct (foldM_ind f (fun kpre X => XQ (Kc cov) (fun k i' =>
         P0 k i' \/ (k <> j /\ In i' pre /\ In k (K i')) \/ (k <> j /\ i' = i /\ In k kpre)) X) l a)
       as [X2 [E2 H2]] end.
    + eapply XQ_ext; [| |apply HX1]; simpl; intros; tauto.
    + intros kpre k kpost X2 Hk HX2.
      assert (Kk : In k (K i)) by (rewrite Hk; apply in_or_app; simpl; auto).
      destruct (xkey_eqb k j) eqn:Ekj; simpl.
      * apply xkey_eqb_eq in Ekj; subst k. exists X2; split; auto.
        eapply XQ_ext; [| |apply HX2]; [intros; tauto|].
        intros k i' _; simpl. rewrite in_app_iff; simpl. intuition congruence.
      * apply xkey_eqb_neq in Ekj.
        destruct (x_add_ok _ _ _ k i HX2) as [X3 [E3 H3]].
        { split; [apply (K_valid i); auto | apply Di; auto]. }
        exists X3; split; auto. eapply XQ_ext; [| |apply H3]; [intros; tauto|].
        intros k' i' _; simpl. rewrite in_app_iff; simpl. intuition; subst; tauto.
    + exists X2; split; auto. eapply XQ_ext; [| |apply H2]; [intros; tauto|].
      intros k i' _; simpl. rewrite in_app_iff; simpl. intuition; subst; tauto.
  - exists X'; split; auto. eapply XQ_ext; [| |apply H]; [intros; tauto|].
    intros k i [Vk Nk]; unfold P0; simpl. rewrite Hi. unfold Pc. rewrite disj_cons.
    assert (Hd : In j (K i) \/ ~ In j (K i)) by (destruct (in_dec xkey_eq_dec j (K i)); auto).
    destruct (xkey_eq_dec k j); subst; tauto.
Qed.

Lemma deselect_fold : forall js cov X cols pre, XI (rev js ++ cov) X ->
  (forall j, In j js -> vkey j) -> cols_of cov js cols ->
  exists X',
    foldM (fun '(cols, X) j =>
             let* (s, cols) := list_pop cols in
             let X := dset xkey_eqb X j s in
             let* rows := dget xkey_eqb X j in
             let* X := uncover_rows Y j rows X in
             Ok (cols, X)) (rev js) (pre ++ cols, X) = Ok (pre, X') /\ XI cov X'.
Proof.
  induction js as [|j js IH]; intros cov X cols pre HX Hj Hc; inv Hc.
  - exists X; simpl. rewrite app_nil_r; auto.
  - simpl in HX. rewrite <- app_assoc in HX. simpl in HX.
    destruct (IH (j :: cov) X cols0 (pre ++ [rows])) as [X1 [E1 HX1]]; auto.
    { intros; apply Hj; right; auto. }
    simpl. rewrite foldM_app. rewrite <- app_assoc in E1. simpl in E1. rewrite E1.
    cbn [rbind foldM]. rewrite list_pop_app. cbn [rbind].
    rewrite (dget_dset _ xkey_eqb_eq), (proj2 (xkey_eqb_eq j j)) by auto. cbn [rbind].
    destruct (uncover_rows_ok cov j rows X1) as [X2 [E2 HX2]]; auto.
    { split; auto. apply Hj; left; auto. }
    rewrite E2. simpl. eauto.
Qed.

Lemma deselect_ok : forall cov X r cols, XI (rev (K r) ++ cov) X -> vrow r ->
  cols_of cov (K r) cols -> exists X', deselect X Y r cols = Ok X' /\ XI cov X'.
Proof.
  intros cov X r cols HX Hr Hc. unfold deselect. rewrite Y_get by auto.
  destruct (deselect_fold (K r) cov X cols [] HX) as [X' [E H]]; auto.
  { intros; apply (K_valid r); auto. }
  exists X'. cbn [rbind]. change (@nil (list xrow) ++ cols) with cols in E.
  match goal with |- context [foldM ?f ?l ?a] =>
    replace (foldM f l a) with (@Ok (list (list xrow) * xdict) ([], X')) by (symmetry; exact E) end.
  auto.
Qed.

Lemma XI_get_eq : forall cov X X' k, XI cov X -> XI cov X' ->
  dget xkey_eqb X k = dget xkey_eqb X' k.
Proof.
  intros cov X X' k H H'.
  destruct (in_dec xkey_eq_dec k (all_keys n)) as [V|V].
  - destruct (in_dec xkey_eq_dec k cov) as [D|D].
    + rewrite (XQ_get_err _ _ _ k H), (XQ_get_err _ _ _ k H'); auto; unfold Kc; tauto.
    + destruct (XQ_get _ _ _ k H) as [rs [E [S I]]]; [split; auto|].
      destruct (XQ_get _ _ _ k H') as [rs' [E' [S' I']]]; [split; auto|].
      rewrite E, E'. f_equal. apply (sset_ext _ xrow_good); auto.
      intros i; rewrite I, I'; tauto.
  - rewrite (XQ_get_err _ _ _ k H), (XQ_get_err _ _ _ k H'); auto; unfold Kc, vkey; tauto.
Qed.

Lemma XI_length : forall cov X X', XI cov X -> XI cov X' -> length X = length X'.
Proof.
  intros cov X X' [Hn [Hk _]] [Hn' [Hk' _]].
  rewrite <- (map_length fst X), <- (map_length fst X').
  apply Nat.le_antisymm; apply NoDup_incl_length; auto; intros x Hx; [apply Hk', Hk | apply Hk, Hk']; auto.
Qed.

(** * Exact covers *)
Definition Exact (cov : list xkey) (l : list xrow) : Prop :=
  (forall i, In i l -> vrow i /\ disj (K i) cov) /\
  ForallOrdPairs (fun a b => disj (K a) (K b)) l /\
  (forall j, vkey j -> ~ In j cov -> exists i, In i l /\ In j (K i)).

Lemma disj_sym : forall a b, disj a b -> disj b a.
Proof. unfold disj; intros a b H k Hb Ha; apply (H k); auto. Qed.

Lemma FOP_perm : forall {A} (Q : A -> A -> Prop) l l', (forall a b, Q a b -> Q b a) ->
  Permutation l l' -> ForallOrdPairs Q l -> ForallOrdPairs Q l'.
Proof.
  intros A Q l l' Hs P. induction P; intros H; auto.
  - inv H. constructor; auto. rewrite Forall_forall in *. intros y Hy.
    apply H2. eapply Permutation_in; [apply Permutation_sym|]; eauto.
  - inv H. inv H3. inv H2. constructor; [|constructor; auto].
    constructor; auto.
Qed.

Lemma Exact_perm : forall cov l l', Permutation l l' -> Exact cov l -> Exact cov l'.
Proof.
  intros cov l l' P [E1 [E2 E3]]; unfold Exact; splits.
  - intros i Hi; apply E1. eapply Permutation_in; [apply Permutation_sym|]; eauto.
  - eapply FOP_perm; eauto. intros; apply disj_sym; auto.
  - intros j V N. destruct (E3 j V N) as [i [Hi Hj]]. exists i; split; auto.
    eapply Permutation_in; eauto.
Qed.

Lemma Exact_cons : forall cov r l,
  Exact cov (r :: l) <-> vrow r /\ disj (K r) cov /\ Exact (rev (K r) ++ cov) l.
Proof.
  intros cov r l; split.
  - intros [E1 [E2 E3]]. inv E2. rewrite Forall_forall in H1.
    destruct (E1 r) as [Vr Dr]; [left; auto|]. splits; auto. unfold Exact; splits; auto.
    + intros i Hi. destruct (E1 i) as [Vi Di]; [right; auto|]. split; auto.
      intros k Hk Hc. apply in_app_or in Hc. destruct Hc as [Hc|Hc]; [|apply (Di k); auto].
      apply in_rev in Hc. apply (H1 i Hi k); auto.
    + intros j V N. destruct (E3 j V) as [i [[<-|Hi] Hj]].
      * intros Hc; apply N, in_or_app; auto.
      * exfalso; apply N, in_or_app; left. apply in_rev; rewrite rev_involutive; auto.
      * eauto.
  - intros [Vr [Dr [E1 [E2 E3]]]]. unfold Exact; splits.
    + intros i [<-|Hi]; auto. destruct (E1 i Hi) as [Vi Di]; split; auto.
      intros k Hk Hc; apply (Di k Hk), in_or_app; auto.
    + constructor; auto. apply Forall_forall. intros i Hi k Hk Hc.
      destruct (E1 i Hi) as [Vi Di]. apply (Di k Hc), in_or_app; left.
      apply in_rev; rewrite rev_involutive; auto.
    + intros j V N. destruct (in_dec xkey_eq_dec j (K r)) as [D|D].
      * exists r; simpl; auto.
      * destruct (E3 j V) as [i [Hi Hj]].
        { intros Hc. apply in_app_or in Hc. destruct Hc as [Hc|Hc]; auto.
          apply in_rev in Hc; auto. }
        exists i; simpl; auto.
Qed.

(** [ls] lists the exact covers of the columns outside [cov], each once up to
    order. *)
Definition Lists (cov : list xkey) (ls : list (list xrow)) : Prop :=
  (forall l, In l ls -> Exact cov l) /\
  (forall l0, Exact cov l0 -> exists l, In l ls /\ Permutation l0 l) /\
  ForallOrdPairs (fun a b => ~ Permutation a b) ls.

Lemma min_key_in : forall X e, In (min_key e X) (map fst (e :: X)).
Proof.
  induction X as [|e' X IH]; intros e; simpl; auto.
  destruct (_ <? _); [specialize (IH e') | specialize (IH e)]; simpl in IH; intuition.
Qed.

Lemma min_key_in' : forall X e, In (min_key e X) (dkeys (e :: X)).
Proof. intros; apply min_key_in. Qed.

Lemma FOP_app : forall {A} (Q : A -> A -> Prop) l m,
  ForallOrdPairs Q l -> ForallOrdPairs Q m -> (forall a b, In a l -> In b m -> Q a b) ->
  ForallOrdPairs Q (l ++ m).
Proof.
  intros A Q l; induction l as [|x l IH]; intros m Hl Hm H; simpl; auto.
  inv Hl. constructor.
  - apply Forall_app; split; auto. apply Forall_forall; intros; apply H; simpl; auto.
  - apply IH; auto. intros; apply H; simpl; auto.
Qed.

Lemma FOP_map : forall {A B} (Q : B -> B -> Prop) (f : A -> B) l,
  ForallOrdPairs (fun a b => Q (f a) (f b)) l -> ForallOrdPairs Q (map f l).
Proof.
  intros A B Q f l; induction l as [|x l IH]; intros H; simpl; [constructor|].
  inv H. constructor; auto. rewrite Forall_forall in *. intros y Hy.
  apply in_map_iff in Hy; destruct Hy as [z [<- Hz]]; auto.
Qed.

Lemma FOP_impl : forall {A} (Q Q' : A -> A -> Prop) l,
  (forall a b, In a l -> In b l -> Q a b -> Q' a b) -> ForallOrdPairs Q l -> ForallOrdPairs Q' l.
Proof.
  intros A Q Q' l; induction l as [|x l IH]; intros Hq H; [constructor|].
  inv H. constructor.
  - rewrite Forall_forall in *. intros y Hy. apply Hq; simpl; auto.
  - apply IH; auto. intros; apply Hq; simpl; auto.
Qed.

Section Solve.
Variable ord : list xrow -> list xrow -> list xrow.
Hypothesis ord_perm : forall p s, Permutation (ord p s) s.

(** The loop of solve over the rows of the chosen column. *)
Lemma xsolve_loop : forall fuel cov sol,
  (forall r X, vrow r -> disj (K r) cov -> XI (rev (K r) ++ cov) X ->
     (length X <= 4 * (fuel - 1))%nat -> (1 <= fuel)%nat ->
     exists ls X', gresult (xsolve fuel ord Y X (sol ++ [r])) tt = Ok X' /\ XI (rev (K r) ++ cov) X' /\
       gyields (xsolve fuel ord Y X (sol ++ [r])) tt = map (app (sol ++ [r])) ls /\
       Lists (rev (K r) ++ cov) ls) ->
  forall c rs X, XI cov X -> (length X <= 4 * fuel)%nat -> (forall r, In r rs -> Pc cov c r) -> NoDup rs ->
    let g := gfor (fun X r =>
                  do* (cols, X) := lift (select X Y r) in
                  do* X := xsolve fuel ord Y X (sol ++ [r]) in
                  lift (deselect X Y r cols)) rs X in
    exists ls X', gresult g tt = Ok X' /\ XI cov X' /\ gyields g tt = map (app sol) ls /\
      (forall l, In l ls -> Exact cov l /\ exists r, In r rs /\ In r l) /\
      (forall r l0, In r rs -> Exact cov (r :: l0) -> exists l, In l ls /\ Permutation (r :: l0) l) /\
      ForallOrdPairs (fun a b => ~ Permutation a b) ls.
Proof.
  intros fuel cov sol IHf c rs; induction rs as [|r rs IH]; intros X HX HL Hr Hn g; subst g.
  - exists [], X; simpl; splits; auto.
    + intros l [].
    + intros r l0 [].
    + constructor.
  - inv Hn. destruct (Hr r) as [Vr [Cr Dr]]; [left; auto|].
    destruct (select_ok cov X r HX Vr Dr) as [cols [X1 [E1 [Hc [HX1 L1]]]]].
    destruct (IHf r X1 Vr Dr HX1) as [ls1 [X2 [E2 [HX2 [Y2 [S2 [C2 U2]]]]]]]; [lia|lia|].
    destruct (deselect_ok cov X2 r cols HX2 Vr Hc) as [X3 [E3 HX3]].
    destruct (IH X3 HX3) as [ls2 [X4 [E4 [HX4 [Y4 [S4 [C4 U4]]]]]]]; auto.
    { rewrite (XI_length cov X3 X); auto. }
    { intros; apply Hr; right; auto. }
    exists (map (cons r) ls1 ++ ls2), X4.
    cbn [gfor]. rewrite gresult_gbind, gyields_gbind.
    rewrite E1. cbn [lift gbind]. rewrite gresult_gbind, gyields_gbind, E2. cbn [rbind].
    rewrite Y2, E3. cbn [lift gresult gyields rbind]. rewrite app_nil_r.
    rewrite E4, Y4. splits; auto.
    + rewrite map_app, map_map. f_equal. apply map_ext. intros l.
      rewrite <- app_assoc; auto.
    + intros l Hl. apply in_app_or in Hl. destruct Hl as [Hl|Hl].
      * apply in_map_iff in Hl; destruct Hl as [l' [<- Hl']].
        split; [apply Exact_cons; auto|]. exists r; simpl; auto.
      * destruct (S4 l Hl) as [Ex [r' [H' H'']]]. split; auto. exists r'; simpl; auto.
    + intros r' l0 [<-|Hr'] Ex.
      * apply Exact_cons in Ex. destruct Ex as [_ [_ Ex]].
        destruct (C2 l0 Ex) as [l [Hl Pl]]. exists (r :: l); split.
        -- apply in_or_app; left. apply in_map; auto.
        -- constructor; auto.
      * destruct (C4 r' l0 Hr' Ex) as [l [Hl Pl]]. exists l; split; auto. apply in_or_app; auto.
    + apply FOP_app; auto.
      * apply FOP_map. eapply FOP_impl; [|apply U2]. intros a b _ _ N P. apply N.
        eapply Permutation_cons_inv; eauto.
      * intros a b Ha Hb P. apply in_map_iff in Ha; destruct Ha as [l [<- Hl]].
        destruct (S4 b Hb) as [Ex [r' [H' H'']]].
        assert (Hrb : In r b) by (eapply Permutation_in; [apply P | left; auto]).
        assert (Hne : r <> r') by (intros <-; auto).
        destruct (Hr r') as [_ [Cr' _]]; [right; auto|].
        apply in_split in Hrb. destruct Hrb as [b1 [b2 ->]].
        assert (Hr'2 : In r' (b1 ++ b2)).
        { apply in_app_or in H''. apply in_or_app. destruct H'' as [H''|[H''|H'']]; auto. congruence. }
        apply (Exact_perm _ _ (r :: b1 ++ b2)) in Ex; [|apply Permutation_sym, Permutation_middle].
        destruct Ex as [_ [Ex _]]. inv Ex. rewrite Forall_forall in H3.
        apply (H3 r' Hr'2 c); auto.
Qed.

Lemma xsolve_ok : forall fuel cov sol X, XI cov X -> (length X <= 4 * (fuel - 1))%nat ->
  (1 <= fuel)%nat ->
  exists ls X', gresult (xsolve fuel ord Y X sol) tt = Ok X' /\ XI cov X' /\
    gyields (xsolve fuel ord Y X sol) tt = map (app sol) ls /\ Lists cov ls.
Proof.
  induction fuel as [|fuel IH]; intros cov sol X HX HL Hf; [lia|].
  cbn [xsolve]. destruct X as [|e X].
  - exists [[]], []. cbn [yield gbind gresult gyields map]. rewrite app_nil_r. splits; auto.
    assert (HE : forall j, vkey j -> In j cov).
    { intros j V. destruct (in_dec xkey_eq_dec j cov); auto.
      destruct HX as [_ [Hk _]]. assert (In j (dkeys (@nil (xkey * list xrow)))) as []; apply Hk; split; auto. }
    unfold Lists; splits.
    + intros l [<-|[]]. unfold Exact; splits; [intros i [] | constructor |].
      intros j V N; exfalso; auto.
    + intros l0 [E1 _]. exists []; split; [left; auto|].
      destruct l0 as [|[[r c] m] l0]; auto. exfalso.
      destruct (E1 (r, c, m)) as [V D]; [left; auto|].
      apply (D (RC r c)); [simpl; auto|]. apply HE. apply (K_valid (r, c, m)); simpl; auto.
    + repeat constructor.
  - pose proof (min_key_in' X e) as Hc. set (c := min_key e X) in *.
    set (X0 := e :: X) in *.
    assert (Kcc : Kc cov c) by (apply HX; auto).
    destruct (XQ_get _ _ _ c HX Kcc) as [rows [Hg [Hs Hi]]].
    rewrite Hg. cbn [lift gbind].
    assert (Hlen : (4 <= length X0)%nat \/ rows = []).
    { destruct rows as [|r rows]; auto. left.
      destruct (proj1 (Hi r)) as [Vr [Cr Dr]]; [left; auto|].
      destruct (select_ok cov X0 r HX Vr Dr) as [cols [X1 [E1 [_ [_ L1]]]]]. lia. }
    destruct Hlen as [Hlen|Hlen].
    + destruct (xsolve_loop fuel cov sol) with (c := c) (rs := ord sol rows) (X := X0)
        as [ls [X' [E [HX' [HY [S1 [C1' U1]]]]]]]; auto.
      { simpl in HL. rewrite Nat.sub_0_r in HL. subst X0; simpl in *; lia. }
      { intros r Hr. apply Hi. eapply Permutation_in; eauto. }
      { eapply Permutation_NoDup; [apply Permutation_sym, ord_perm|].
        apply (sset_NoDup _ xrow_good); auto. }
      exists ls, X'; splits; auto. unfold Lists; splits; auto.
      * intros l Hl; apply S1; auto.
      * intros l0 Ex. destruct Ex as [Ex1 [Ex2 Ex3]].
        destruct Kcc as [Vc Nc]. destruct (Ex3 c Vc Nc) as [r [Hr Hcr]].
        assert (Hrr : In r (ord sol rows)).
        { eapply Permutation_in; [apply Permutation_sym, ord_perm|]. apply Hi.
          destruct (Ex1 r Hr); unfold Pc; auto. }
        apply in_split in Hr. destruct Hr as [l1 [l2 ->]].
        destruct (C1' r (l1 ++ l2) Hrr) as [l [Hl Pl]].
        { eapply Exact_perm; [apply Permutation_sym, Permutation_middle|]. unfold Exact; auto. }
        exists l; split; auto. eapply Permutation_trans; [|apply Pl].
        apply Permutation_sym, Permutation_middle.
    + assert (Ho : ord sol rows = []).
      { subst rows. apply Permutation_nil, Permutation_sym, ord_perm. }
      rewrite Ho. cbn [gfor gresult gyields]. exists [], X0; splits; auto.
      unfold Lists; splits; [intros l [] | | constructor].
      intros l0 [Ex1 [Ex2 Ex3]]. destruct Kcc as [Vc Nc]. destruct (Ex3 c Vc Nc) as [r [Hr Hcr]].
      exfalso. assert (In r rows) by (apply Hi; destruct (Ex1 r Hr); unfold Pc; auto).
      subst rows; auto.
Qed.
End Solve.
End AlgX.
