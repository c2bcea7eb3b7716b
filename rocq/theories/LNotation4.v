(** encode: the dictionaries, the groups written, the round trip. *)
From Verif Require Export LNotation3.
Import PyStr MNotation.

Lemma zeqb_eq : forall a b : Z, Z.eqb a b = true <-> a = b.
Proof. apply Z.eqb_eq. Qed.
Definition kcmp_good := list_cmp_good zcmp zcmp_good.
Lemma key_eqb_eq : forall a b, key_eqb a b = true <-> a = b.
Proof. intros. unfold key_eqb. apply (cmp_eqb_eq _ kcmp_good). Qed.

Lemma dget_iff : forall {K V} (eqb : K -> K -> bool) (He : forall a b, eqb a b = true <-> a = b)
  (d : list (K * V)) k v, NoDup (dkeys d) -> (dget eqb d k = Ok v <-> In (k, v) d).
Proof.
  intros K V eqb He d k v Hn; split; [apply dget_In; auto|]. intros H. apply dget_NoDup; auto.
Qed.

Lemma NoDup_app_one : forall {A} (l : list A) x, NoDup l -> ~ In x l -> NoDup (l ++ [x]).
Proof.
  intros A l x Hn Hx. apply NoDup_app_iff. splits; auto; [repeat constructor; intros []|].
  intros y Hy [<-|[]]; auto.
Qed.
Lemma NoDup_app_left : forall {A} (l m : list A), NoDup (l ++ m) -> NoDup l.
Proof. intros A l m H. apply NoDup_app_iff in H. tauto. Qed.

(** * [dadd]: a dictionary of sets that represents a list of pairs *)
Definition dict_of (D : list (Z * zset)) (ps : list (Z * Z)) : Prop :=
  NoDup (dkeys D) /\
  forall k v, In (k, v) D <-> v <> [] /\ sset zcmp v /\ forall c, In c v <-> In (k, c) ps.

Lemma dict_of_get : forall D ps k, dict_of D ps ->
  sset zcmp (dget_default Z.eqb D k []) /\ forall c, In c (dget_default Z.eqb D k []) <-> In (k, c) ps.
Proof.
  intros D ps k [Hn H]. unfold dget_default. destruct (dget Z.eqb D k) as [v|e] eqn:E.
  - apply (dget_In _ zeqb_eq) in E. apply H in E. tauto.
  - split; [apply sset_nil|]. intros c; split; [intros []|]. intros X. exfalso.
    set (v := sof_list zcmp (map snd (filter (fun p => fst p =? k) ps))).
    assert (I : In (k, v) D).
    { apply H.
      assert (M : forall c, In c v <-> In (k, c) ps).
      { intros d. unfold v. rewrite (In_sof_list _ zcmp_good), in_map_iff. split.
        - intros [[a b] [E1 E2]]. apply filter_In in E2. cbn in *. destruct E2 as [E2 E3]. b2p. subst; auto.
        - intros Y. exists (k, d). split; auto. apply filter_In. split; auto. cbn. apply Z.eqb_refl. }
      splits; auto.
      - intros Y. apply M in X. rewrite Y in X. destruct X.
      - apply sof_list_sset, zcmp_good. }
    pose proof (dget_NoDup _ zeqb_eq D k v Hn I) as Y. rewrite E in Y. discriminate.
Qed.

Lemma sset_eq : forall a b, sset zcmp a -> sset zcmp b -> (forall x, In x a <-> In x b) -> a = b.
Proof. intros a b Ha Hb H. apply (sset_ext _ zcmp_good); auto. Qed.

Lemma dadd_dict : forall D ps k v, dict_of D ps -> dict_of (dadd D k v) (ps ++ [(k, v)]).
Proof.
  intros D ps k v HD. destruct (dict_of_get D ps k HD) as [G1 G2]. destruct HD as [Hn H].
  unfold dadd. split; [apply dset_NoDup; auto; apply zeqb_eq|]. intros x u.
  rewrite <- (dget_iff _ zeqb_eq) by (apply dset_NoDup; auto; apply zeqb_eq).
  rewrite (dget_dset _ zeqb_eq). set (old := dget_default Z.eqb D k []) in *.
  destruct (x =? k) eqn:E.
  - b2p. subst x.
    assert (S1 : sset zcmp (sadd zcmp v old)) by (apply sadd_sset; auto; apply zcmp_good).
    assert (S2 : forall c, In c (sadd zcmp v old) <-> In (k, c) (ps ++ [(k, v)])).
    { intros c. rewrite (In_sadd _ zcmp_good), G2, in_app_iff. cbn. split.
      - intros [->|X]; auto.
      - intros [X|[X|[]]]; auto. inv X; auto. }
    split.
    + intros X. injection X as <-. splits; auto. intros Y.
      assert (In v (sadd zcmp v old)) by (apply (In_sadd _ zcmp_good); auto). rewrite Y in H0. destruct H0.
    + intros [U1 [U2 U3]]. f_equal. apply sset_eq; auto. intros c. rewrite S2, U3. tauto.
  - b2p. rewrite (dget_iff _ zeqb_eq) by auto. rewrite H.
    assert (S : forall c, In (x, c) (ps ++ [(k, v)]) <-> In (x, c) ps).
    { intros c. rewrite in_app_iff. cbn. split; [intros [X|[X|[]]]; auto; inv X; congruence|auto]. }
    split; intros [U1 [U2 U3]]; splits; auto; intros c; rewrite U3, S; tauto.
Qed.

Definition bp (w h : Z) (p : coord) : Z * Z :=
  (snd p / w + fst p - fst p mod h, snd p mod w + (fst p mod h) * w).

Lemma collect_ok : forall w h cs, (forall p, In p cs -> cell w h p) ->
  exists rows boxes, collect w h cs = Ok (rows, boxes) /\ dict_of rows cs /\ dict_of boxes (map (bp w h) cs).
Proof.
  intros w h cs Hc. unfold collect.
  match goal with |- context [foldM ?f cs ?a] =>
    destruct (foldM_ind f (fun cs rb => dict_of (fst rb) cs /\ dict_of (snd rb) (map (bp w h) cs)) cs a) as [[r b] [E1 E2]] end.
  - cbn [fst snd map]. assert (D : dict_of [] []); [|auto].
    split; [constructor|]. intros k v; split; [intros []|]. intros [X [_ Y]]. destruct v as [|c v]; [congruence|].
    destruct (proj1 (Y c) (or_introl eq_refl)).
  - intros pre [r c] post [rows boxes] E [H1 H2]. cbn [fst snd] in *.
    assert (Hp : cell w h (r, c)) by (apply Hc; rewrite E; apply in_app_iff; right; left; auto).
    destruct Hp as [Hr Hcc]. cbn [fst snd] in *.
    replace ((0 <=? r) && (r <? w * h)) with true by (symmetry; apply andb_true_iff; rewrite Z.leb_le, Z.ltb_lt; lia).
    replace ((0 <=? c) && (c <? w * h)) with true by (symmetry; apply andb_true_iff; rewrite Z.leb_le, Z.ltb_lt; lia).
    cbn [negb orb]. eexists; split; [reflexivity|]. cbn [fst snd]. rewrite map_app. split; apply dadd_dict; auto.
  - exists r, b. auto.
Qed.

Lemma collect_bad : forall w h cs p, In p cs -> ~ cell w h p -> collect w h cs = Err ValueError.
Proof.
  intros w h cs p Hin Hp. unfold collect. apply (foldM_bad _ _ _ p); auto.
  - intros [rows boxes] [r c] _.
    destruct (negb ((0 <=? r) && (r <? w * h)) || negb ((0 <=? c) && (c <? w * h))); eauto.
  - intros [rows boxes]. destruct p as [r c]. unfold cell in Hp. cbn [fst snd] in Hp.
    destruct (negb ((0 <=? r) && (r <? w * h)) || negb ((0 <=? c) && (c <? w * h))) eqn:E; auto.
    b2p. lia.
Qed.

(** * [join_keys] *)
Definition joined (nd : list (list Z * zset)) (d : list (Z * zset)) : Prop :=
  NoDup (dvalues nd) /\
  forall K v, In (K, v) nd <-> K <> [] /\ sset zcmp K /\ forall k, In k K <-> In (k, v) d.

Lemma joined_keys : forall nd d, joined nd d -> NoDup (dkeys d) -> NoDup (dkeys nd).
Proof.
  intros nd d [H1 H2] Hd. unfold dkeys. apply NoDup_map_inj.
  - intros [K v] [K' v'] I1 I2 E. cbn in E. subst K'. f_equal.
    apply H2 in I1. apply H2 in I2. destruct I1 as [N [_ I1]], I2 as [_ [_ I2]].
    destruct K as [|k K]; [congruence|].
    assert (A : In (k, v) d) by (apply I1; left; auto). assert (B : In (k, v') d) by (apply I2; left; auto).
    apply (dget_iff _ zeqb_eq) in A; auto. apply (dget_iff _ zeqb_eq) in B; auto. congruence.
  - unfold dvalues in H1. apply NoDup_map_inv in H1. auto.
Qed.

Lemma find_value_some : forall nd v K, find_value nd v = Some K -> In (K, v) nd.
Proof.
  intros nd v K H. unfold find_value in H. match type of H with context [find ?f ?l] => destruct (find f l) as [[K' v']|] eqn:E end; [|discriminate].
  inv H. apply find_some in E. destruct E as [E1 E2]. cbn in *. apply (cmp_eqb_eq _ kcmp_good) in E2. subst; auto.
Qed.
Lemma find_value_none : forall nd v, find_value nd v = None -> ~ In v (dvalues nd).
Proof.
  intros nd v H X. unfold find_value in H. match type of H with context [find ?f ?l] => destruct (find f l) as [[K' v']|] eqn:E end; [discriminate|].
  apply in_map_iff in X. destruct X as [[K v'] [E1 E2]]. cbn in E1. subst v'.
  pose proof (find_none _ _ E _ E2) as Y. cbn in Y.
  assert (cmp_eqb (list_cmp zcmp) v v = true) by (apply (cmp_eqb_eq _ kcmp_good); auto). congruence.
Qed.

Lemma sorted_sset : forall l, NoDup l -> sset zcmp (py_sorted zcmp l).
Proof.
  intros l Hn. pose proof (py_sorted_sorted _ zcmp_good l) as S. pose proof (py_sorted_perm zcmp l) as P.
  apply (Permutation_NoDup (Permutation_sym P)) in Hn. clear P. unfold sset. induction S as [|x m S IH F]; constructor.
  - apply IH; inv Hn; auto.
  - inv Hn. rewrite Forall_forall in *. intros y Hy. specialize (F y Hy).
    apply (cmp_leb_lt_or_eq _ zcmp_good) in F. destruct F as [F|F]; auto. subst; tauto.
Qed.

Lemma dict_entry : forall (d : list (Z * zset)) k v v', NoDup (dkeys d) -> In (k, v) d -> In (k, v') d -> v = v'.
Proof.
  intros d k v v' Hn A B. apply (dget_iff _ zeqb_eq) in A; auto. apply (dget_iff _ zeqb_eq) in B; auto. congruence.
Qed.

Lemma join_step : forall nd d k v, joined nd d -> NoDup (dkeys (d ++ [(k, v)])) ->
  exists nd', (match find_value nd v with
    | Some keys => let* (_, nd') := dpop key_eqb nd keys in
                   Ok (dset key_eqb nd' (py_sorted zcmp (k :: keys)) v)
    | None => Ok (dset key_eqb nd [k] v) end) = Ok nd' /\ joined nd' (d ++ [(k, v)]).
Proof.
  intros nd d k v HJ Hn. unfold dkeys in Hn. rewrite map_app in Hn. cbn [map fst] in Hn.
  assert (Hd : NoDup (dkeys d)) by (apply NoDup_app_left in Hn; auto).
  assert (Hk : ~ In k (dkeys d)).
  { intros X. apply NoDup_remove_2 in Hn. apply Hn. rewrite app_nil_r. auto. }
  assert (Hk' : forall u, ~ In (k, u) d).
  { intros u X. apply Hk. apply in_map_iff. exists (k, u); auto. }
  pose proof (joined_keys nd d HJ Hd) as Hnk. pose proof HJ as [J1 J2].
  assert (Same : forall u x, u <> v -> (In (x, u) (d ++ [(k, v)]) <-> In (x, u) d)).
  { intros u x Hu. rewrite in_app_iff. cbn. split; [intros [X|[X|[]]]; auto; inv X; congruence|auto]. }
  assert (Vsame : forall x, In (x, v) (d ++ [(k, v)]) <-> x = k \/ In (x, v) d).
  { intros x. rewrite in_app_iff. cbn. split; [intros [X|[X|[]]]; auto; inv X; auto|intros [->|X]; auto]. }
  destruct (find_value nd v) as [K|] eqn:F.
  - apply find_value_some in F. pose proof (proj1 (J2 K v) F) as [KN [KS KI]].
    assert (G : dget key_eqb nd K = Ok v) by (apply (dget_iff _ key_eqb_eq); auto).
    destruct (dpop_ok _ key_eqb_eq nd K v Hnk G) as [nd1 [P1 [P2 [P3 P4]]]].
    rewrite P1. cbn [rbind]. eexists; split; [reflexivity|].
    set (K' := py_sorted zcmp (k :: K)).
    assert (In1 : forall X u, In (X, u) nd1 <-> In (X, u) nd /\ X <> K).
    { intros X u. rewrite <- !(dget_iff _ key_eqb_eq) by auto. split.
      - intros Q. assert (N : X <> K).
        { intros ->. assert (I : In K (dkeys nd1)) by (apply (dget_keys _ key_eqb_eq); eauto). apply P3 in I. tauto. }
        split; auto. rewrite <- P4 by auto. auto.
      - intros [Q1 Q2]. rewrite P4; auto. }
    assert (KI' : forall x, In x K' <-> x = k \/ In x K).
    { intros x. pose proof (py_sorted_perm zcmp (k :: K)) as PP. split; intros X.
      - apply (Permutation_in _ PP) in X. destruct X; auto.
      - apply (Permutation_in _ (Permutation_sym PP)). destruct X; [left|right]; auto. }
    assert (KS' : sset zcmp K').
    { apply sorted_sset. constructor; [|apply (sset_NoDup _ zcmp_good); auto].
      intros X. apply KI in X. apply (Hk' v); auto. }
    assert (New : ~ In K' (dkeys nd1)).
    { intros X. apply in_map_iff in X. destruct X as [[X0 u] [E X]]. cbn in E. subst X0.
      apply In1 in X. destruct X as [X _]. apply J2 in X. destruct X as [_ [_ X]].
      apply (Hk' u). apply X. apply KI'; auto. }
    rewrite dset_new by (auto; apply key_eqb_eq).
    assert (V1 : forall X, In (X, v) nd -> X = K).
    { intros X HX. pose proof (proj1 (J2 X v) HX) as [_ [XS XI]]. apply sset_eq; auto. intros y. rewrite XI, KI; tauto. }
    split.
    + unfold dvalues. rewrite map_app. cbn [map snd]. apply NoDup_app_one.
      * unfold dvalues in J1. apply NoDup_map_inj.
        -- intros [X u] [X' u'] I1 I2 E. cbn in E. subst u'. apply In1 in I1. apply In1 in I2.
           destruct I1 as [I1 _], I2 as [I2 _]. apply J2 in I1. apply J2 in I2.
           f_equal. apply sset_eq; try tauto. intros y. destruct I1 as [_ [_ I1]], I2 as [_ [_ I2]]. rewrite I1, I2; tauto.
        -- apply NoDup_map_inv in P2. auto.
      * intros X. apply in_map_iff in X. destruct X as [[X0 u] [E X]]. cbn in E. subst u. apply In1 in X.
        destruct X as [X1 X2]. apply X2. apply V1; auto.
    + intros X u. rewrite in_app_iff, In1, J2. split.
      * intros [[[A1 [A2 A3]] A4]|[A|[]]].
        -- splits; auto. assert (u <> v). { intros ->. apply A4, V1. apply J2; auto. }
           intros x. rewrite Same; auto.
        -- inv A. splits; auto.
           ++ intros X. assert (I : In k K') by (apply KI'; auto). unfold K' in I. fold K' in X. unfold K' in X. rewrite X in I. destruct I.
           ++ intros x. fold K'. rewrite Vsame, KI', KI. tauto.
      * intros [A1 [A2 A3]]. destruct (good_eq_dec _ kcmp_good u v) as [->|N].
        -- right; left. f_equal. fold K'. apply sset_eq; auto. intros x. rewrite KI', A3, Vsame, KI. tauto.
        -- left. assert (A : forall x, In x X <-> In (x, u) d) by (intros x; rewrite A3, Same; auto; tauto).
           splits; auto. intros ->. destruct K as [|y K]; [congruence|].
           apply N. apply (dict_entry d y); auto; [apply A|apply KI]; left; auto.
  - apply find_value_none in F.
    assert (Vn : forall x, ~ In (x, v) d).
    { intros x X. apply F.
      set (K := sof_list zcmp (map fst (filter (fun e => cmp_eqb (list_cmp zcmp) (snd e) v) d))).
      assert (M : forall y, In y K <-> In (y, v) d).
      { intros y. unfold K. rewrite (In_sof_list _ zcmp_good), in_map_iff. split.
        - intros [[a b] [E1 E2]]. apply filter_In in E2. cbn in *. destruct E2 as [E2 E3].
          apply (cmp_eqb_eq _ kcmp_good) in E3. subst; auto.
        - intros Y. exists (y, v). split; auto. apply filter_In. split; auto. cbn. apply (cmp_eqb_eq _ kcmp_good); auto. }
      apply in_map_iff. exists (K, v). split; auto. apply J2. splits; auto.
      - intros E. apply M in X. rewrite E in X. destruct X.
      - apply sof_list_sset, zcmp_good. }
    eexists; split; [reflexivity|].
    assert (New : ~ In [k] (dkeys nd)).
    { intros X. apply in_map_iff in X. destruct X as [[X0 u] [E X]]. cbn in E. subst X0.
      apply J2 in X. destruct X as [_ [_ X]]. apply (Hk' u). apply X. left; auto. }
    rewrite dset_new by (auto; apply key_eqb_eq). split.
    + unfold dvalues. rewrite map_app. cbn [map snd]. apply NoDup_app_one; auto.
    + intros X u. rewrite in_app_iff, J2. split.
      * intros [[A1 [A2 A3]]|[A|[]]].
        -- splits; auto. assert (u <> v).
           { intros ->. destruct X as [|x X]; [congruence|]. apply (Vn x). apply A3; left; auto. }
           intros x. rewrite Same; auto.
        -- inv A. splits; auto; [discriminate|repeat constructor|]. intros x. rewrite Vsame. cbn. split.
           ++ intros [->|[]]; auto.
           ++ intros [->|Y]; auto. destruct (Vn x Y).
      * intros [A1 [A2 A3]]. destruct (good_eq_dec _ kcmp_good u v) as [->|N].
        -- right; left. f_equal. apply sset_eq; auto; [repeat constructor|]. intros x. rewrite A3, Vsame. cbn. split.
           ++ intros [->|[]]; auto.
           ++ intros [->|Y]; auto. destruct (Vn x Y).
        -- left. splits; auto. intros x; rewrite A3, Same; auto; tauto.
Qed.

Lemma join_keys_ok : forall d, NoDup (dkeys d) -> exists nd, join_keys d = Ok nd /\ joined nd d.
Proof.
  intros d Hd. unfold join_keys. refine (foldM_ind _ (fun d nd => joined nd d) d [] _ _).
  - split; [constructor|]. intros K v; split; [intros []|]. intros [A [_ B]]. destruct K as [|k K]; [congruence|].
    destruct (proj1 (B k) (or_introl eq_refl)).
  - intros pre [k v] post acc E HJ. cbn [fst snd]. apply join_step; auto.
    rewrite E in Hd. unfold dkeys in *. rewrite map_app in *. cbn [map fst] in *.
    change (k :: map fst post) with ([k] ++ map fst post) in Hd. rewrite app_assoc in Hd.
    apply NoDup_app_left in Hd. auto.
Qed.
