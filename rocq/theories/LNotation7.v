(** The exact text written by encode. *)
From Verif Require Export LNotation6.
Import PyStr MNotation.

Definition entries_of (nd : list (list Z * zset)) : list (list Z * list Z) :=
  map (fun K => (succ1 K, succ1 (dget_default key_eqb nd K []))) (py_sorted (list_cmp zcmp) (dkeys nd)).

Lemma out_entries : forall q1 q2 sep ns nd,
  join sep (map (group_text ns) (out_groups q1 q2 nd)) = entries_text q1 q2 sep ns (entries_of nd).
Proof.
  intros. unfold entries_text, out_groups, entries_of. rewrite !map_map. reflexivity.
Qed.

Lemma nencode_all : forall w h, 1 <= w -> 1 <= h -> forall cs sep nsep, (forall p, In p cs -> cell w h p) ->
  exists rows boxes rd bd, dict_of rows cs /\ dict_of boxes (map (bp w h) cs) /\ joined rd rows /\ joined bd boxes /\
    let ns := number_separator nsep (w * h) in
    let rt := entries_text 114 99 sep ns (entries_of rd) in
    let bt := entries_text 98 112 sep ns (entries_of bd) in
    nencode cs w h (Some false) sep nsep = Ok rt /\
    nencode cs w h (Some true) sep nsep = Ok bt /\
    nencode cs w h None sep nsep = Ok (if py_len bt <? py_len rt then bt else rt).
Proof.
  intros w h Hw Hh cs sep nsep Hc. destruct (collect_ok w h cs Hc) as [rows [boxes [E [D1 D2]]]].
  destruct (join_keys_ok rows (proj1 D1)) as [rd [E1 J1]]. destruct (join_keys_ok boxes (proj1 D2)) as [bd [E2 J2]].
  exists rows, boxes, rd, bd. splits; auto. cbv zeta. unfold nencode.
  replace ((w <? 1) || (h <? 1)) with false by (symmetry; apply orb_false_iff; split; apply Z.ltb_ge; auto).
  rewrite E. cbn [rbind]. rewrite E1, E2. cbn [rbind]. rewrite num_sep_eq.
  rewrite !dict_to_str_ok by (eapply joined_keys; eauto; first [apply D1|apply D2]).
  cbn [rbind]. rewrite !out_entries. splits; auto. destruct (_ <? _); auto.
Qed.

Lemma succ1_sorted : forall l, sset zcmp l -> StronglySorted Z.lt (succ1 l) /\ succ1 l = map (fun k => k + 1) l.
Proof.
  intros l Hl.
  assert (E : py_sorted zcmp l = l).
  { apply (sset_ext _ zcmp_good); auto.
    - apply sorted_sset. apply (sset_NoDup _ zcmp_good); auto.
    - intros x. split; apply Permutation_in; [apply py_sorted_perm|apply Permutation_sym, py_sorted_perm]. }
  unfold succ1. rewrite E. split; auto. clear E. unfold sset in Hl. induction Hl as [|x l Hl IH H]; cbn [map]; constructor; auto.
  rewrite Forall_forall in *. intros y Hy. apply in_map_iff in Hy. destruct Hy as [z0 [<- Hz]]. specialize (H z0 Hz).
  change (x < z0) in H. cbv beta. lia.
Qed.

Lemma succ1_inj : forall l m, sset zcmp l -> sset zcmp m -> succ1 l = succ1 m -> l = m.
Proof.
  intros l m Hl Hm E. apply sset_eq; auto. intros x.
  replace x with (x + 1 - 1) by lia. rewrite <- !in_succ1, E. tauto.
Qed.

Lemma entries_joined : forall nd d ps, joined nd d -> dict_of d ps ->
  entries (map (fun e => (fst e + 1, snd e + 1)) ps) (entries_of nd).
Proof.
  intros nd d ps HJ HD. pose proof (joined_pairs nd d ps HJ HD) as JP. pose proof HJ as [JV J]. pose proof HD as [DN D].
  pose proof (joined_keys nd d HJ DN) as KN.
  assert (I : forall e, In e (entries_of nd) <-> exists K v, In (K, v) nd /\ e = (succ1 K, succ1 v)).
  { intros e. unfold entries_of. rewrite in_map_iff. split.
    - intros [K [<- HK]]. apply (Permutation_in _ (py_sorted_perm _ _)) in HK.
      apply (dget_keys _ key_eqb_eq) in HK. destruct HK as [v E]. exists K, v. split; [apply (dget_In _ key_eqb_eq); auto|].
      unfold dget_default. rewrite E. reflexivity.
    - intros [K [v [H ->]]]. exists K. unfold dget_default.
      rewrite (proj2 (dget_iff _ key_eqb_eq nd K v KN) H). split; auto.
      apply (Permutation_in _ (Permutation_sym (py_sorted_perm _ _))). apply in_map_iff. exists (K, v); auto. }
  assert (S : forall K v, In (K, v) nd -> K <> [] /\ v <> [] /\ sset zcmp K /\ sset zcmp v).
  { intros K v H. apply J in H. destruct H as [H1 [H2 H3]]. destruct K as [|k K]; [congruence|].
    destruct (proj1 (D k v) (proj1 (H3 k) (or_introl eq_refl))) as [V1 [V2 _]]. splits; auto. }
  assert (DK : forall K v K' v' k, In (K, v) nd -> In (K', v') nd -> In k K -> In k K' -> K = K').
  { intros K v K' v' k H1 H2 H3 H4. apply J in H1. apply J in H2. destruct H1 as [A1 [A2 A3]], H2 as [B1 [B2 B3]].
    apply A3 in H3. apply B3 in H4. assert (v = v') by (eapply dict_entry; eauto). subst v'.
    apply sset_eq; auto. intros x. rewrite A3, B3. tauto. }
  assert (PK : forall K, In K (py_sorted (list_cmp zcmp) (dkeys nd)) <-> exists v, In (K, v) nd).
  { intros K. split.
    - intros HK. apply (Permutation_in _ (py_sorted_perm _ _)) in HK. apply in_map_iff in HK.
      destruct HK as [[K' v] [E H]]. cbn in E. subst. eauto.
    - intros [v H]. apply (Permutation_in _ (Permutation_sym (py_sorted_perm _ _))). apply in_map_iff. exists (K, v); auto. }
  assert (NK : NoDup (py_sorted (list_cmp zcmp) (dkeys nd))).
  { eapply Permutation_NoDup; [apply Permutation_sym, py_sorted_perm|]. auto. }
  assert (SK : StronglySorted (fun a b => cmp_leb (list_cmp zcmp) a b = true) (py_sorted (list_cmp zcmp) (dkeys nd)))
    by apply (py_sorted_sorted _ kcmp_good).
  unfold entries. splits.
  - intros k v. rewrite in_map_iff. split.
    + intros [[a b] [E H]]. cbn in E. inv E. apply JP in H. destruct H as [K [u [H1 [H2 H3]]]].
      exists (succ1 K, succ1 u). split; [apply I; eauto|]. cbn [fst snd]. rewrite !in_succ1.
      replace (a + 1 - 1) with a by lia. replace (b + 1 - 1) with b by lia. auto.
    + intros [e [H1 [H2 H3]]]. apply I in H1. destruct H1 as [K [u [H1 ->]]]. cbn [fst snd] in *. apply in_succ1 in H2. apply in_succ1 in H3.
      exists (k - 1, v - 1). cbn [fst snd]. split; [f_equal; lia|]. apply JP. eauto.
  - intros e He. apply I in He. destruct He as [K [v [H ->]]]. destruct (S K v H) as [S1 [S2 [S3 S4]]]. cbn [fst snd].
    splits; try apply succ1_nonempty; try apply succ1_sorted; auto.
  - unfold entries_of. rewrite map_map. cbn [fst].
    assert (X : forall l, NoDup l -> incl l (py_sorted (list_cmp zcmp) (dkeys nd)) -> NoDup (concat (map succ1 l))).
    { induction l as [|K l IH]; intros N L; cbn [map concat]; [constructor|]. inv N.
      destruct (proj1 (PK K) (L K (or_introl eq_refl))) as [v HK]. destruct (S K v HK) as [_ [_ [S3 _]]].
      apply NoDup_app_iff. splits.
      - destruct (succ1_sorted K S3) as [_ ->]. apply FinFun.Injective_map_NoDup; [intros x y; lia|]. apply (sset_NoDup _ zcmp_good); auto.
      - apply IH; auto. intros x Hx; apply L; right; auto.
      - intros x H4 H5. apply in_concat in H5. destruct H5 as [m [M1 M2]]. apply in_map_iff in M1. destruct M1 as [K' [<- M1]].
        apply in_succ1 in H4. apply in_succ1 in M2. destruct (proj1 (PK K') (L K' (or_intror M1))) as [v' HK'].
        assert (K = K') by (eapply DK; eauto). subst; auto. }
    apply X; auto. intros x; auto.
  - unfold entries_of. rewrite map_map. cbn [snd]. apply NoDup_map_inj; auto.
    intros K K' H1 H2 E. apply PK in H1. apply PK in H2. destruct H1 as [v H1], H2 as [v' H2].
    unfold dget_default in E. rewrite (proj2 (dget_iff _ key_eqb_eq nd K v KN) H1), (proj2 (dget_iff _ key_eqb_eq nd K' v' KN) H2) in E.
    apply succ1_inj in E; try (eapply S; eauto). subst v'.
    apply J in H1. apply J in H2. apply sset_eq; try tauto. intros x. destruct H1 as [_ [_ H1]], H2 as [_ [_ H2]]. rewrite H1, H2. tauto.
  - unfold entries_of.
    assert (X : forall l, NoDup l -> incl l (py_sorted (list_cmp zcmp) (dkeys nd)) ->
      StronglySorted (fun a b => cmp_leb (list_cmp zcmp) a b = true) l ->
      StronglySorted (fun a b : list Z * list Z => hd 0 (fst a) < hd 0 (fst b))
        (map (fun K => (succ1 K, succ1 (dget_default key_eqb nd K []))) l)).
    { induction l as [|K l IH]; intros N L Q; cbn [map]; [constructor|]. inv N. inv Q. constructor.
      - apply IH; auto. intros x Hx; apply L; right; auto.
      - rewrite Forall_forall in *. intros e He. apply in_map_iff in He. destruct He as [K' [<- HK']]. cbn [fst].
        destruct (proj1 (PK K) (L K (or_introl eq_refl))) as [v HK]. destruct (proj1 (PK K') (L K' (or_intror HK'))) as [v' HK2].
        destruct (S K v HK) as [N1 [_ [S1 _]]]. destruct (S K' v' HK2) as [N2 [_ [S2 _]]].
        destruct (succ1_sorted K S1) as [_ ->]. destruct (succ1_sorted K' S2) as [_ ->].
        specialize (H4 K' HK'). destruct K as [|k K]; [congruence|]. destruct K' as [|k' K']; [congruence|].
        cbn [map hd]. assert (k <> k').
        { intros ->. assert (k' :: K = k' :: K') by (eapply (DK _ _ _ _ k'); eauto; left; auto). congruence. }
        unfold cmp_leb in H4. cbn [list_cmp] in H4. unfold zcmp in H4. destruct (Z.compare_spec k k'); try congruence; lia. }
    apply X; auto. intros x; auto.
Qed.

Lemma encode_exact : forall w h cs sep nsep, 1 <= w -> 1 <= h -> (forall p, In p cs -> cell w h p) ->
  let ns := number_separator nsep (w * h) in
  exists rs bs, entries (map row_col cs) rs /\ entries (map (box_part w h) cs) bs /\
    let rt := entries_text 114 99 sep ns rs in
    let bt := entries_text 98 112 sep ns bs in
    nencode cs w h (Some false) sep nsep = Ok rt /\
    nencode cs w h (Some true) sep nsep = Ok bt /\
    nencode cs w h None sep nsep = Ok (if py_len bt <? py_len rt then bt else rt).
Proof.
  intros w h cs sep nsep Hw Hh Hc. cbv zeta.
  destruct (nencode_all w h Hw Hh cs sep nsep Hc) as [rows [boxes [rd [bd [D1 [D2 [J1 [J2 E]]]]]]]].
  exists (entries_of rd), (entries_of bd). splits.
  - exact (entries_joined rd rows cs J1 D1).
  - pose proof (entries_joined bd boxes _ J2 D2) as X. rewrite map_map in X.
    replace (map (box_part w h) cs) with (map (fun x => (fst (bp w h x) + 1, snd (bp w h x) + 1)) cs); auto.
    apply map_ext. intros [r c]. unfold box_part, bp. cbn [fst snd].
    replace (c / w + r - r mod h) with (r / h * h + c / w) by (pose proof (sub_mod r h ltac:(lia)); lia).
    f_equal; lia.
  - apply E.
  - apply E.
  - apply E.
Qed.

(** The entries are determined by the pairs. *)
Lemma sorted_lt_sset : forall l, StronglySorted Z.lt l -> sset zcmp l.
Proof.
  intros l Hl. unfold sset. induction Hl as [|x l Hl IH H]; constructor; auto.
Qed.
Lemma sorted_lt_eq : forall l m, StronglySorted Z.lt l -> StronglySorted Z.lt m -> (forall x, In x l <-> In x m) -> l = m.
Proof. intros l m Hl Hm H. apply sset_eq; auto using sorted_lt_sset. Qed.

Lemma nodup_concat_share : forall {A B} (f : A -> list B) l a b k, NoDup (concat (map f l)) ->
  In a l -> In b l -> In k (f a) -> In k (f b) -> a = b.
Proof.
  intros A B f l a b k; induction l as [|x l IH]; intros N Ha Hb Ka Kb; [destruct Ha|].
  cbn [map concat] in N. apply NoDup_app_iff in N. destruct N as [N1 [N2 N3]].
  destruct Ha as [->|Ha], Hb as [->|Hb]; auto.
  - exfalso. apply (N3 k Ka). apply in_concat. exists (f b). split; auto. apply in_map; auto.
  - exfalso. apply (N3 k Kb). apply in_concat. exists (f a). split; auto. apply in_map; auto.
Qed.

Lemma nodup_map_share : forall {A B} (f : A -> B) l a b, NoDup (map f l) -> In a l -> In b l -> f a = f b -> a = b.
Proof.
  intros A B f l a b; induction l as [|x l IH]; intros N Ha Hb E; [destruct Ha|]. cbn [map] in N. inv N.
  destruct Ha as [->|Ha], Hb as [->|Hb]; auto.
  - exfalso. apply H1. rewrite E. apply in_map; auto.
  - exfalso. apply H1. rewrite <- E. apply in_map; auto.
Qed.

Lemma entries_values : forall ps es e k, entries ps es -> In e es -> In k (fst e) -> forall v, In (k, v) ps <-> In v (snd e).
Proof.
  intros ps es e k [E1 [E2 [E3 [E4 E5]]]] He Hk v. rewrite E1. split.
  - intros [e' [H1 [H2 H3]]]. rewrite (nodup_concat_share fst es e e' k); auto.
  - intros H. exists e; auto.
Qed.

Lemma entries_in : forall ps es K V, entries ps es ->
  (In (K, V) es <-> K <> [] /\ V <> [] /\ StronglySorted Z.lt K /\ StronglySorted Z.lt V /\
     forall k, In k K <-> forall v, In (k, v) ps <-> In v V).
Proof.
  intros ps es K V HE. pose proof HE as [E1 [E2 [E3 [E4 E5]]]].
  assert (A : forall k V', V' <> [] -> StronglySorted Z.lt V' -> (forall v, In (k, v) ps <-> In v V') ->
    exists e, In e es /\ In k (fst e) /\ snd e = V').
  { intros k V' N S H. destruct V' as [|v V']; [congruence|].
    destruct (proj1 (E1 k v)) as [e [H1 [H2 H3]]]; [apply H; left; auto|]. exists e. splits; auto.
    apply sorted_lt_eq; auto; [apply E2; auto|]. intros x. rewrite <- H. symmetry. apply (entries_values ps es); auto. }
  split.
  - intros H. destruct (E2 _ H) as [S1 [S2 [S3 S4]]]. cbn [fst snd] in *. splits; auto. intros k. split.
    + intros Hk. exact (entries_values ps es (K, V) k HE H Hk).
    + intros Hk. destruct (A k V S2 S4 Hk) as [e [H1 [H2 H3]]].
      rewrite (nodup_map_share snd es e (K, V)) in H2; auto.
  - intros [S1 [S2 [S3 [S4 H]]]]. destruct K as [|k0 K]; [congruence|].
    destruct (A k0 V S2 S4) as [e [H1 [H2 H3]]]; [apply H; left; auto|].
    assert (fst e = k0 :: K).
    { apply sorted_lt_eq; auto; [apply E2; auto|]. intros x. rewrite H. split.
      - intros Hx. rewrite <- H3. apply (entries_values ps es); auto.
      - intros Hx. destruct (A x V S2 S4 Hx) as [e' [H1' [H2' H3']]].
        rewrite (nodup_map_share snd es e e'); auto. congruence. }
    destruct e as [K' V']. cbn [fst snd] in *. subst. auto.
Qed.

Lemma entries_unique : forall ps es es', entries ps es -> entries ps es' -> es = es'.
Proof.
  intros ps es es' H H'.
  assert (M : forall e, In e es <-> In e es').
  { intros [K V]. rewrite (entries_in ps es), (entries_in ps es') by auto. tauto. }
  destruct H as [_ [_ [_ [_ H]]]], H' as [_ [_ [_ [_ H']]]].
  revert es' H' M. induction H as [|e es H IH F]; intros es' H' M.
  - destruct es' as [|x es']; auto. destruct (proj2 (M x) (or_introl eq_refl)).
  - destruct es' as [|e' es']; [destruct (proj1 (M e) (or_introl eq_refl))|]. inv H'. rewrite Forall_forall in *.
    assert (e = e').
    { destruct (proj1 (M e) (or_introl eq_refl)) as [->|X]; auto.
      destruct (proj2 (M e') (or_introl eq_refl)) as [->|Y]; auto. specialize (F e' Y). specialize (H3 e X). lia. }
    subst e'. f_equal. apply IH; auto. intros x. split; intros Hx.
    + destruct (proj1 (M x) (or_intror Hx)) as [->|X]; auto. specialize (F x Hx). lia.
    + destruct (proj2 (M x) (or_intror Hx)) as [->|X]; auto. specialize (H3 x Hx). lia.
Qed.
