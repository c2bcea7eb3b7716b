(** Reading a string of groups; what encode writes. *)
From Verif Require Export LNotation2.
Import PyStr MNotation.

Lemma group_range_dec : forall n g, group_range n g \/ exists q l k, In (q, l) g /\ In k l /\ ~ 1 <= k <= n.
Proof.
  intros n g. induction g as [|[q l] g IH].
  - left. intros q l k [].
  - destruct (forallb (fun k => (1 <=? k) && (k <=? n)) l) eqn:E.
    + rewrite forallb_forall in E. destruct IH as [IH|[q' [l' [k [H1 [H2 H3]]]]]].
      * left. intros q' l' k [X|X] Hk; [|apply (IH q' l'); auto]. inv X. specialize (E k Hk). b2p. lia.
      * right. exists q', l', k. splits; auto. right; auto.
    + right. assert (X : exists k, In k l /\ ~ 1 <= k <= n).
      { clear IH. induction l as [|k l IHl]; [discriminate|]. cbn [forallb] in E.
        apply andb_false_iff in E. destruct E as [E|E].
        - exists k; split; [left; auto|]. intros X. destruct (1 <=? k) eqn:E1, (k <=? n) eqn:E2; b2p; try discriminate; lia.
        - destruct (IHl E) as [k' [K1 K2]]. exists k'; split; auto. right; auto. }
      destruct X as [k [K1 K2]]. exists q, l, k. splits; auto. left; auto.
Qed.

Lemma seps_effective : forall sep nsep n, separators_ok sep nsep ->
  forall c, In c (number_separator nsep n) -> ~ letter c /\ ~ digit c.
Proof.
  intros sep nsep n [_ H] c Hc. unfold number_separator in Hc. destruct nsep as [|a t]; [|apply H; auto].
  destruct (n <=? 9); [destruct Hc|]. destruct Hc as [<-|[]]. unfold letter, digit; lia.
Qed.

Lemma replace_absent : forall c p s, ~ In c s -> replace (c :: p) [] s = s.
Proof.
  intros c p s H. unfold replace. rewrite split_go_one; [reflexivity|].
  intros a z -> Hz. destruct (starts_with (c :: p) z) eqn:E; auto. exfalso. apply starts_with_iff in E.
  destruct E as [t ->]. apply H. apply in_app_iff; right; left; auto.
Qed.

Lemma sset_sorted : forall l, sset coord_cmp l <-> sorted_coords l.
Proof.
  intros l. unfold sset, sorted_coords.
  assert (E : forall p q : coord, coord_cmp p q = Lt <-> lex_lt p q).
  { intros [a b] [c d]. unfold coord_cmp, pair_cmp, lex_lt, zcmp; cbn [fst snd].
    destruct (Z.compare_spec a c); try rewrite Z.compare_lt_iff; split; intros; try discriminate; auto; lia. }
  split; intros H; induction H; constructor; auto;
    (eapply Forall_impl; [|eassumption]; intros x Hx; apply E; auto).
Qed.

Section Decode.
Variables (w h : Z) (sep nsep : pystr).
Hypothesis Hw : 1 <= w.
Hypothesis Hh : 1 <= h.
Hypothesis Hsep : separators_ok sep nsep.
Let ns := number_separator nsep (w * h).

Lemma ns_ok : forall c, In c ns -> ~ letter c /\ ~ digit c.
Proof. apply (seps_effective sep); auto. Qed.

Lemma ndecode_red : forall gs, gs <> [] -> (forall g, In g gs -> group_shape ns g) ->
  ndecode (join sep (map (group_text ns) gs)) w h sep nsep =
  foldM (fun coords g => let* l := decode_single g w h ns in Ok (sunion coord_cmp coords l))
        (map (group_text ns) gs) [].
Proof.
  intros gs Hn Hg. unfold ndecode. replace ((w <? 1) || (h <? 1)) with false
    by (symmetry; apply orb_false_iff; split; apply Z.ltb_ge; auto).
  rewrite num_sep_eq. fold ns. cbv zeta.
  set (s := join sep (map (group_text ns) gs)).
  assert (E : (if negb (existsb (fun c => char_in c sep) WHITESPACE)
                && negb (existsb (fun c => char_in c ns) WHITESPACE)
             then replace WHITESPACE [] s else s) = s).
  { destruct (existsb (fun c => char_in c sep) WHITESPACE) eqn:E1; auto.
    destruct (existsb (fun c => char_in c ns) WHITESPACE) eqn:E2; auto. cbn [negb andb].
    apply replace_absent. intros X. apply in_join in X.
    assert (A : forall t, existsb (fun c => char_in c t) WHITESPACE = false -> ~ In 32 t).
    { intros t Et Hin. assert (Y : existsb (fun c => char_in c t) WHITESPACE = true); [|congruence].
      apply existsb_exists. exists 32. split; [left; auto|apply char_in_iff; auto]. }
    destruct X as [X|[a [Ha X]]]; [apply (A sep); auto|].
    apply in_map_iff in Ha. destruct Ha as [g [<- Hin]].
    destruct (Hg g Hin) as [_ [_ Sh]].
    apply (group_chars ns ns_ok g 32 Sh) in X. destruct X as [X|[X|X]];
      [unfold letter in X; lia|unfold digit in X; lia|apply (A ns); auto]. }
  rewrite E. unfold s. rewrite split_all.
  - reflexivity.
  - apply Hsep.
  - intros c Hc. apply Hsep; auto.
  - destruct gs; [congruence|discriminate].
  - intros t Ht. apply in_map_iff in Ht. destruct Ht as [g [<- Hin]]. destruct (Hg g Hin) as [G1 [_ G3]].
    apply group_grp; auto. apply ns_ok.
Qed.

Lemma ndecode_groups : forall gs, gs <> [] -> (forall g, In g gs -> group_shape ns g /\ group_range (w * h) g) ->
  exists l, ndecode (join sep (map (group_text ns) gs)) w h sep nsep = Ok l /\ sorted_coords l /\
    forall p, In p l <-> exists g, In g gs /\ in_group w h g p.
Proof.
  intros gs Hn Hg. rewrite ndecode_red by (auto; intros g X; apply Hg; auto).
  destruct (foldM_ind (fun coords g => let* l := decode_single g w h ns in Ok (sunion coord_cmp coords l))
    (fun ts l => forall gs1, map (group_text ns) gs1 = ts -> incl gs1 gs -> sset coord_cmp l /\
       forall p, In p l <-> exists g, In g gs1 /\ in_group w h g p) (map (group_text ns) gs) [])
    as [l [E1 E2]].
  - intros gs1 E _. destruct gs1; [|discriminate]. split; [apply sset_nil|]. intros p; split; [intros []|].
    intros [g [[] _]].
  - intros pre x post acc E IH.
    assert (X : exists g, In g gs /\ x = group_text ns g).
    { assert (In x (map (group_text ns) gs)) by (rewrite E; apply in_app_iff; right; left; auto).
      apply in_map_iff in H. destruct H as [g [<- H]]; eauto. }
    destruct X as [g0 [Hin0 ->]]. destruct (Hg g0 Hin0) as [S0 R0].
    destruct (single_ok w h Hw Hh ns ns_ok g0 S0 R0) as [l0 [L1 [L2 L3]]]. rewrite L1. cbn [rbind].
    eexists; split; [reflexivity|]. intros gs1 E1 Hi.
    destruct (exists_last (l := gs1)) as [gs0 [g Eg]]; [intros ->; destruct pre; discriminate|]. subst gs1.
    rewrite map_app in E1. cbn [map] in E1. apply app_inj_tail in E1. destruct E1 as [E1 E1'].
    destruct (IH gs0 E1) as [I1 I2]; [intros y Hy; apply Hi, in_app_iff; auto|].
    split; [apply sunion_sset; auto; apply coord_cmp_good|]. intros p. rewrite (In_sunion _ coord_cmp_good), I2, L3.
    assert (Hin : In g gs) by (apply Hi, in_app_iff; right; left; auto). destruct (Hg g Hin) as [S1 R1].
    destruct (single_ok w h Hw Hh ns ns_ok g S1 R1) as [l1 [M1 [M2 M3]]].
    assert (l1 = l0) by congruence. subst l1.
    split.
    + intros [[y [Y1 Y2]]|Y]; [exists y; split; auto; apply in_app_iff; auto|].
      exists g; split; [apply in_app_iff; right; left; auto|]. apply M3, L3; auto.
    + intros [y [Y1 Y2]]. apply in_app_iff in Y1. destruct Y1 as [Y1|[<-|[]]]; [left; eauto|right].
      apply L3, M3; auto.
  - exists l. split; auto. destruct (E2 gs eq_refl (incl_refl _)) as [S1 S2]. split; auto. apply sset_sorted; auto.
Qed.

Lemma ndecode_groups_bad : forall gs, (forall g, In g gs -> group_shape ns g) ->
  (exists g q l k, In g gs /\ In (q, l) g /\ In k l /\ ~ 1 <= k <= w * h) ->
  ndecode (join sep (map (group_text ns) gs)) w h sep nsep = Err ValueError.
Proof.
  intros gs Hg [g [q [l [k [H1 [H2 [H3 H4]]]]]]]. rewrite ndecode_red; auto; [|intros ->; destruct H1].
  apply (foldM_bad _ _ _ (group_text ns g)).
  - intros a t Ht. apply in_map_iff in Ht. destruct Ht as [g' [<- Hin]].
    destruct (group_range_dec (w * h) g') as [R|R].
    + destruct (single_ok w h Hw Hh ns ns_ok g' (Hg g' Hin) R) as [x [-> _]]. cbn [rbind]. eauto.
    + right. rewrite single_bad; auto. apply ns_ok.
  - apply in_map; auto.
  - intros a. rewrite single_bad; auto; [apply ns_ok|]. exists q, l, k; auto.
Qed.
End Decode.
