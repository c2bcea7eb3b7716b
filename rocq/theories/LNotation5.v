(** encode writes groups which describe exactly the given fields; it is canonical. *)
From Verif Require Export LNotation4.
Import PyStr MNotation.

Definition succ1 (l : list Z) : list Z := map (fun k => k + 1) (py_sorted zcmp l).
Definition entry_group (q1 q2 : Z) (nd : list (list Z * zset)) (K : list Z) : group :=
  [(q1, succ1 K); (q2, succ1 (dget_default key_eqb nd K []))].
Definition out_groups (q1 q2 : Z) (nd : list (list Z * zset)) : list group :=
  map (entry_group q1 q2 nd) (py_sorted (list_cmp zcmp) (dkeys nd)).

Lemma in_succ1 : forall l k, In k (succ1 l) <-> In (k - 1) l.
Proof.
  intros l k. unfold succ1. rewrite in_map_iff. pose proof (py_sorted_perm zcmp l) as P. split.
  - intros [x [<- H]]. apply (Permutation_in _ P) in H. replace (x + 1 - 1) with x by lia. auto.
  - intros H. exists (k - 1). split; [lia|]. apply (Permutation_in _ (Permutation_sym P)); auto.
Qed.
Lemma succ1_nonempty : forall l, l <> [] -> succ1 l <> [].
Proof.
  intros [|x l] H; [congruence|]. intros E. assert (X : In (x + 1) (succ1 (x :: l))).
  { apply in_succ1. left; lia. }
  rewrite E in X. destruct X.
Qed.

Lemma dict_to_str_ok : forall q1 q2 nd sep ns, NoDup (dkeys nd) ->
  dict_to_str q1 q2 nd sep ns = Ok (join sep (map (group_text ns) (out_groups q1 q2 nd))).
Proof.
  intros q1 q2 nd sep ns Hn. unfold dict_to_str.
  rewrite (mapM_ok _ (fun K => group_text ns (entry_group q1 q2 nd K))).
  - cbn [rbind]. unfold out_groups. rewrite map_map. reflexivity.
  - intros K HK. apply (Permutation_in _ (py_sorted_perm _ _)) in HK.
    apply (dget_keys _ key_eqb_eq) in HK. destruct HK as [v E]. unfold entry_group, dget_default. rewrite E. cbn [rbind].
    unfold group_text, numbers_str, succ1. cbn [map concat fst snd]. rewrite !map_map, app_nil_r. reflexivity.
Qed.

Lemma in_out_groups : forall q1 q2 nd g, NoDup (dkeys nd) ->
  (In g (out_groups q1 q2 nd) <-> exists K v, In (K, v) nd /\ g = [(q1, succ1 K); (q2, succ1 v)]).
Proof.
  intros q1 q2 nd g Hn. unfold out_groups. rewrite in_map_iff. split.
  - intros [K [<- HK]]. apply (Permutation_in _ (py_sorted_perm _ _)) in HK.
    apply (dget_keys _ key_eqb_eq) in HK. destruct HK as [v E]. exists K, v. split; [apply (dget_In _ key_eqb_eq); auto|].
    unfold entry_group, dget_default. rewrite E. reflexivity.
  - intros [K [v [H ->]]]. exists K. unfold entry_group, dget_default.
    rewrite (proj2 (dget_iff _ key_eqb_eq nd K v Hn) H). split; auto.
    apply (Permutation_in _ (Permutation_sym (py_sorted_perm _ _))). apply in_map_iff. exists (K, v); auto.
Qed.

(** ** Canonical *)
Lemma out_groups_perm : forall q1 q2 nd nd', NoDup (dkeys nd) -> NoDup (dkeys nd') ->
  (forall e, In e nd <-> In e nd') -> out_groups q1 q2 nd = out_groups q1 q2 nd'.
Proof.
  intros q1 q2 nd nd' H1 H2 H. unfold out_groups.
  assert (P : Permutation (dkeys nd) (dkeys nd')).
  { apply Permutation_map. apply NoDup_Permutation; auto; eapply NoDup_map_inv; eauto. }
  rewrite (py_sorted_canonical _ kcmp_good _ _ P). apply map_ext_in. intros K HK.
  unfold entry_group, dget_default.
  apply (Permutation_in _ (py_sorted_perm _ _)) in HK.
  apply (dget_keys _ key_eqb_eq) in HK. destruct HK as [v E]. rewrite E.
  apply (dget_iff _ key_eqb_eq) in E; auto. apply H in E. apply (dget_iff _ key_eqb_eq) in E; auto. rewrite E. reflexivity.
Qed.

Lemma joined_ext : forall nd nd' d d', joined nd d -> joined nd' d' -> (forall e, In e d <-> In e d') ->
  forall e, In e nd <-> In e nd'.
Proof.
  intros nd nd' d d' [_ H1] [_ H2] H [K v]. rewrite H1, H2. split; intros [A [B C]]; splits; auto; intros k; rewrite C, H; tauto.
Qed.

Lemma dict_of_ext : forall d d' ps ps', dict_of d ps -> dict_of d' ps' -> (forall e, In e ps <-> In e ps') ->
  forall e, In e d <-> In e d'.
Proof.
  intros d d' ps ps' [_ H1] [_ H2] H [k v]. rewrite H1, H2. split; intros [A [B C]]; splits; auto; intros c; rewrite C, H; tauto.
Qed.

(** ** The groups describe the pairs *)
Lemma joined_pairs : forall nd d ps, joined nd d -> dict_of d ps -> forall k c,
  (exists K v, In (K, v) nd /\ In k K /\ In c v) <-> In (k, c) ps.
Proof.
  intros nd d ps [_ J] HD k c. split.
  - intros [K [v [H1 [H2 H3]]]]. apply J in H1. destruct H1 as [_ [_ H1]]. apply H1 in H2.
    destruct HD as [_ D]. apply D in H2. apply H2; auto.
  - intros H. pose proof HD as [Dn D]. destruct (dict_of_get d ps k HD) as [G1 G2].
    set (v := dget_default Z.eqb d k []) in *. assert (Iv : In c v) by (apply G2; auto).
    assert (I : In (k, v) d). { apply D. splits; auto. intros E. rewrite E in Iv. destruct Iv. }
    set (K := sof_list zcmp (map fst (filter (fun e => cmp_eqb (list_cmp zcmp) (snd e) v) d))).
    assert (M : forall y, In y K <-> In (y, v) d).
    { intros y. unfold K. rewrite (In_sof_list _ zcmp_good), in_map_iff. split.
      - intros [[a b] [E1 E2]]. apply filter_In in E2. cbn in *. destruct E2 as [E2 E3].
        apply (cmp_eqb_eq _ kcmp_good) in E3. subst; auto.
      - intros Y. exists (y, v). split; auto. apply filter_In. split; auto. cbn. apply (cmp_eqb_eq _ kcmp_good); auto. }
    exists K, v. splits; auto; [|apply M; auto]. apply J. splits; auto.
    + intros E. apply M in I. rewrite E in I. destruct I.
    + apply sof_list_sset, zcmp_good.
Qed.

Section Write.
Variables (w h : Z).
Hypothesis Hw : 1 <= w.
Hypothesis Hh : 1 <= h.

Lemma bp_range : forall p, cell w h p -> 0 <= fst (bp w h p) < w * h /\ 0 <= snd (bp w h p) < w * h.
Proof.
  intros [r c] F. unfold bp. cbn [fst snd]. pose proof (box_at_range w h Hw Hh r c F) as [B _]. unfold MCoord.box_at in B.
  split; [lia|]. pose proof (Z.mod_pos_bound r h ltac:(lia)). pose proof (Z.mod_pos_bound c w ltac:(lia)). nia.
Qed.

Lemma bp_lies : forall p b t, cell w h p ->
  (bp w h p = (b, t) <-> lies w h 98 (b + 1) p /\ lies w h 112 (t + 1) p).
Proof.
  intros [r c] b t F. unfold bp, lies. cbn [fst snd].
  replace (c / w + r - r mod h) with (r / h * h + c / w) by (pose proof (sub_mod r h ltac:(lia)); lia).
  split.
  - intros E. inv E. splits; lia.
  - intros [[_ [_ [A _]]] [_ [_ [_ B]]]]. specialize (A eq_refl). specialize (B eq_refl). f_equal; lia.
Qed.

Lemma bp_inj : forall p q, cell w h p -> cell w h q -> bp w h p = bp w h q -> p = q.
Proof.
  intros [r c] [r' c'] F F' E.
  pose proof (box_at_range w h Hw Hh r c F) as [_ [B1 B2]]. pose proof (box_at_range w h Hw Hh r' c' F') as [_ [B1' B2']].
  unfold bp, MCoord.box_at in *. cbn [fst snd] in *. injection E as E1 E2. rewrite E1 in *.
  pose proof (Z.mod_pos_bound r h ltac:(lia)). pose proof (Z.mod_pos_bound c w ltac:(lia)).
  pose proof (Z.mod_pos_bound r' h ltac:(lia)). pose proof (Z.mod_pos_bound c' w ltac:(lia)).
  assert (M : r mod h = r' mod h /\ c mod w = c' mod w).
  { assert (r mod h = (c mod w + r mod h * w) / w) by (rewrite Z_div_plus_full, Z.div_small by lia; lia).
    assert (r' mod h = (c' mod w + r' mod h * w) / w) by (rewrite Z_div_plus_full, (Z.div_small (c' mod w)) by lia; lia).
    rewrite E2 in *. assert (r mod h = r' mod h) by congruence. rewrite H5 in E2. lia. }
  pose proof (Z.div_mod r h ltac:(lia)). pose proof (Z.div_mod c w ltac:(lia)).
  pose proof (Z.div_mod r' h ltac:(lia)). pose proof (Z.div_mod c' w ltac:(lia)).
  destruct M as [M1 M2]. f_equal; congruence.
Qed.

(** A dictionary whose keys and values are in range. *)
Definition dict_range (ps : list (Z * Z)) : Prop :=
  forall e, In e ps -> 0 <= fst e < w * h /\ 0 <= snd e < w * h.

Lemma entry_range : forall nd d ps, joined nd d -> dict_of d ps -> dict_range ps -> forall K v,
  In (K, v) nd -> K <> [] /\ v <> [] /\ (forall k, In k K -> 0 <= k < w * h) /\ (forall c, In c v -> 0 <= c < w * h).
Proof.
  intros nd d ps HJ HD HR K v H. pose proof (joined_pairs nd d ps HJ HD) as JP.
  pose proof HJ as [_ J]. pose proof HD as [_ D].
  pose proof (proj1 (J K v) H) as [KN [_ KI]].
  assert (VN : v <> []). { destruct K as [|k K]; [congruence|]. apply (D k v). apply KI. left; auto. }
  splits; auto.
  - intros k Hk. destruct v as [|c v]; [congruence|].
    apply (HR (k, c)). apply JP. exists K, (c :: v). splits; auto. left; auto.
  - intros c Hc. destruct K as [|k K]; [congruence|].
    apply (HR (k, c)). apply JP. exists (k :: K), v. splits; auto. left; auto.
Qed.

Lemma out_shape : forall q1 q2 nd d ps nsep, letter q1 -> letter q2 -> q1 <> q2 ->
  joined nd d -> dict_of d ps -> dict_range ps ->
  forall g, In g (out_groups q1 q2 nd) ->
    group_shape (number_separator nsep (w * h)) g /\ group_range (w * h) g.
Proof.
  intros q1 q2 nd d ps nsep L1 L2 Lne HJ HD HR g Hg.
  apply in_out_groups in Hg; [|eapply joined_keys; eauto; apply HD].
  destruct Hg as [K [v [H ->]]]. destruct (entry_range nd d ps HJ HD HR K v H) as [KN [VN [KR VR]]].
  assert (R : group_range (w * h) [(q1, succ1 K); (q2, succ1 v)]).
  { intros q l k [E|[E|[]]] Hk; inv E; apply in_succ1 in Hk; [apply KR in Hk|apply VR in Hk]; lia. }
  split; auto. unfold group_shape. splits; [discriminate| |].
  - cbn [map fst]. constructor; [intros [E|[]]; congruence|repeat constructor; auto].
  - intros q l Hin. splits.
    + destruct Hin as [E|[E|[]]]; inv E; auto.
    + destruct Hin as [E|[E|[]]]; inv E; apply succ1_nonempty; auto.
    + intros k Hk. pose proof (R q l k Hin Hk). split; [lia|]. intros E. unfold number_separator in E.
      destruct nsep; [|discriminate]. destruct (w * h <=? 9) eqn:E9; [b2p; lia|discriminate].
Qed.

Definition rows_groups := out_groups 114 99.
Definition box_groups := out_groups 98 112.

Lemma rows_in : forall nd d cs p, joined nd d -> dict_of d cs -> (forall q, In q cs -> cell w h q) ->
  ((exists g, In g (rows_groups nd) /\ in_group w h g p) <-> In p cs).
Proof.
  intros nd d cs [r c] HJ HD Hc. rewrite <- (joined_pairs nd d cs HJ HD r c). split.
  - intros [g [Hg [Hp HG]]]. apply in_out_groups in Hg; [|eapply joined_keys; eauto; apply HD].
    destruct Hg as [K [v [H ->]]]. exists K, v. split; auto.
    destruct (HG 114 (succ1 K)) as [k [K1 [K2 _]]]; [left; auto|]. destruct (HG 99 (succ1 v)) as [k' [K1' [_ [K2' _]]]]; [right; left; auto|].
    apply in_succ1 in K1. apply in_succ1 in K1'. specialize (K2 eq_refl). specialize (K2' eq_refl). cbn [fst snd] in *.
    subst. auto.
  - intros H. assert (P : In (r, c) cs) by (apply (joined_pairs nd d cs HJ HD); auto).
    destruct H as [K [v [H1 [H2 H3]]]].
    exists [(114, succ1 K); (99, succ1 v)]. split.
    + apply in_out_groups; [eapply joined_keys; eauto; apply HD|eauto].
    + split; [apply Hc; auto|]. intros q l [E|[E|[]]]; inv E.
      * exists (r + 1). split; [apply in_succ1; replace (r + 1 - 1) with r by lia; auto|].
        unfold lies; cbn [fst snd]; splits; lia.
      * exists (c + 1). split; [apply in_succ1; replace (c + 1 - 1) with c by lia; auto|].
        unfold lies; cbn [fst snd]; splits; lia.
Qed.

Lemma boxes_in : forall nd d cs p, joined nd d -> dict_of d (map (bp w h) cs) -> (forall q, In q cs -> cell w h q) ->
  ((exists g, In g (box_groups nd) /\ in_group w h g p) <-> In p cs).
Proof.
  intros nd d cs p HJ HD Hc. pose proof (joined_pairs nd d _ HJ HD) as JP. split.
  - intros [g [Hg [Hp HG]]]. apply in_out_groups in Hg; [|eapply joined_keys; eauto; apply HD].
    destruct Hg as [K [v [H ->]]].
    destruct (HG 98 (succ1 K)) as [k [K1 K2]]; [left; auto|]. destruct (HG 112 (succ1 v)) as [k' [K1' K2']]; [right; left; auto|].
    apply in_succ1 in K1. apply in_succ1 in K1'.
    assert (B : bp w h p = (k - 1, k' - 1)).
    { apply bp_lies; auto. replace (k - 1 + 1) with k by lia. replace (k' - 1 + 1) with k' by lia. auto. }
    assert (I : In (k - 1, k' - 1) (map (bp w h) cs)) by (apply JP; eauto).
    rewrite <- B in I. apply in_map_iff in I. destruct I as [q [E Hq]].
    apply bp_inj in E; auto. subst; auto.
  - intros Hp. assert (I : In (fst (bp w h p), snd (bp w h p)) (map (bp w h) cs)).
    { rewrite <- surjective_pairing. apply in_map; auto. }
    apply JP in I. destruct I as [K [v [H1 [H2 H3]]]].
    exists [(98, succ1 K); (112, succ1 v)]. split.
    + apply in_out_groups; [eapply joined_keys; eauto; apply HD|eauto].
    + split; [apply Hc; auto|].
      destruct (proj1 (bp_lies p _ _ (Hc p Hp)) (surjective_pairing _)) as [B1 B2].
      intros q l [E|[E|[]]]; inv E.
      * exists (fst (bp w h p) + 1). split; auto. apply in_succ1. replace (fst (bp w h p) + 1 - 1) with (fst (bp w h p)) by lia. auto.
      * exists (snd (bp w h p) + 1). split; auto. apply in_succ1. replace (snd (bp w h p) + 1 - 1) with (snd (bp w h p)) by lia. auto.
Qed.

(** What encode computes for valid coordinates. *)
Lemma nencode_red : forall cs ub sep nsep, (forall p, In p cs -> cell w h p) ->
  exists rows boxes rd bd, dict_of rows cs /\ dict_of boxes (map (bp w h) cs) /\ joined rd rows /\ joined bd boxes /\
    let T gs := join sep (map (group_text (number_separator nsep (w * h))) gs) in
    nencode cs w h ub sep nsep =
    Ok (match ub with
        | None => if py_len (T (box_groups bd)) <? py_len (T (rows_groups rd)) then T (box_groups bd) else T (rows_groups rd)
        | Some true => T (box_groups bd)
        | Some false => T (rows_groups rd)
        end).
Proof.
  intros cs ub sep nsep Hc. destruct (collect_ok w h cs Hc) as [rows [boxes [E [D1 D2]]]].
  destruct (join_keys_ok rows (proj1 D1)) as [rd [E1 J1]]. destruct (join_keys_ok boxes (proj1 D2)) as [bd [E2 J2]].
  exists rows, boxes, rd, bd. splits; auto. cbv zeta. unfold nencode.
  replace ((w <? 1) || (h <? 1)) with false by (symmetry; apply orb_false_iff; split; apply Z.ltb_ge; auto).
  rewrite E. cbn [rbind]. rewrite E1, E2. cbn [rbind]. rewrite num_sep_eq.
  rewrite !dict_to_str_ok by (eapply joined_keys; eauto; first [apply D1|apply D2]).
  cbn [rbind]. fold rows_groups box_groups. destruct ub as [[|]|]; auto. destruct (_ <? _); auto.
Qed.
End Write.

(** * C58 *)
Lemma nencode_value_error : forall cs w h ub sep nsep,
  (nencode cs w h ub sep nsep = Err ValueError <-> w < 1 \/ h < 1 \/ exists p, In p cs /\ ~ cell w h p) /\
  ((exists t, nencode cs w h ub sep nsep = Ok t) <-> 1 <= w /\ 1 <= h /\ forall p, In p cs -> cell w h p).
Proof.
  intros cs w h ub sep nsep.
  destruct (Z_lt_le_dec w 1) as [Hw|Hw].
  { assert (E : nencode cs w h ub sep nsep = Err ValueError)
      by (unfold nencode; replace (w <? 1) with true by (symmetry; apply Z.ltb_lt; auto); reflexivity).
    rewrite E. split; split; auto; [intros [t X]; discriminate|lia]. }
  destruct (Z_lt_le_dec h 1) as [Hh|Hh].
  { assert (E : nencode cs w h ub sep nsep = Err ValueError)
      by (unfold nencode; replace (h <? 1) with true by (symmetry; apply Z.ltb_lt; auto); rewrite orb_true_r; reflexivity).
    rewrite E. split; split; auto; [intros [t X]; discriminate|lia]. }
  assert (D : (forall p, In p cs -> cell w h p) \/ exists p, In p cs /\ ~ cell w h p).
  { clear. induction cs as [|p cs IH]; [left; intros p []|].
    assert (Dp : cell w h p \/ ~ cell w h p) by (unfold cell; lia).
    destruct Dp as [Dp|Dp]; [|right; exists p; split; auto; left; auto].
    destruct IH as [IH|[q [H1 H2]]]; [left; intros q [<-|Hq]; auto|right; exists q; split; auto; right; auto]. }
  destruct D as [D|[p [P1 P2]]].
  - destruct (nencode_red w h Hw Hh cs ub sep nsep D) as [rows [boxes [rd [bd [_ [_ [_ [_ E]]]]]]]].
    cbv zeta in E. rewrite E. split; split; try discriminate; eauto.
    intros [X|[X|[p [X1 X2]]]]; try lia. destruct (X2 (D p X1)).
  - assert (E : nencode cs w h ub sep nsep = Err ValueError).
    { unfold nencode.
      replace ((w <? 1) || (h <? 1)) with false by (symmetry; apply orb_false_iff; split; apply Z.ltb_ge; auto).
      rewrite (collect_bad w h cs p) by auto. reflexivity. }
    rewrite E. split; split; auto; [intros _; right; right; eauto|intros [t X]; discriminate|].
    intros [_ [_ X]]. destruct (P2 (X p P1)).
Qed.

(** * C57 *)
Lemma nencode_canonical : forall cs cs' w h ub sep nsep, (forall p, In p cs <-> In p cs') ->
  nencode cs w h ub sep nsep = nencode cs' w h ub sep nsep.
Proof.
  intros cs cs' w h ub sep nsep Hi.
  destruct (nencode_value_error cs w h ub sep nsep) as [V1 V2].
  destruct (nencode_value_error cs' w h ub sep nsep) as [V1' V2'].
  assert (D : (1 <= w /\ 1 <= h /\ forall p, In p cs -> cell w h p) \/
              (w < 1 \/ h < 1 \/ exists p, In p cs /\ ~ cell w h p)).
  { destruct (Z_lt_le_dec w 1); [right; auto|]. destruct (Z_lt_le_dec h 1); [right; auto|].
    clear -l l0. assert (D : (forall p, In p cs -> cell w h p) \/ exists p, In p cs /\ ~ cell w h p); [|tauto].
    induction cs as [|p cs IH]; [left; intros p []|].
    assert (Dp : cell w h p \/ ~ cell w h p) by (unfold cell; lia).
    destruct Dp as [Dp|Dp]; [|right; exists p; split; auto; left; auto].
    destruct IH as [IH|[q [H1 H2]]]; [left; intros q [<-|Hq]; auto|right; exists q; split; auto; right; auto]. }
  destruct D as [[Hw [Hh Hc]]|D].
  - assert (Hc' : forall p, In p cs' -> cell w h p) by (intros p X; apply Hc, Hi; auto).
    destruct (nencode_red w h Hw Hh cs ub sep nsep Hc) as [rows [boxes [rd [bd [D1 [D2 [J1 [J2 E]]]]]]]].
    destruct (nencode_red w h Hw Hh cs' ub sep nsep Hc') as [rows' [boxes' [rd' [bd' [D1' [D2' [J1' [J2' E']]]]]]]].
    cbv zeta in E, E'. rewrite E, E'.
    assert (R : rows_groups rd = rows_groups rd').
    { apply out_groups_perm; [eapply joined_keys; eauto; apply D1|eapply joined_keys; eauto; apply D1'|].
      eapply joined_ext; eauto. eapply dict_of_ext; eauto. }
    assert (B : box_groups bd = box_groups bd').
    { apply out_groups_perm; [eapply joined_keys; eauto; apply D2|eapply joined_keys; eauto; apply D2'|].
      eapply joined_ext; eauto. eapply dict_of_ext; eauto. intros e. rewrite !in_map_iff.
      split; intros [p [P1 P2]]; exists p; split; auto; apply Hi; auto. }
    rewrite R, B. reflexivity.
  - rewrite (proj2 V1 D). symmetry. apply V1'. destruct D as [D|[D|[p [P1 P2]]]]; auto.
    right; right. exists p; split; auto. apply Hi; auto.
Qed.

(** * C56 *)
Lemma notation_groups : forall w h cs ub sep nsep, 1 <= w -> 1 <= h -> cs <> [] ->
  (forall p, In p cs -> cell w h p) ->
  exists gs, gs <> [] /\
    nencode cs w h ub sep nsep = Ok (join sep (map (group_text (number_separator nsep (w * h))) gs)) /\
    (forall g, In g gs -> group_shape (number_separator nsep (w * h)) g /\ group_range (w * h) g) /\
    forall p, In p cs <-> exists g, In g gs /\ in_group w h g p.
Proof.
  intros w h cs ub sep nsep Hw Hh Hn Hc.
  destruct (nencode_red w h Hw Hh cs ub sep nsep Hc) as [rows [boxes [rd [bd [D1 [D2 [J1 [J2 E]]]]]]]].
  cbv zeta in E. rewrite E.
  assert (L : letter 114 /\ letter 99 /\ letter 98 /\ letter 112) by (unfold letter; tauto).
  destruct L as [L1 [L2 [L3 L4]]].
  assert (R1 : dict_range w h cs) by (intros p Hp; apply (Hc p Hp)).
  assert (R2 : dict_range w h (map (bp w h) cs)).
  { intros e He. apply in_map_iff in He. destruct He as [p [<- Hp]]. apply bp_range; auto. }
  assert (G : forall gs, (gs = rows_groups rd \/ gs = box_groups bd) -> gs <> [] /\
    (forall g, In g gs -> group_shape (number_separator nsep (w * h)) g /\ group_range (w * h) g) /\
    forall p, In p cs <-> exists g, In g gs /\ in_group w h g p).
  { intros gs Hgs. assert (A : (forall g, In g gs -> group_shape (number_separator nsep (w * h)) g /\ group_range (w * h) g) /\
      forall p, In p cs <-> exists g, In g gs /\ in_group w h g p).
    { destruct Hgs as [->| ->]; split.
      - apply (out_shape w h 114 99 rd rows cs); auto. lia.
      - intros p. symmetry. apply (rows_in w h rd rows); auto.
      - apply (out_shape w h 98 112 bd boxes (map (bp w h) cs)); auto. lia.
      - intros p. symmetry. apply (boxes_in w h Hw Hh bd boxes); auto. }
    destruct A as [A1 A2]. splits; auto. intros ->. destruct cs as [|p cs']; [congruence|].
    destruct (proj1 (A2 p) (or_introl eq_refl)) as [g [[] _]]. }
  destruct ub as [[|]|]; [exists (box_groups bd)|exists (rows_groups rd)|];
    try (destruct (G _ (or_intror eq_refl)) as [G1 [G2 G3]]; splits; auto; fail);
    try (destruct (G _ (or_introl eq_refl)) as [G1 [G2 G3]]; splits; auto; fail).
  destruct (_ <? _).
  - exists (box_groups bd). destruct (G _ (or_intror eq_refl)) as [G1 [G2 G3]]; splits; auto.
  - exists (rows_groups rd). destruct (G _ (or_introl eq_refl)) as [G1 [G2 G3]]; splits; auto.
Qed.

Lemma notation_roundtrip : forall w h cs ub sep nsep, 1 <= w -> 1 <= h -> separators_ok sep nsep -> cs <> [] ->
  (forall p, In p cs -> cell w h p) ->
  exists t l, nencode cs w h ub sep nsep = Ok t /\ ndecode t w h sep nsep = Ok l /\
    sorted_coords l /\ forall p, In p l <-> In p cs.
Proof.
  intros w h cs ub sep nsep Hw Hh Hs Hn Hc.
  destruct (notation_groups w h cs ub sep nsep Hw Hh Hn Hc) as [gs [G1 [G2 [G3 G4]]]].
  destruct (ndecode_groups w h sep nsep Hw Hh Hs gs G1 G3) as [l [E [S I]]].
  exists (join sep (map (group_text (number_separator nsep (w * h))) gs)), l. splits; auto.
  intros p. rewrite I, G4. tauto.
Qed.
