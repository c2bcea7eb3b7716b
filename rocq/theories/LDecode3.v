(** How one group is read. *)
From Verif Require Export LDecode2.
Import PyStr MNotation.

(** * Letters that occur again *)
Definition rep_ok (qs : list Z) : Prop := forall a q b c, qs = a ++ q :: b ++ q :: c -> b = [].
Lemma rep_snoc : forall qs q c, rep_ok (qs ++ [q; c]) <-> rep_ok (qs ++ [q]) /\ ~ In c qs.
Proof.
  intros qs q c. split.
  - intros H. split.
    + intros a x b r E. apply (H a x b (r ++ [c])).
      replace (qs ++ [q; c]) with ((qs ++ [q]) ++ [c]) by (rewrite <- app_assoc; reflexivity). rewrite E.
      repeat (rewrite <- app_assoc; cbn [app]). reflexivity.
    + intros I. apply in_split in I. destruct I as [a [b ->]].
      specialize (H a c (b ++ [q]) []). rewrite <- !app_assoc in H. cbn [app] in H. rewrite <- ?app_assoc in H. cbn [app] in H. specialize (H eq_refl). destruct b; discriminate.
  - intros [H N] a x b r E.
    replace (qs ++ [q; c]) with ((qs ++ [q]) ++ [c]) in E by (rewrite <- app_assoc; reflexivity).
    destruct r as [|y r _] using rev_ind.
    + replace (a ++ x :: b ++ [x]) with ((a ++ x :: b) ++ [x]) in E by (rewrite <- app_assoc; reflexivity).
      apply app_inj_tail in E. destruct E as [E ->]. destruct b as [|y b _] using rev_ind; auto. exfalso.
      replace (a ++ x :: b ++ [y]) with ((a ++ x :: b) ++ [y]) in E by (rewrite <- app_assoc; reflexivity).
      apply app_inj_tail in E. destruct E as [-> _]. apply N. apply in_app_iff. right; left; auto.
    + replace (a ++ x :: b ++ x :: r ++ [y]) with ((a ++ x :: b ++ x :: r) ++ [y]) in E
        by (rewrite <- app_assoc; cbn [app]; rewrite <- app_assoc; reflexivity).
      apply app_inj_tail in E. destruct E as [E _]. eapply H; eauto.
Qed.
Lemma rep_map : forall ss : group, rep_ok (map fst ss) <-> forall a q l b m c, ss = a ++ (q, l) :: b ++ (q, m) :: c -> b = [].
Proof.
  intros ss. split.
  - intros H a q l b m c ->. rewrite map_app in H. cbn [map fst] in H. rewrite map_app in H. cbn [map fst] in H.
    specialize (H _ _ _ _ eq_refl). destruct b; [auto|discriminate].
  - intros H a q b c E.
    apply map_eq_app in E. destruct E as [sa [s1 [-> [<- E]]]]. apply map_eq_cons in E. destruct E as [[q1 l] [s2 [-> [E1 E]]]]. cbn in E1. subst q1.
    apply map_eq_app in E. destruct E as [sb [s3 [-> [<- E]]]]. apply map_eq_cons in E. destruct E as [[q1 m] [s4 [-> [E1 <-]]]]. cbn in E1. subst q1.
    rewrite (H sa q l sb m s4 eq_refl). reflexivity.
Qed.

Section Group.
Variable ns : pystr.
Hypothesis Hns : forall c, In c ns -> ~ letter c /\ ~ digit c.
Hypothesis Hp : plain_separator ns.

(** * The loop *)
Definition all0 : list (Z * list Z) := d_all dstate0.
(** Sections [past] read completely, then the letter [q] and the characters [t] *)
Definition reading (g : pystr) (past : group) (q : Z) (t : pystr) : Prop :=
  (exists ts, g = concat ts ++ q :: t /\ Forall2 (fun x s => exists u, x = fst s :: u /\ written ns u (snd s)) ts past) /\
  (forall q' l, In (q', l) past -> letter q' /\ l <> []) /\ letter q /\ rep_ok (map fst past ++ [q]) /\
  (forall c, In c t -> digit c \/ In c ns).

Lemma letter_q : forall c, letter c <-> char_in c QUALIFIERS = true.
Proof. intros c. split; apply letter_qual. Qed.
Lemma in_fst : forall (ss : group) c, In c (map fst ss) -> exists l, In (c, l) ss.
Proof. intros ss c I. apply in_map_iff in I. destruct I as [[q l] [<- I]]. eauto. Qed.

Lemma record_snoc : forall past q l all, record_all (past ++ [(q, l)]) all = dset Z.eqb (record_all past all) q (map pred l).
Proof. intros past q l all. unfold record_all. rewrite fold_left_app. reflexivity. Qed.

Lemma run_reading : forall g d, foldM (decode_char ns) g dstate0 = Ok d -> g = [] /\ d = dstate0 \/
  exists past q t, reading g past q t /\ d = mk_dstate (record_all past all0) (Some q) (map fst past) t.
Proof.
  induction g as [|c g IH] using rev_ind; intros d E; [cbn in E; injection E as <-; auto|].
  rewrite foldM_app in E. destruct (foldM (decode_char ns) g dstate0) as [d0|e] eqn:F; cbn [rbind] in E; [|discriminate].
  cbn [foldM] in E. destruct (decode_char ns d0 c) as [d1|e] eqn:D; cbn [rbind] in E; [|discriminate]. injection E as <-. right.
  destruct (IH d0 eq_refl) as [[-> ->]|[past [q [t [[[ts [Eg Ft]] [P [Q [R T]]]] ->]]]]].
  - unfold decode_char in D. cbn [d_present d_current dstate0 char_in existsb] in D.
    destruct (char_in c QUALIFIERS) eqn:C.
    + injection D as <-. exists [], c, []. split; [|reflexivity]. split; [exists []; split; auto|]. splits; auto.
      * intros q l [].
      * apply letter_q; auto.
      * intros a q b r E. destruct a as [|x [|y a]]; try discriminate. destruct b; discriminate.
      * intros x [].
    + destruct (is_digit c || char_in c ns); discriminate.
  - unfold decode_char in D. cbn [d_present d_current d_all d_number_str] in D.
    destruct (char_in c (map fst past)) eqn:N; [discriminate|]. destruct (char_in c QUALIFIERS) eqn:C.
    + destruct (parse_numbers ns t) as [l|e] eqn:Pn; cbn [rbind] in D; [|discriminate].
      apply (parse_iff ns Hns Hp t l T) in Pn. destruct Pn as [ks [W ->]].
      destruct ks as [|k ks]; [discriminate|]. cbn [map] in D. injection D as <-.
      exists (past ++ [(q, k :: ks)]), c, []. split; [|rewrite record_snoc, map_app; reflexivity].
      split; [exists (ts ++ [q :: t]); split|splits].
      * rewrite concat_app, Eg. cbn [concat]. rewrite app_nil_r, <- !app_assoc. reflexivity.
      * apply Forall2_app; auto. constructor; [|constructor]. exists t. auto.
      * intros q' l' I. apply in_app_iff in I. destruct I as [I|[I|[]]]; auto. injection I as <- <-. split; auto. discriminate.
      * apply letter_q; auto.
      * rewrite map_app. cbn [map fst]. rewrite <- app_assoc. cbn [app]. apply rep_snoc. split; auto. intros I. apply char_in_iff in I. congruence.
      * intros x [].
    + destruct (is_digit c || char_in c ns) eqn:X; [|discriminate]. injection D as <-.
      exists past, q, (t ++ [c]). split; [|reflexivity]. split; [exists ts; split; auto|splits; auto].
      * rewrite Eg, <- app_assoc. reflexivity.
      * intros x I. apply in_app_iff in I. destruct I as [I|[<-|[]]]; auto. apply orb_true_iff in X.
        destruct X as [X|X]; [left; apply digit_is; auto|right; apply char_in_iff; auto].
Qed.

Lemma reading_run : forall past g q t, reading g past q t ->
  foldM (decode_char ns) g dstate0 = Ok (mk_dstate (record_all past all0) (Some q) (map fst past) t).
Proof.
  induction past as [|[q1 l1] past IH] using rev_ind; intros g q t [[ts [Eg Ft]] [P [Q [R T]]]].
  - inversion Ft; subst ts. subst g. cbn [concat app foldM].
    assert (D : decode_char ns dstate0 q = Ok (mk_dstate all0 (Some q) [] [])).
    { unfold decode_char. cbn [d_present d_current dstate0 char_in existsb]. rewrite (proj1 (letter_q q) Q). reflexivity. }
    rewrite D. cbn [rbind]. rewrite loop_chars; [reflexivity| |intros c []].
    intros c I. specialize (T c I). split; auto. destruct T as [T|T]; [|apply Hns; auto]. intros L. apply letter_not_digit in L. auto.
  - apply Forall2_app_inv_r in Ft. destruct Ft as [ts1 [ts2 [F1 [F2 ->]]]].
    inversion F2 as [|x y ts3 z [u [Ex W]] F3]; subst. inversion F3; subst. cbn [fst snd] in *.
    rewrite map_app in R. cbn [map fst] in R. rewrite <- app_assoc in R. cbn [app] in R. apply rep_snoc in R. destruct R as [R N].
    destruct (P q1 l1) as [Q1 L1]; [apply in_app_iff; right; left; auto|].
    assert (X : reading (concat ts1 ++ q1 :: u) past q1 u).
    { split; [exists ts1; auto|]. splits; auto.
      - intros; apply P. apply in_app_iff; auto.
      - intros c I. apply (written_chars ns Hns u l1 c W I). }
    apply IH in X. rewrite concat_app. cbn [concat]. rewrite app_nil_r, foldM_app, X. cbn [rbind foldM].
    assert (D : decode_char ns (mk_dstate (record_all past all0) (Some q1) (map fst past) u) q =
      Ok (mk_dstate (record_all (past ++ [(q1, l1)]) all0) (Some q) (map fst (past ++ [(q1, l1)])) [])).
    { unfold decode_char. cbn [d_present d_current d_all d_number_str].
      destruct (char_in q (map fst past)) eqn:C; [exfalso; apply N; apply char_in_iff; auto|]. rewrite (proj1 (letter_q q) Q).
      assert (Y : parse_numbers ns u = Ok (map pred l1)).
      { apply parse_iff; eauto. intros c I. apply (written_chars ns Hns u l1 c W I). }
      rewrite Y. cbn [rbind]. destruct l1 as [|k l1]; [congruence|]. cbn [map]. rewrite record_snoc, map_app. reflexivity. }
    rewrite D. cbn [rbind]. rewrite loop_chars; [reflexivity| |].
    + intros c I. specialize (T c I). split; auto. destruct T as [T|T]; [|apply Hns; auto]. intros L. apply letter_not_digit in L. auto.
    + intros c I. apply in_fst in I. destruct I as [l I]. apply (P c l I).
Qed.

Lemma reading_formed : forall g ss, well_formed ns g ss <->
  exists past q t ks, reading g past q t /\ written ns t ks /\ ss = past ++ [(q, ks)].
Proof.
  intros g ss. split.
  - intros [[N [L [ts [-> F]]]] [E R]]. destruct ss as [|[q ks] past _] using rev_ind; [congruence|].
    apply Forall2_app_inv_r in F. destruct F as [ts1 [ts2 [F1 [F2 ->]]]].
    inversion F2 as [|x y ts3 z [u [Ex W]] F3]; subst. inversion F3; subst. cbn [fst snd] in *.
    exists past, q, u, ks. splits; auto. split; [exists ts1; split; auto; rewrite concat_app; cbn [concat]; rewrite app_nil_r; reflexivity|]. splits.
    + intros q' l I. split; [apply (L q' l); apply in_app_iff; auto|]. intros ->. apply in_split in I. destruct I as [a [b ->]].
      specialize (E a q' (b ++ [(q, ks)])). rewrite <- app_assoc in E. cbn [app] in E. specialize (E eq_refl). destruct b; discriminate.
    + apply (L q ks). apply in_app_iff. right; left; auto.
    + rewrite <- rep_map, map_app in R. exact R.
    + intros c I. apply (written_chars ns Hns u ks c W I).
  - intros [past [q [t [ks [[[ts [-> F]] [P [Q [R T]]]] [W ->]]]]]]. split; [|split].
    + split; [intros X; apply app_eq_nil in X; destruct X; discriminate|]. split.
      * intros q' l I. apply in_app_iff in I. destruct I as [I|[I|[]]]; [apply (P q' l I)|]. injection I as <- <-. auto.
      * exists (ts ++ [q :: t]). split; [rewrite concat_app; cbn [concat]; rewrite app_nil_r; reflexivity|].
        apply Forall2_app; auto. constructor; [|constructor]. exists t. auto.
    + intros a x b E. destruct b as [|y b _] using rev_ind; auto. exfalso.
      replace (a ++ (x, []) :: b ++ [y]) with ((a ++ (x, []) :: b) ++ [y]) in E by (rewrite <- app_assoc; reflexivity).
      apply app_inj_tail in E. destruct E as [-> _]. destruct (P x []) as [_ X]; [apply in_app_iff; right; left; auto|]. congruence.
    + apply rep_map. rewrite map_app. exact R.
Qed.

Lemma formed_letters : forall g ss q l, well_formed ns g ss -> In (q, l) ss -> letter q.
Proof. intros g ss q l [[_ [L _]] _]. apply L. Qed.
Lemma table_all : forall ss, (forall q l, In (q, l) ss -> letter q) -> record_all ss all0 = table (numbers_of ss).
Proof. intros ss L. change all0 with (table (fun _ => [])). apply record_table; auto. Qed.

Lemma formed_single : forall g ss w h, well_formed ns g ss -> decode_single g w h ns =
  let* sets := build_sets w h (table (numbers_of ss)) in
  match sets with [] => Err TypeError | s :: t => Ok (fold_left (sinter coord_cmp) t s) end.
Proof.
  intros g ss w h W. rewrite <- table_all by (intros q l; apply (formed_letters g); auto).
  apply reading_formed in W. destruct W as [past [q [t [ks [R [W ->]]]]]]. rewrite single_unfold.
  rewrite (reading_run past g q t R). cbn [rbind]. unfold finish. cbn [d_current d_all d_number_str].
  rewrite (proj2 (parse_iff ns Hns Hp t (map pred ks) ltac:(intros c I; apply (written_chars ns Hns t ks c W I)))) by eauto.
  cbn [rbind]. rewrite record_snoc. reflexivity.
Qed.
Lemma single_formed : forall g w h, decode_single g w h ns <> Err ValueError -> exists ss, well_formed ns g ss.
Proof.
  intros g w h H. rewrite single_unfold in H. destruct (foldM (decode_char ns) g dstate0) as [d|e] eqn:E.
  - destruct (run_reading g d E) as [[-> ->]|[past [q [t [R ->]]]]].
    + exfalso. apply H. reflexivity.
    + cbn [rbind] in H. unfold finish in H. cbn [d_current d_all d_number_str] in H.
      destruct (parse_numbers ns t) as [l|e] eqn:P.
      * apply (parse_iff ns Hns Hp t l) in P; [|apply R]. destruct P as [ks [W ->]]. exists (past ++ [(q, ks)]).
        apply reading_formed. exists past, q, t, ks. auto.
      * exfalso. apply H. destruct (parse_ok_value ns t) as [[x X]|X]; rewrite X in P; [discriminate|]. injection P as <-. reflexivity.
  - exfalso. apply H. destruct (ok_value_foldM (decode_char ns) g dstate0 (char_ok_value ns)) as [[x X]|X]; rewrite X in E; [discriminate|].
    injection E as <-. reflexivity.
Qed.
Definition head_letter (s : pystr) : Prop := s = [] \/ exists q t, s = q :: t /\ letter q.
Lemma cut_letter : forall u s u' s', (forall c, In c u -> ~ letter c) -> (forall c, In c u' -> ~ letter c) -> head_letter s -> head_letter s' ->
  u ++ s = u' ++ s' -> u = u' /\ s = s'.
Proof.
  induction u as [|c u IH]; intros s u' s' A B C D E.
  - destruct u' as [|c' u']; [auto|]. exfalso. cbn [app] in E. destruct C as [->|[q [t [-> L]]]]; [discriminate|].
    injection E as -> _. apply (B c'); [left; auto|auto].
  - destruct u' as [|c' u'].
    + exfalso. cbn [app] in E. destruct D as [->|[q [t [-> L]]]]; [discriminate|]. injection E as <- _. apply (A c); [left; auto|auto].
    + cbn [app] in E. injection E as -> E. destruct (IH s u' s') as [-> ->]; auto.
      * intros x I; apply A; right; auto.
      * intros x I; apply B; right; auto.
Qed.
Lemma sections_unique : forall ss ts ss' ts', (forall q l, In (q, l) ss -> letter q) -> (forall q l, In (q, l) ss' -> letter q) ->
  Forall2 (fun t s => exists u, t = fst s :: u /\ written ns u (snd s)) ts ss ->
  Forall2 (fun t s => exists u, t = fst s :: u /\ written ns u (snd s)) ts' ss' -> concat ts = concat ts' -> ss = ss'.
Proof.
  assert (HL : forall ss ts, (forall q l, In (q, l) ss -> letter q) ->
    Forall2 (fun t s => exists u, t = fst s :: u /\ written ns u (snd s)) ts ss -> head_letter (concat ts)).
  { intros ss ts L F. inversion F as [|t [q l] ts1 ss1 [u [-> W]] F1]; subst; [left; auto|]. right. cbn [concat fst app]. eexists _, _. split; [reflexivity|].
    apply (L q l). left; auto. }
  induction ss as [|[q l] ss IH]; intros ts ss' ts' L L' F F' E.
  - inversion F; subst. inversion F' as [|t [q l] ts1 ss1 [u [-> W]] F1]; subst; auto. discriminate.
  - inversion F as [|t y ts1 ss1 [u [-> W]] F1]; subst. inversion F' as [|t' [q' l'] ts1' ss1' [u' [-> W']] F1']; subst; [discriminate|].
    cbn [concat fst snd app] in *. injection E as <- E.
    destruct (cut_letter u (concat ts1) u' (concat ts1')) as [-> E2]; auto.
    + intros c I. apply (written_chars ns Hns u l c W I).
    + intros c I. apply (written_chars ns Hns u' l' c W' I).
    + apply (HL ss); auto. intros; eapply L; right; eauto.
    + apply (HL ss1'); auto. intros; eapply L'; right; eauto.
    + rewrite (written_unique ns Hns Hp u' l l' W W'). f_equal. apply (IH ts1 ss1' ts1'); auto.
      * intros; eapply L; right; eauto.
      * intros; eapply L'; right; eauto.
Qed.
Lemma formed_unique : forall g ss ss', well_formed ns g ss -> well_formed ns g ss' -> ss = ss'.
Proof.
  intros g ss ss' [[_ [L [ts [E F]]]] _] [[_ [L' [ts' [E' F']]]] _]. apply (sections_unique ss ts ss' ts'); auto. congruence.
Qed.

(** * The numbers that count *)
Lemma numbers_snoc : forall ss q l x, numbers_of (ss ++ [(q, l)]) x = if x =? q then map pred l else numbers_of ss x.
Proof. intros ss q l x. unfold numbers_of. rewrite fold_left_app. reflexivity. Qed.
Lemma counts_snoc : forall ss q l x m, counts (ss ++ [(q, l)]) x m <-> (x = q /\ m = l /\ l <> []) \/ (x <> q /\ counts ss x m).
Proof.
  intros ss q l x m. unfold counts. split.
  - intros [N [a [c [E C]]]]. destruct c as [|[q2 l2] c _] using rev_ind.
    + apply app_inj_tail in E. destruct E as [-> E]. injection E as <- <-. left; auto.
    + replace (a ++ (x, m) :: c ++ [(q2, l2)]) with ((a ++ (x, m) :: c) ++ [(q2, l2)]) in E by (rewrite <- app_assoc; reflexivity).
      apply app_inj_tail in E. destruct E as [-> E]. injection E as <- <-. rewrite map_app, in_app_iff in C. cbn [map fst In] in C. right. split.
      * intros ->. apply C. auto.
      * split; auto. exists a, c. split; auto.
  - intros [[-> [-> N]]|[N [M [a [c [-> C]]]]]].
    + split; auto. exists ss, []. split; auto.
    + split; auto. exists a, (c ++ [(q, l)]). split; [rewrite <- app_assoc; reflexivity|]. rewrite map_app, in_app_iff. cbn [map fst In]. intuition congruence.
Qed.
Lemma counts_numbers : forall ss q l, counts ss q l -> numbers_of ss q = map pred l.
Proof.
  induction ss as [|[q1 l1] ss IH] using rev_ind; intros q l C.
  - destruct C as [_ [a [c [E _]]]]. destruct a; discriminate.
  - rewrite numbers_snoc. apply counts_snoc in C. destruct C as [[-> [-> N]]|[N C]].
    + rewrite Z.eqb_refl. auto.
    + replace (q =? q1) with false by (symmetry; apply Z.eqb_neq; auto). auto.
Qed.
Lemma numbers_counts : forall ss q, numbers_of ss q <> [] -> exists l, counts ss q l.
Proof.
  induction ss as [|[q1 l1] ss IH] using rev_ind; intros q N; [cbn in N; congruence|].
  rewrite numbers_snoc in N. destruct (q =? q1) eqn:E.
  - apply Z.eqb_eq in E. subst q1. exists l1. apply counts_snoc. left. splits; auto. intros ->. apply N; auto.
  - apply Z.eqb_neq in E. destruct (IH q N) as [l C]. exists l. apply counts_snoc. right; auto.
Qed.
Lemma counts_letter : forall g ss q l, well_formed ns g ss -> counts ss q l -> letter q.
Proof. intros g ss q l W [_ [a [c [-> _]]]]. apply (formed_letters g _ q l W). apply in_app_iff. right; left; auto. Qed.
Lemma counts_nonempty : forall ss q l, counts ss q l -> numbers_of ss q <> [].
Proof. intros ss q l C. rewrite (counts_numbers ss q l C). destruct C as [N _]. destruct l; [congruence|discriminate]. Qed.

Variables w h : Z.
Hypothesis Hw : 1 <= w.
Hypothesis Hh : 1 <= h.

Lemma sets_ok : forall ss, counts_range (w * h) ss -> exists sets, build_sets w h (table (numbers_of ss)) = Ok sets /\
  forall s, In s sets <-> exists q, letter q /\ numbers_of ss q <> [] /\ s = set_of w h q (numbers_of ss q).
Proof.
  intros ss R.
  unfold build_sets.
  rewrite (mapM_ok _ (fun kv => match snd kv with [] => [] | _ => [set_of w h (fst kv) (snd kv)] end)).
  2:{ intros [q l] H. unfold table in H. apply in_map_iff in H. destruct H as [q' [E H]]. injection E as -> <-.
      cbn [fst snd]. change (piece w h (q, numbers_of ss q) = Ok (match numbers_of ss q with [] => [] | _ :: _ => [set_of w h q (numbers_of ss q)] end)).
      unfold piece. cbn [fst snd]. assert (Lq : letter q) by (apply letter_qual, char_in_iff; auto).
      destruct (one_set_ok w h Hw Hh q (numbers_of ss q) Lq) as [s [E [E2 E3]]].
      { intros n I. destruct (numbers_counts ss q) as [l C]; [intros X; rewrite X in I; destruct I|].
        rewrite (counts_numbers ss q l C) in I. apply in_map_iff in I. destruct I as [k [<- I]]. pose proof (R q l k C I). unfold pred. lia. }
      unfold set_of. rewrite E. reflexivity. }
  cbn [rbind]. eexists. split; [reflexivity|].
  intros s. rewrite in_concat. split.
    - intros [x [Hx Hin]]. unfold table in Hx. rewrite map_map in Hx. apply in_map_iff in Hx. destruct Hx as [q [<- Hq]].
      cbn [fst snd] in Hin. exists q. split; [apply letter_qual, char_in_iff; auto|].
      destruct (numbers_of ss q); [destruct Hin|]. destruct Hin as [<-|[]]. split; auto. discriminate.
    - intros [q [Hq [Hn ->]]]. eexists; split.
      + unfold table. rewrite map_map. apply in_map_iff. exists q. split; [reflexivity|]. apply char_in_iff, letter_qual; auto.
      + cbn [fst snd]. destruct (numbers_of ss q); [congruence|]. left; auto.
Qed.
Lemma set_of_ok : forall ss q, counts_range (w * h) ss -> letter q -> sset coord_cmp (set_of w h q (numbers_of ss q)) /\
  forall p, In p (set_of w h q (numbers_of ss q)) <-> exists n, In n (numbers_of ss q) /\ cell w h p /\ lies w h q (n + 1) p.
Proof.
  intros ss q R Lq. destruct (one_set_ok w h Hw Hh q (numbers_of ss q) Lq) as [s [E [E2 E3]]].
  { intros n I. destruct (numbers_counts ss q) as [l C]; [intros X; rewrite X in I; destruct I|].
    rewrite (counts_numbers ss q l C) in I. apply in_map_iff in I. destruct I as [k [<- I]]. pose proof (R q l k C I). unfold pred. lia. }
  unfold set_of. rewrite E. auto.
Qed.

Lemma single_accepted : forall g ss, accepted ns (w * h) g ss -> exists l, decode_single g w h ns = Ok l /\ sset coord_cmp l /\
  forall p, In p l <-> described w h ss p.
Proof.
  intros g ss [W [R [q0 [l0 C0]]]]. rewrite (formed_single g ss w h W). destruct (sets_ok ss R) as [sets [-> M]]. cbn [rbind].
  pose proof (counts_letter g ss q0 l0 W C0) as L0.
  assert (X0 : In (set_of w h q0 (numbers_of ss q0)) sets).
  { apply M. exists q0. splits; auto. eapply counts_nonempty; eauto. }
  destruct sets as [|s t]; [destruct X0|]. eexists; split; [reflexivity|]. split.
  - apply fold_inter_sset. destruct (proj1 (M s) (or_introl eq_refl)) as [q [Hq [_ ->]]]. apply set_of_ok; auto.
  - intros p. rewrite in_fold_inter.
    assert (A : (In p s /\ forall x, In x t -> In p x) <-> forall x, In x (s :: t) -> In p x).
    { split; [intros [A B] x [<-|I]; auto|]. intros A. split; [apply A; left; auto|]. intros x I; apply A; right; auto. }
    rewrite A. clear A. unfold described. split.
    + intros A.
      assert (B : forall q l, counts ss q l -> exists k, In k l /\ cell w h p /\ lies w h q k p).
      { intros q l C. pose proof (counts_letter g ss q l W C) as Lq. destruct (set_of_ok ss q R Lq) as [_ Y].
        pose proof (A (set_of w h q (numbers_of ss q))) as Z. rewrite Y in Z. destruct Z as [n [Z1 [Z2 Z3]]].
        { apply M. exists q. splits; auto. eapply counts_nonempty; eauto. }
        rewrite (counts_numbers ss q l C) in Z1. apply in_map_iff in Z1. destruct Z1 as [k [<- Hk]].
        exists k; splits; auto. replace k with (pred k + 1) by (unfold pred; lia). auto. }
      split; [destruct (B q0 l0 C0) as [k [_ [X _]]]; auto|]. intros q l C. destruct (B q l C) as [k [K1 [_ K2]]]. eauto.
    + intros [Hc HB] x I. apply M in I. destruct I as [q [Lq [Nq ->]]]. apply (set_of_ok ss q R Lq).
      destruct (numbers_counts ss q Nq) as [l C]. destruct (HB q l C) as [k [K1 K2]]. exists (pred k). splits; auto.
      * rewrite (counts_numbers ss q l C). apply in_map; auto.
      * replace (pred k + 1) with k by (unfold pred; lia). auto.
Qed.
Lemma single_out_of_range : forall g ss, well_formed ns g ss -> ~ counts_range (w * h) ss -> decode_single g w h ns = Err ValueError.
Proof.
  intros g ss W R. destruct (sets_ok_value w h (table (numbers_of ss))) as [[sets E]|E]; [|rewrite (formed_single g ss w h W), E; reflexivity].
  exfalso. apply R. intros q l k C I. destruct (Z_le_gt_dec 1 k) as [K1|K1]; [destruct (Z_le_gt_dec k (w * h)) as [K2|K2]; [auto|]|]; exfalso.
  all: assert (X : build_sets w h (table (numbers_of ss)) = Err ValueError); [|congruence].
  all: unfold build_sets; rewrite (mapM_bad _ _ (q, numbers_of ss q)); auto.
  all: try (unfold table; apply in_map_iff; exists q; split; auto; apply char_in_iff, letter_qual; apply (counts_letter g ss q l W C)).
  all: try (intros [q' l'] _; change (((exists b, piece w h (q', l') = Ok b) \/ piece w h (q', l') = Err ValueError));
    unfold piece; cbn [fst snd]; destruct (one_set_cases w h q' l') as [[s ->]| ->]; cbn [rbind]; eauto; fail).
  all: change (piece w h (q, numbers_of ss q) = Err ValueError); unfold piece; cbn [fst snd];
    rewrite (one_set_bad w h q _ (pred k)); auto; [rewrite (counts_numbers ss q l C); apply in_map; auto|unfold pred; lia].
Qed.
Lemma single_nothing : forall g ss, well_formed ns g ss -> (forall q l, ~ counts ss q l) -> decode_single g w h ns = Err TypeError.
Proof.
  intros g ss W N. rewrite (formed_single g ss w h W). destruct (sets_ok ss) as [sets [-> M]]; [intros q l k C; destruct (N q l C)|].
  cbn [rbind]. destruct sets as [|s t]; auto. exfalso. destruct (proj1 (M s) (or_introl eq_refl)) as [q [_ [X _]]].
  destruct (numbers_counts ss q X) as [l C]. apply (N q l C).
Qed.
Lemma counts_dec : forall ss, (exists q l, counts ss q l) \/ forall q l, ~ counts ss q l.
Proof.
  intros ss. destruct (existsb (fun q => negb (match numbers_of ss q with [] => true | _ => false end)) (map fst ss)) eqn:E.
  - left. apply existsb_exists in E. destruct E as [q [_ E]]. exists q. apply numbers_counts. intros X. rewrite X in E. discriminate.
  - right. intros q l C. assert (X : existsb (fun q => negb (match numbers_of ss q with [] => true | _ => false end)) (map fst ss) = true); [|congruence].
    apply existsb_exists. exists q. split.
    + destruct C as [_ [a [c [-> _]]]]. rewrite map_app, in_app_iff. right; left; auto.
    + apply counts_nonempty in C. destruct (numbers_of ss q); [congruence|reflexivity].
Qed.
Lemma single_ok_iff : forall g l, decode_single g w h ns = Ok l ->
  exists ss, accepted ns (w * h) g ss /\ sset coord_cmp l /\ forall p, In p l <-> described w h ss p.
Proof.
  intros g l E. destruct (single_formed g w h) as [ss W]; [rewrite E; discriminate|]. exists ss.
  assert (R : counts_range (w * h) ss).
  { intros q m k C I. destruct (Z_le_gt_dec 1 k) as [K1|K1]; [destruct (Z_le_gt_dec k (w * h)) as [K2|K2]; [auto|]|]; exfalso.
    all: rewrite (single_out_of_range g ss W) in E; [discriminate|]; intros R; specialize (R q m k C I); lia. }
  assert (A : accepted ns (w * h) g ss).
  { split; [exact W|split; [exact R|]]. destruct (counts_dec ss) as [X|X]; [exact X|]. rewrite (single_nothing g ss W X) in E. discriminate. }
  split; auto. destruct (single_accepted g ss A) as [l' [E' X]]. rewrite E in E'. injection E' as <-. auto.
Qed.

Lemma written_none : forall t, written ns t [] -> ns = [] /\ t = [].
Proof.
  intros t [ps [-> [E [_ N]]]]. destruct ps; [|discriminate]. split; auto. destruct ns; auto. exfalso. apply N; [discriminate|auto].
Qed.
Lemma numberless_formed : forall g, numberless ns g <-> exists ss, well_formed ns g ss /\ forall q l, ~ counts ss q l.
Proof.
  intros g. split.
  - intros [En [q [Lq [->|[ds [D ->]]]]]].
    + exists [(q, [])]. split.
      * apply reading_formed. exists [], q, [], []. splits; auto.
        -- split; [exists []; split; auto|]. splits; auto.
           ++ intros x l [].
           ++ intros a x b r E. destruct a as [|y [|z a]]; try discriminate. destruct b; discriminate.
           ++ intros c [].
        -- exists []. splits; auto. intros x [].
      * intros x l C. apply (counts_snoc [] q [] x l) in C. destruct C as [[_ [_ C]]|[_ [_ [a [c [E _]]]]]]; [congruence|]. destruct a; discriminate.
    + assert (W : exists k ks, written ns ds (k :: ks)).
      { destruct D as [N D]. destruct ds as [|d ds]; [congruence|]. exists (value_of [d]), (map value_of (map (fun c => [c]) ds)).
        exists (map (fun c => [c]) (d :: ds)). splits; auto.
        - rewrite En, join_nil. clear. induction (d :: ds) as [|c t IH]; cbn [map concat app]; [|rewrite <- IH]; auto.
        - intros x I. apply in_map_iff in I. destruct I as [c [<- I]]. split; auto. split; [discriminate|]. intros y [<-|[]]. auto. }
      destruct W as [k [ks W]]. exists ([(q, k :: ks)] ++ [(q, [])]). split.
      * apply reading_formed. exists [(q, k :: ks)], q, [], []. splits; auto.
        -- split; [exists [q :: ds]; split|splits; auto].
           ++ cbn [concat app]. rewrite app_nil_r. reflexivity.
           ++ constructor; [|constructor]. exists ds. auto.
           ++ intros x l [I|[]]. injection I as <- <-. split; auto. discriminate.
           ++ intros a x b r E. destruct b as [|y b]; auto. exfalso. apply (f_equal (@length _)) in E. cbn in E.
              repeat (rewrite app_length in E; cbn in E). lia.
           ++ intros c [].
        -- exists []. splits; auto. intros x [].
      * intros x l C. apply counts_snoc in C. destruct C as [[_ [_ C]]|[N C]]; [congruence|].
        apply (counts_snoc [] q (k :: ks) x l) in C. destruct C as [[-> _]|[_ [_ [a [c [E _]]]]]]; [congruence|]. destruct a; discriminate.
  - intros [ss [W N]]. apply reading_formed in W. destruct W as [past [q [t [ks [R [W ->]]]]]].
    destruct ks as [|k ks]; [|exfalso; apply (N q (k :: ks)); apply counts_snoc; left; splits; auto; discriminate].
    destruct (written_none t W) as [En ->]. split; auto. exists q. destruct R as [[ts [-> F]] [P [Q [R _]]]]. split; auto.
    destruct past as [|[q1 l1] past _] using rev_ind; [left; inversion F; reflexivity|]. right.
    destruct (P q1 l1) as [Q1 L1]; [apply in_app_iff; right; left; auto|].
    assert (E1 : q1 = q).
    { destruct (Z.eq_dec q1 q) as [X|X]; auto. exfalso. apply (N q1 l1). apply counts_snoc. right. split; auto. apply counts_snoc. left; auto. }
    subst q1. destruct past as [|[q2 l2] past _] using rev_ind.
    + inversion F as [|x y ts1 z [u [-> Wu]] F1]; subst. inversion F1; subst. cbn [fst snd concat] in *. exists u. split.
      * destruct Wu as [ps [Eu [-> [D _]]]]. split.
        -- intros ->. destruct ps as [|p ps]; [apply L1; reflexivity|]. destruct (D p (or_introl eq_refl)) as [[X _] _].
           destruct (join_head [] p ps) as [r Y]. pose proof (eq_trans Eu Y) as V. destruct p; [congruence|discriminate].
        -- intros c I. rewrite Eu in I. apply in_join in I. destruct I as [I|[x [I J]]]; [destruct I|]. apply (D x I); auto.
      * rewrite app_nil_r. reflexivity.
    + exfalso. assert (X : q2 <> q).
      { intros ->. specialize (R (map fst past) q [q] []). rewrite !map_app in R. cbn [map fst] in R. rewrite <- !app_assoc in R. specialize (R eq_refl). discriminate. }
      apply (N q2 l2). apply counts_snoc. right. split; auto. apply counts_snoc. right. split; auto. apply counts_snoc. left. splits; auto.
      apply (P q2 l2). apply in_app_iff. left. apply in_app_iff. right; left; auto.
Qed.
Lemma single_type_error : forall g, decode_single g w h ns = Err TypeError <-> numberless ns g.
Proof.
  intros g. rewrite numberless_formed. split.
  - intros E. destruct (single_formed g w h) as [ss W]; [rewrite E; discriminate|]. exists ss. split; auto.
    intros q l C. assert (X : forall q l k, counts ss q l -> In k l -> 1 <= k <= w * h).
    { intros q' m k C' I. destruct (Z_le_gt_dec 1 k) as [K1|K1]; [destruct (Z_le_gt_dec k (w * h)) as [K2|K2]; [auto|]|]; exfalso.
      all: rewrite (single_out_of_range g ss W) in E; [discriminate|]; intros R; specialize (R q' m k C' I); lia. }
    destruct (single_accepted g ss) as [x [Y _]]; [split; [exact W|split; [exact X|exists q, l; exact C]]|]. congruence.
  - intros [ss [W N]]. apply (single_nothing g ss W N).
Qed.
End Group.
