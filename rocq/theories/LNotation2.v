(** Reading one group. *)
From Verif Require Export LNotation.
Import PyStr MNotation.

Lemma str_nonneg_digits : forall k c, 0 <= k -> In c (str_of_int k) -> digit c.
Proof.
  intros k c Hk. unfold str_of_int. destruct (k <? 0) eqn:E; [b2p; lia|]. intros H.
  apply digit_is. revert H. apply str_of_nat_spec; auto.
Qed.

Definition pred (k : Z) : Z := k - 1.

Lemma str_join_digits : forall l, (forall k, In k l -> 0 <= k <= 9) ->
  join [] (map str_of_int l) = map (fun k => 48 + k) l.
Proof.
  intros l H. rewrite join_nil. induction l as [|k l IH]; auto. cbn [map concat].
  rewrite str_of_digit by (specialize (H k (or_introl eq_refl)); lia).
  rewrite IH by (intros; apply H; right; auto). reflexivity.
Qed.

Lemma mapM_map : forall {A B C} (f : B -> res C) (g : A -> B) l, mapM f (map g l) = mapM (fun x => f (g x)) l.
Proof. intros A B C f g l; induction l as [|x l IH]; auto. cbn. rewrite IH. reflexivity. Qed.

Lemma parse_numbers_ok : forall ns l, l <> [] ->
  (forall k, In k l -> 0 <= k /\ (ns = [] -> k <= 9)) -> (forall c, In c ns -> ~ digit c) ->
  parse_numbers ns (join ns (map str_of_int l)) = Ok (map pred l).
Proof.
  intros ns l Hn Hk Hc. unfold parse_numbers. destruct ns as [|c t].
  - rewrite str_join_digits by (intros k H; destruct (Hk k H); split; auto).
    rewrite mapM_map. apply mapM_ok. intros k Hin. destruct (Hk k Hin) as [K1 K2]. specialize (K2 eq_refl).
    rewrite int_of_digit by (apply digit_is; unfold digit; lia). cbn [rbind]. apply f_equal. unfold pred. lia.
  - unfold PyStr.split. cbn [rbind].
    rewrite split_join.
    + rewrite mapM_map. apply mapM_ok. intros k Hin. rewrite int_of_str_of_int. reflexivity.
    + destruct l; [congruence|discriminate].
    + intros a Ha Hin. apply in_map_iff in Ha. destruct Ha as [k [<- Hk2]].
      apply (Hc c (or_introl eq_refl)). eapply str_nonneg_digits; eauto. apply Hk; auto.
Qed.

(** * Shape of the text of a group *)
Lemma mid_app : forall x y, mid x -> mid y -> (forall t d, x = t ++ [d] -> digit d) -> mid (x ++ y).
Proof.
  intros x y Hx Hy Hd a d c b E L.
  destruct (app_cases x y a (d :: c :: b) E) as [[e [E1 E2]]|[e [He [E1 E2]]]].
  - destruct e as [|d0 [|c0 e]].
    + apply (Hy [] d c b); auto.
    + injection E2 as <- E2. apply (Hd a); auto.
    + injection E2 as <- <- E2. apply (Hx a d c e); auto.
  - apply (Hy e d c b); auto.
Qed.

Section Text.
Variable ns : pystr.
Hypothesis Hns : forall c, In c ns -> ~ letter c /\ ~ digit c.

Definition nums_text (l : list Z) : pystr := join ns (map str_of_int l).

Lemma nums_chars : forall l c, (forall k, In k l -> 0 <= k) -> In c (nums_text l) ->
  (digit c \/ In c ns) /\ ~ letter c.
Proof.
  intros l c Hk H. apply in_join in H. destruct H as [H|[a [Ha H]]].
  - split; auto. apply Hns; auto.
  - apply in_map_iff in Ha. destruct Ha as [k [<- Hin]].
    assert (D : digit c) by (eapply str_nonneg_digits; eauto). split; auto.
    intros L. eapply letter_not_digit; eauto.
Qed.

Lemma nums_last : forall l t d, (forall k, In k l -> 0 <= k) -> l <> [] -> nums_text l = t ++ [d] -> digit d.
Proof.
  intros l t d Hk Hl E. destruct (join_last ns (map str_of_int l)) as [pre P]; [destruct l; [congruence|discriminate]|].
  unfold nums_text in E. rewrite P in E.
  assert (I : In (last (map str_of_int l) []) (map str_of_int l)) by (apply in_last; destruct l; [congruence|discriminate]).
  apply in_map_iff in I. destruct I as [k [Ek Hin]]. rewrite <- Ek in E.
  destruct (last_char (str_of_int k) (str_of_int_nonempty k)) as [u [x Ex]]. rewrite Ex, app_assoc in E.
  apply app_inj_tail in E. destruct E as [_ ->]. apply (str_nonneg_digits k); auto. rewrite Ex.
  apply in_app_iff; right; left; auto.
Qed.

Lemma nums_nonempty : forall l, l <> [] -> nums_text l <> [].
Proof.
  intros [|k l] H; [congruence|]. unfold nums_text. cbn [map]. rewrite join_tailtext.
  pose proof (str_of_int_nonempty k). destruct (str_of_int k); [congruence|discriminate].
Qed.

Lemma group_text_cons : forall q l g, group_text ns ((q, l) :: g) = (q :: nums_text l) ++ group_text ns g.
Proof. reflexivity. Qed.

Definition shape' (g : group) : Prop :=
  forall q l, In (q, l) g -> letter q /\ l <> [] /\ forall k, In k l -> 0 <= k /\ (ns = [] -> k <= 9).

Lemma piece_last : forall q l t d, (forall k, In k l -> 0 <= k) -> l <> [] -> q :: nums_text l = t ++ [d] -> digit d.
Proof.
  intros q l t d Hk Hl E. destruct t as [|x t].
  - injection E as _ E. exfalso. eapply nums_nonempty; eauto.
  - injection E as _ E. eapply nums_last; eauto.
Qed.

Lemma group_mid : forall g, shape' g -> mid (group_text ns g).
Proof.
  induction g as [|[q l] g IH]; intros H.
  - intros a d c b E. destruct a; discriminate.
  - rewrite group_text_cons. destruct (H q l (or_introl eq_refl)) as [Hq [Hl Hk]].
    assert (Hk' : forall k, In k l -> 0 <= k) by (intros k X; apply Hk; auto).
    apply mid_app.
    + intros a d c b E L. exfalso. apply (proj2 (nums_chars l c Hk' ltac:(
        destruct a as [|x a]; injection E as _ E; rewrite E; [left; auto|apply in_app_iff; right; right; left; auto])) L).
    + apply IH. intros q' l' X; apply H; right; auto.
    + intros t d. apply piece_last; auto.
Qed.

Lemma group_grp : forall g, g <> [] -> shape' g -> grp (group_text ns g).
Proof.
  intros [|[q l] g] Hn H; [congruence|]. exists q, (nums_text l ++ group_text ns g). splits.
  - reflexivity.
  - apply (H q l); left; auto.
  - apply group_mid; auto.
Qed.

Lemma group_last : forall g t d, g <> [] -> shape' g -> group_text ns g = t ++ [d] -> digit d.
Proof.
  induction g as [|[q l] g IH]; intros t d Hn H E; [congruence|]. rewrite group_text_cons in E.
  destruct (H q l (or_introl eq_refl)) as [Hq [Hl Hk]].
  assert (Hk' : forall k, In k l -> 0 <= k) by (intros k X; apply Hk; auto).
  destruct g as [|x g].
  - cbn [group_text map concat] in E. rewrite app_nil_r in E. eapply piece_last; eauto.
  - assert (N : group_text ns (x :: g) <> []) by discriminate.
    destruct (last_char _ N) as [u [y Ey]]. rewrite Ey, app_assoc in E. apply app_inj_tail in E.
    destruct E as [_ <-]. apply (IH u y); auto; [discriminate|]. intros q' l' X; apply H; right; auto.
Qed.

Lemma group_chars : forall g c, shape' g -> In c (group_text ns g) -> letter c \/ digit c \/ In c ns.
Proof.
  induction g as [|[q l] g IH]; intros c H E; [destruct E|]. rewrite group_text_cons in E.
  destruct (H q l (or_introl eq_refl)) as [Hq [Hl Hk]].
  destruct E as [<-|E]; auto. apply in_app_iff in E. destruct E as [E|E].
  - apply nums_chars in E; [tauto|]. intros k X; apply Hk; auto.
  - apply IH; auto. intros q' l' X; apply H; right; auto.
Qed.

(** * The loop of _decode_single *)
Definition finish (d : dstate) : res (list (Z * list Z)) :=
  match d_current d with
  | Some q => let* numbers := parse_numbers ns (d_number_str d) in Ok (dset Z.eqb (d_all d) q numbers)
  | None => match d_present d with [] => Err ValueError | _ => Ok (d_all d) end
  end.

Lemma loop_chars : forall x all q pres num,
  (forall c, In c x -> (digit c \/ In c ns) /\ ~ letter c) -> (forall c, In c pres -> letter c) ->
  foldM (decode_char ns) x (mk_dstate all (Some q) pres num) = Ok (mk_dstate all (Some q) pres (num ++ x)).
Proof.
  induction x as [|c x IH]; intros all q pres num Hx Hp.
  - cbn. rewrite app_nil_r. reflexivity.
  - destruct (Hx c (or_introl eq_refl)) as [H1 H2]. cbn [foldM].
    assert (E : decode_char ns (mk_dstate all (Some q) pres num) c = Ok (mk_dstate all (Some q) pres (num ++ [c]))).
    { unfold decode_char. cbn [d_present d_current d_all d_number_str].
      replace (char_in c pres) with false by (symmetry; apply char_in_false; intros X; apply H2; auto).
      replace (char_in c QUALIFIERS) with false
        by (symmetry; apply not_true_is_false; intros X; apply H2, letter_qual; auto).
      replace (is_digit c || char_in c ns) with true; auto. symmetry. apply orb_true_iff.
      destruct H1 as [H1|H1]; [left; apply digit_is; auto|right; apply char_in_iff; auto]. }
    rewrite E. cbn [rbind]. rewrite IH by (auto; intros; apply Hx; right; auto). rewrite <- app_assoc. reflexivity.
Qed.

Definition record_all (g : group) (all : list (Z * list Z)) : list (Z * list Z) :=
  fold_left (fun d x => dset Z.eqb d (fst x) (map pred (snd x))) g all.

Lemma parse_nums : forall l, l <> [] -> (forall k, In k l -> 0 <= k /\ (ns = [] -> k <= 9)) ->
  parse_numbers ns (nums_text l) = Ok (map pred l).
Proof. intros l Hl Hk. apply parse_numbers_ok; auto. intros c Hc; apply Hns; auto. Qed.

Lemma loop_group : forall g q l all pres, shape' ((q, l) :: g) -> NoDup (map fst ((q, l) :: g)) ->
  (forall c, In c pres -> letter c /\ ~ In c (map fst g)) ->
  (let* d := foldM (decode_char ns) (group_text ns g) (mk_dstate all (Some q) pres (nums_text l)) in finish d)
  = Ok (record_all ((q, l) :: g) all).
Proof.
  induction g as [|[q2 l2] g IH]; intros q l all pres Hs Hn Hp;
    destruct (Hs q l (or_introl eq_refl)) as [Hq [Hl Hk]].
  - cbn [group_text map concat foldM rbind]. unfold finish. cbn [d_current d_number_str d_all].
    rewrite parse_nums by auto. reflexivity.
  - rewrite group_text_cons. rewrite foldM_app. cbn [foldM].
    destruct (Hs q2 l2 (or_intror (or_introl eq_refl))) as [Hq2 [Hl2 Hk2]].
    assert (E : decode_char ns (mk_dstate all (Some q) pres (nums_text l)) q2 =
                Ok (mk_dstate (dset Z.eqb all q (map pred l)) (Some q2) (pres ++ [q]) [])).
    { unfold decode_char. cbn [d_present d_current d_all d_number_str].
      replace (char_in q2 pres) with false
        by (symmetry; apply char_in_false; intros X; apply (Hp q2 X); left; auto).
      replace (char_in q2 QUALIFIERS) with true by (symmetry; apply letter_qual; auto).
      rewrite parse_nums by auto. cbn [rbind]. destruct l as [|k l]; [congruence|]. reflexivity. }
    rewrite E. cbn [rbind].
    rewrite loop_chars.
    + cbn [rbind]. cbn [app]. rewrite IH.
      * reflexivity.
      * intros q' l' X; apply Hs; right; auto.
      * inv Hn; auto.
      * intros c Hc. apply in_app_iff in Hc. destruct Hc as [Hc|[<-|[]]].
        -- destruct (Hp c Hc) as [H1 H2]. split; auto. intros X; apply H2; right; auto.
        -- split; auto. inv Hn. intros X. apply H1; right; auto.
    + intros c Hc. apply nums_chars in Hc; auto. intros k X; apply Hk2; auto.
    + intros c Hc. apply in_app_iff in Hc. destruct Hc as [Hc|[<-|[]]]; auto. apply Hp; auto.
Qed.

Lemma decode_loop : forall g, g <> [] -> shape' g -> NoDup (map fst g) ->
  (let* d := foldM (decode_char ns) (group_text ns g) dstate0 in finish d)
  = Ok (record_all g (d_all dstate0)).
Proof.
  intros [|[q l] g] Hg Hs Hn; [congruence|]. destruct (Hs q l (or_introl eq_refl)) as [Hq [Hl Hk]].
  rewrite group_text_cons, foldM_app. cbn [foldM].
  assert (E : decode_char ns dstate0 q = Ok (mk_dstate (d_all dstate0) (Some q) [] [])).
  { unfold decode_char, dstate0. cbn [d_present d_current d_all d_number_str char_in existsb].
    replace (char_in q QUALIFIERS) with true by (symmetry; apply letter_qual; auto). reflexivity. }
  rewrite E. cbn [rbind]. rewrite loop_chars.
  - cbn [rbind app]. apply loop_group; auto. intros c [].
  - intros c Hc. apply nums_chars in Hc; auto. intros k X; apply Hk; auto.
  - intros c [].
Qed.
End Text.

(** * The numbers recorded for each letter *)
Definition table (f : Z -> list Z) : list (Z * list Z) := map (fun q => (q, f q)) QUALIFIERS.

Lemma dset_table : forall f q v, letter q ->
  dset Z.eqb (table f) q v = table (fun x => if x =? q then v else f x).
Proof.
  intros f q v [->|[->|[->| ->]]]; reflexivity.
Qed.

Definition numbers_of (g : group) (q : Z) : list Z :=
  fold_left (fun m x => if q =? fst x then map pred (snd x) else m) g [].

Lemma record_table : forall g f, (forall q l, In (q, l) g -> letter q) ->
  record_all g (table f) =
  table (fun q => fold_left (fun m x => if q =? fst x then map pred (snd x) else m) g (f q)).
Proof.
  induction g as [|[q l] g IH]; intros f H; auto. unfold record_all in *. cbn [fold_left fst snd].
  rewrite dset_table by (eapply H; left; eauto). rewrite IH by (intros; eapply H; right; eauto). reflexivity.
Qed.

Lemma numbers_of_in : forall g q l, NoDup (map fst g) -> In (q, l) g -> numbers_of g q = map pred l.
Proof.
  intros g q l. unfold numbers_of. generalize (@nil Z). induction g as [|[q' l'] g IH]; intros m Hn H; [destruct H|].
  inv Hn. cbn [fold_left fst snd]. destruct H as [H|H].
  - inv H. rewrite Z.eqb_refl. clear IH. generalize (map pred l). induction g as [|[q2 l2] g IH]; intros m'; auto.
    cbn [fold_left fst snd]. inv H3. destruct (q =? q2) eqn:E.
    + b2p. subst. exfalso. apply H2. left; auto.
    + apply IH; auto. intros X; apply H2; right; auto.
  - apply IH; auto.
Qed.

Lemma numbers_of_out : forall g q, ~ In q (map fst g) -> numbers_of g q = [].
Proof.
  intros g q. unfold numbers_of. generalize (@nil Z). induction g as [|[q' l'] g IH]; intros m H; auto.
  cbn [fold_left fst snd]. destruct (q =? q') eqn:E; [b2p; subst; exfalso; apply H; left; auto|].
  apply IH. intros X; apply H; right; auto.
Qed.

(** * The sets *)
Section Sets.
Variables w h : Z.
Hypothesis Hw : 1 <= w.
Hypothesis Hh : 1 <= h.

Lemma qualifier_ok : forall q n, letter q -> 0 <= n < w * h ->
  exists l, qualifier_fun q n w h = Ok l /\ forall p, In p l <-> cell w h p /\ lies w h q (n + 1) p.
Proof.
  intros q n Hq Hn. unfold qualifier_fun, lies.
  destruct Hq as [->|[->|[->| ->]]]; cbn [Z.eqb Pos.eqb].
  - rewrite the_row_ok by auto. eexists; split; [reflexivity|]. intros p. rewrite in_the_row by auto.
    split; [intros [H1 H2]; splits; auto; lia|intros [H1 [H2 _]]; split; auto; lia].
  - rewrite the_column_ok by auto. eexists; split; [reflexivity|]. intros p. rewrite in_the_column by auto.
    split; [intros [H1 H2]; splits; auto; lia|intros [H1 [_ [H2 _]]]; split; auto; lia].
  - rewrite the_box_ok by auto. eexists; split; [reflexivity|]. intros p. rewrite in_the_box by auto.
    split.
    + intros [H1 [H2 H3]]. splits; auto; try lia. intros _. rewrite H2, H3.
      pose proof (Z.div_mod n h ltac:(lia)). lia.
    + intros [H1 [_ [_ [H2 _]]]]. specialize (H2 eq_refl). split; auto.
      destruct H1 as [R C]. assert (X : 0 <= snd p / w < h) by (apply div_bound; lia).
      replace n with (snd p / w + fst p / h * h) by lia.
      rewrite Z_div_plus_full, Z_mod_plus_full by lia. rewrite (Z.div_small (snd p / w)), (Z.mod_small (snd p / w)) by lia. lia.
  - rewrite the_part_ok by auto. eexists; split; [reflexivity|]. intros p. rewrite in_the_part by auto.
    split.
    + intros [H1 [H2 H3]]. splits; auto; try lia. intros _. rewrite H2, H3.
      pose proof (Z.div_mod n w ltac:(lia)). lia.
    + intros [H1 [_ [_ [_ H2]]]]. specialize (H2 eq_refl). split; auto.
      pose proof (Z.mod_pos_bound (snd p) w ltac:(lia)) as X.
      replace n with (snd p mod w + fst p mod h * w) by lia.
      rewrite Z_div_plus_full, Z_mod_plus_full by lia. rewrite (Z.div_small (snd p mod w) w), (Z.mod_small (snd p mod w) w) by lia. lia.
Qed.

Lemma qualifier_bad : forall q n, ~ 0 <= n < w * h -> qualifier_fun q n w h = Err ValueError.
Proof.
  intros q n Hn. unfold qualifier_fun, the_row, the_column, the_box, the_part.
  replace ((0 <=? n) && (n <? w * h)) with false; [destruct (q =? 114), (q =? 99), (q =? 98); auto|].
  symmetry. apply andb_false_iff. destruct (Z.leb_spec 0 n); auto. right. apply Z.ltb_ge. lia.
Qed.

Definition one_set (q : Z) (l : list Z) : res (list coord) :=
  foldM (fun s number => let* l := qualifier_fun q number w h in Ok (sunion coord_cmp s l)) l [].

Lemma one_set_ok : forall q l, letter q -> (forall n, In n l -> 0 <= n < w * h) ->
  exists s, one_set q l = Ok s /\ sset coord_cmp s /\
    forall p, In p s <-> exists n, In n l /\ cell w h p /\ lies w h q (n + 1) p.
Proof.
  intros q l Hq Hl. unfold one_set.
  refine (foldM_ind _ (fun l s => sset coord_cmp s /\
     forall p, In p s <-> exists n, In n l /\ cell w h p /\ lies w h q (n + 1) p) l [] _ _).
  - split; [apply sset_nil|]. intros p; split; [intros []|intros [n [[] _]]].
  - intros pre n post s E [H1 H2].
    destruct (qualifier_ok q n Hq) as [x [Ex Hx]]; [apply Hl; rewrite E; apply in_app_iff; right; left; auto|].
    rewrite Ex. cbn [rbind]. eexists; split; [reflexivity|]. split.
    + apply sunion_sset; auto. apply coord_cmp_good.
    + intros p. rewrite (In_sunion _ coord_cmp_good), H2, Hx. split.
      * intros [[m [M1 M2]]|M]; [exists m|exists n]; split; auto; apply in_app_iff; auto.
        right; left; auto.
      * intros [m [M1 M2]]. apply in_app_iff in M1. destruct M1 as [M1|[<-|[]]]; eauto.
Qed.

Lemma foldM_bad : forall {A S} (f : S -> A -> res S) l acc x,
  (forall a y, In y l -> (exists b, f a y = Ok b) \/ f a y = Err ValueError) ->
  In x l -> (forall a, f a x = Err ValueError) -> foldM f l acc = Err ValueError.
Proof.
  intros A S f l; induction l as [|y l IH]; intros acc x Hf Hin Hx; [destruct Hin|]. cbn [foldM].
  destruct Hin as [->|Hin]; [rewrite Hx; auto|].
  destruct (Hf acc y (or_introl eq_refl)) as [[b ->]| ->]; auto. cbn [rbind].
  apply (IH b x); auto. intros; apply Hf; right; auto.
Qed.

Lemma mapM_bad : forall {A B} (f : A -> res B) l x,
  (forall y, In y l -> (exists b, f y = Ok b) \/ f y = Err ValueError) ->
  In x l -> f x = Err ValueError -> mapM f l = Err ValueError.
Proof.
  intros A B f l; induction l as [|y l IH]; intros x Hf Hin Hx; [destruct Hin|]. cbn [mapM].
  destruct Hin as [->|Hin]; [rewrite Hx; auto|].
  destruct (Hf y (or_introl eq_refl)) as [[b ->]| ->]; auto. cbn [rbind].
  rewrite (IH x); auto. intros; apply Hf; right; auto.
Qed.

Lemma one_set_cases : forall q l, (exists s, one_set q l = Ok s) \/ one_set q l = Err ValueError.
Proof.
  intros q l. unfold one_set. generalize (@nil coord). induction l as [|n l IH]; intros s; cbn [foldM]; eauto.
  assert (C : (exists x, qualifier_fun q n w h = Ok x) \/ qualifier_fun q n w h = Err ValueError).
  { unfold qualifier_fun, the_row, the_column, the_box, the_part.
    destruct (negb ((0 <=? n) && (n <? w * h))), (q =? 114), (q =? 99), (q =? 98); eauto. }
  destruct C as [[x ->]| ->]; cbn [rbind]; auto.
Qed.

Lemma one_set_bad : forall q l n, In n l -> ~ 0 <= n < w * h -> one_set q l = Err ValueError.
Proof.
  intros q l n Hin Hn. unfold one_set. apply (foldM_bad _ l [] n); auto.
  - intros a y _. destruct (one_set_cases q [y]) as [[s E]|E]; unfold one_set in E; cbn [foldM] in E.
    + destruct (qualifier_fun q y w h); [left; eexists; reflexivity|discriminate].
    + destruct (qualifier_fun q y w h); [discriminate|]. cbn in E. inv E. auto.
  - intros a. rewrite qualifier_bad by auto. reflexivity.
Qed.

Lemma in_fold_inter : forall t s p, In p (fold_left (sinter coord_cmp) t s) <-> In p s /\ forall x, In x t -> In p x.
Proof.
  induction t as [|x t IH]; intros s p; cbn [fold_left].
  - split; [intros H; split; auto; intros y []|tauto].
  - rewrite IH, (In_sinter _ coord_cmp_good). split.
    + intros [[H1 H2] H3]. split; auto. intros y [<-|Hy]; auto.
    + intros [H1 H2]. splits; auto; [apply H2; left; auto|]. intros y Hy; apply H2; right; auto.
Qed.

Lemma fold_inter_sset : forall t s, sset coord_cmp s -> sset coord_cmp (fold_left (sinter coord_cmp) t s).
Proof. induction t as [|x t IH]; intros s H; cbn [fold_left]; auto. apply IH. apply sinter_sset; auto. Qed.

Definition piece (kv : Z * list Z) : res (list (list coord)) :=
  let* s := one_set (fst kv) (snd kv) in Ok (match snd kv with [] => [] | _ => [s] end).

Definition set_of (q : Z) (l : list Z) : list coord :=
  match one_set q l with Ok s => s | Err _ => [] end.

(** ** Both outcomes of [decode_single] on the text of a group *)
Section Single.
Variable ns : pystr.
Hypothesis Hns : forall c, In c ns -> ~ letter c /\ ~ digit c.
Variable g : group.
Hypothesis Hg : group_shape ns g.

Lemma all_table : (let* d := foldM (decode_char ns) (group_text ns g) dstate0 in finish ns d)
  = Ok (table (numbers_of g)).
Proof.
  destruct Hg as [H1 [H2 H3]]. rewrite decode_loop by auto.
  change (d_all dstate0) with (table (fun _ => [])). rewrite record_table; auto. intros q l H; apply (H3 q l H).
Qed.

Lemma single_red : decode_single (group_text ns g) w h ns =
  let* sets := build_sets w h (table (numbers_of g)) in
  match sets with [] => Err TypeError | s :: t => Ok (fold_left (sinter coord_cmp) t s) end.
Proof.
  pose proof all_table as E. unfold decode_single.
  destruct (foldM (decode_char ns) (group_text ns g) dstate0) as [d|e]; cbn [rbind] in *; [|discriminate].
  unfold finish in E. rewrite E. reflexivity.
Qed.

Lemma single_ok : group_range (w * h) g ->
  exists l, decode_single (group_text ns g) w h ns = Ok l /\ sset coord_cmp l /\
    forall p, In p l <-> in_group w h g p.
Proof.
  intros Hr. rewrite single_red. destruct Hg as [G1 [G2 G3]].
  assert (R : forall q n, In n (numbers_of g q) -> letter q -> 0 <= n < w * h).
  { intros q n Hn Hq. destruct (in_dec Z.eq_dec q (map fst g)) as [I|I].
    - apply in_map_iff in I. destruct I as [[q' l] [E I]]. cbn in E; subst q'.
      rewrite (numbers_of_in g q l) in Hn by auto. apply in_map_iff in Hn. destruct Hn as [k [<- Hk]].
      pose proof (Hr q l k I Hk). unfold pred. lia.
    - rewrite numbers_of_out in Hn by auto. destruct Hn. }
  assert (S : forall q, letter q -> one_set q (numbers_of g q) = Ok (set_of q (numbers_of g q)) /\
     sset coord_cmp (set_of q (numbers_of g q)) /\
     forall p, In p (set_of q (numbers_of g q)) <->
       exists n, In n (numbers_of g q) /\ cell w h p /\ lies w h q (n + 1) p).
  { intros q Hq. destruct (one_set_ok q (numbers_of g q) Hq ltac:(intros n Hn; apply (R q); auto)) as [s [E [E2 E3]]].
    unfold set_of. rewrite E. auto. }
  unfold build_sets.
  rewrite (mapM_ok _ (fun kv => match snd kv with [] => [] | _ => [set_of (fst kv) (snd kv)] end)).
  2:{ intros [q l] H. unfold table in H. apply in_map_iff in H. destruct H as [q' [E H]]. inv E.
      cbn [fst snd]. change (piece (q, numbers_of g q) = Ok (match numbers_of g q with [] => [] | _ :: _ => [set_of q (numbers_of g q)] end)).
      unfold piece. cbn [fst snd]. destruct (S q) as [-> _]; [apply letter_qual, char_in_iff; auto|]. reflexivity. }
  cbn [rbind]. remember (concat (map _ (table (numbers_of g)))) as sets eqn:Es.
  assert (M : forall s, In s sets <-> exists q, letter q /\ numbers_of g q <> [] /\ s = set_of q (numbers_of g q)).
  { intros s. rewrite Es, in_concat. split.
    - intros [x [Hx Hin]]. unfold table in Hx. rewrite map_map in Hx. apply in_map_iff in Hx. destruct Hx as [q [<- Hq]].
      cbn [fst snd] in Hin. exists q. split; [apply letter_qual, char_in_iff; auto|].
      destruct (numbers_of g q); [destruct Hin|]. destruct Hin as [<-|[]]. split; auto. discriminate.
    - intros [q [Hq [Hn ->]]]. eexists; split.
      + unfold table. rewrite map_map. apply in_map_iff. exists q. split; [reflexivity|]. apply char_in_iff, letter_qual; auto.
      + cbn [fst snd]. destruct (numbers_of g q); [congruence|]. left; auto. }
  clear Es. destruct g as [|[q0 l0] g0] eqn:Eg; [congruence|]. rewrite <- Eg in *.
  assert (I0 : In (q0, l0) g) by (rewrite Eg; left; auto). destruct (G3 q0 l0 I0) as [L0 [N0 _]].
  assert (X0 : In (set_of q0 (numbers_of g q0)) sets).
  { apply M. exists q0. splits; auto. rewrite (numbers_of_in g q0 l0) by auto. destruct l0; [congruence|discriminate]. }
  destruct sets as [|s t]; [destruct X0|]. eexists; split; [reflexivity|]. split.
  - apply fold_inter_sset. destruct (proj1 (M s) (or_introl eq_refl)) as [q [Hq [_ ->]]]. apply S; auto.
  - intros p. rewrite in_fold_inter. unfold in_group. split.
    + intros [Hs Ht]. assert (A : forall x, In x (s :: t) -> In p x) by (intros x [<-|Hx]; auto).
      assert (B : forall q l, In (q, l) g -> exists k, In k l /\ cell w h p /\ lies w h q k p).
      { intros q l Hin. destruct (G3 q l Hin) as [Lq [Nl _]].
        pose proof (A (set_of q (numbers_of g q))) as Y. destruct (S q Lq) as [_ [_ Y2]].
        rewrite Y2 in Y. destruct Y as [n [Y3 [Y4 Y5]]].
        { apply M. exists q. splits; auto. rewrite (numbers_of_in g q l) by auto. destruct l; [congruence|discriminate]. }
        rewrite (numbers_of_in g q l) in Y3 by auto. apply in_map_iff in Y3. destruct Y3 as [k [<- Hk]].
        exists k; splits; auto. replace k with (pred k + 1) by (unfold pred; lia). auto. }
      split; [destruct (B q0 l0 I0) as [k [_ [C _]]]; auto|].
      intros q l Hin. destruct (B q l Hin) as [k [K1 [_ K2]]]. eauto.
    + intros [Hc HB]. assert (A : forall x, In x (s :: t) -> In p x).
      { intros x Hx. apply M in Hx. destruct Hx as [q [Lq [Nq ->]]]. apply (S q Lq).
        destruct (in_dec Z.eq_dec q (map fst g)) as [I|I]; [|rewrite numbers_of_out in Nq by auto; congruence].
        apply in_map_iff in I. destruct I as [[q' l] [E I]]. cbn in E; subst q'.
        destruct (HB q l I) as [k [K1 K2]]. exists (pred k). splits; auto.
        - rewrite (numbers_of_in g q l) by auto. apply in_map; auto.
        - replace (pred k + 1) with k by (unfold pred; lia). auto. }
      split; [apply A; left; auto|]. intros x Hx; apply A; right; auto.
Qed.

Lemma single_bad : (exists q l k, In (q, l) g /\ In k l /\ ~ 1 <= k <= w * h) ->
  decode_single (group_text ns g) w h ns = Err ValueError.
Proof.
  intros [q [l [k [H1 [H2 H3]]]]]. rewrite single_red. destruct Hg as [G1 [G2 G3]].
  unfold build_sets. rewrite (mapM_bad _ _ (q, numbers_of g q)); auto.
  - intros [q' l'] _. change (((exists b, piece (q', l') = Ok b) \/ piece (q', l') = Err ValueError)).
    unfold piece. cbn [fst snd]. destruct (one_set_cases q' l') as [[s ->]| ->]; cbn [rbind]; eauto.
  - unfold table. apply in_map_iff. exists q; split; auto. apply char_in_iff, letter_qual. apply (G3 q l); auto.
  - change (piece (q, numbers_of g q) = Err ValueError). unfold piece. cbn [fst snd].
    rewrite (one_set_bad q _ (pred k)); auto; [|unfold pred; lia].
    rewrite (numbers_of_in g q l) by auto. apply in_map; auto.
Qed.
End Single.
End Sets.
