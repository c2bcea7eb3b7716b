(** Rejected strings; actions. *)
From Verif Require Export LNotation5 LSudoku.
Import PyStr MNotation.

(** * Possible outcomes *)
Definition ok_or_value {A} (r : res A) : Prop := (exists a, r = Ok a) \/ r = Err ValueError.

Lemma ok_value_bind : forall {A B} (m : res A) (f : A -> res B),
  ok_or_value m -> (forall a, ok_or_value (f a)) -> ok_or_value (rbind m f).
Proof. intros A B m f [[a ->]| ->] H; cbn [rbind]; auto. right; auto. Qed.
Lemma ok_value_ok : forall {A} (a : A), ok_or_value (Ok a).
Proof. intros; left; eauto. Qed.
Lemma ok_value_mapM : forall {A B} (f : A -> res B) l, (forall x, ok_or_value (f x)) -> ok_or_value (mapM f l).
Proof.
  intros A B f l H. induction l as [|x l IH]; cbn [mapM]; [apply ok_value_ok|].
  apply ok_value_bind; auto. intros a. apply ok_value_bind; auto. intros b; apply ok_value_ok.
Qed.
Lemma ok_value_foldM : forall {A S} (f : S -> A -> res S) l a, (forall s x, ok_or_value (f s x)) -> ok_or_value (foldM f l a).
Proof.
  intros A S f l; induction l as [|x l IH]; intros a H; cbn [foldM]; [apply ok_value_ok|]. apply ok_value_bind; auto.
Qed.
Lemma int_ok_value : forall s, ok_or_value (int_of_str s).
Proof.
  intros s. unfold int_of_str. cbv zeta.
  match goal with |- ok_or_value (match ?x with Some _ => _ | None => _ end) => destruct x end; [apply ok_value_ok|right; auto].
Qed.
Lemma parse_ok_value : forall ns s, ok_or_value (parse_numbers ns s).
Proof.
  intros ns s. unfold parse_numbers. destruct ns as [|c t].
  - apply ok_value_mapM. intros x. apply ok_value_bind; [apply int_ok_value|]. intros; apply ok_value_ok.
  - unfold PyStr.split. cbn [rbind]. apply ok_value_mapM. intros x.
    apply ok_value_bind; [apply int_ok_value|]. intros; apply ok_value_ok.
Qed.
Lemma char_ok_value : forall ns d c, ok_or_value (decode_char ns d c).
Proof.
  intros ns d c. unfold decode_char. destruct (char_in c (d_present d)); [right; auto|].
  destruct (char_in c QUALIFIERS).
  - destruct (d_current d); [|apply ok_value_ok]. apply ok_value_bind; [apply parse_ok_value|].
    intros [|x l]; [right; auto|apply ok_value_ok].
  - destruct (is_digit c || char_in c ns); [|right; auto]. destruct (d_current d); [apply ok_value_ok|right; auto].
Qed.
Lemma sets_ok_value : forall w h all, ok_or_value (build_sets w h all).
Proof.
  intros w h all. unfold build_sets. apply ok_value_bind; [|intros; apply ok_value_ok].
  apply ok_value_mapM. intros [q l]. apply ok_value_bind; [apply one_set_cases|intros; apply ok_value_ok].
Qed.
Lemma finish_ok_value : forall ns d, ok_or_value (finish ns d).
Proof.
  intros ns d. unfold finish. destruct (d_current d).
  - apply ok_value_bind; [apply parse_ok_value|intros; apply ok_value_ok].
  - destruct (d_present d); [right; auto|apply ok_value_ok].
Qed.

Lemma single_unfold : forall g w h ns, decode_single g w h ns =
  let* all := (let* d := foldM (decode_char ns) g dstate0 in finish ns d) in
  let* sets := build_sets w h all in
  match sets with [] => Err TypeError | s :: t => Ok (fold_left (sinter coord_cmp) t s) end.
Proof.
  intros g w h ns. unfold decode_single. destruct (foldM (decode_char ns) g dstate0) as [d|e]; reflexivity.
Qed.

Lemma single_outcome : forall g w h ns, ok_or_value (decode_single g w h ns) \/ decode_single g w h ns = Err TypeError.
Proof.
  intros g w h ns. rewrite single_unfold.
  assert (A : ok_or_value (let* d := foldM (decode_char ns) g dstate0 in finish ns d)).
  { apply ok_value_bind; [apply ok_value_foldM, char_ok_value|apply finish_ok_value]. }
  destruct A as [[all ->]| ->]; cbn [rbind]; [|left; right; auto].
  destruct (sets_ok_value w h all) as [[sets ->]| ->]; cbn [rbind]; [|left; right; auto].
  destruct sets; [right; auto|left; apply ok_value_ok].
Qed.

Lemma split_groups_total : forall sep ks q, exists ks', split_groups sep ks q = Ok ks'.
Proof.
  intros sep ks q. unfold split_groups.
  assert (X : exists p, mapM (fun g => let* gs := PyStr.split (sep ++ [q]) g in
    match gs with [] => Ok [] | g0 :: gs => Ok (g0 :: map (cons q) gs) end) ks = Ok p).
  { induction ks as [|k ks [p IH]]; cbn [mapM]; eauto. rewrite IH. unfold PyStr.split.
    destruct (sep ++ [q]) eqn:E; [destruct sep; discriminate|]. cbn [rbind].
    destruct (split_go _ k 0); cbn [rbind]; eauto. }
  destruct X as [p ->]. cbn [rbind]. eauto.
Qed.
Lemma split_fold_total : forall sep qs ks, exists ks', foldM (split_groups sep) qs ks = Ok ks'.
Proof.
  intros sep qs; induction qs as [|q qs IH]; intros ks; cbn [foldM]; eauto.
  destruct (split_groups_total sep ks q) as [k' ->]. cbn [rbind]. apply IH.
Qed.

Definition stripped_ws (sep ns s : pystr) : pystr :=
  if negb (existsb (fun c => char_in c sep) WHITESPACE) && negb (existsb (fun c => char_in c ns) WHITESPACE)
  then replace WHITESPACE [] s else s.

Lemma ndecode_unfold : forall s w h sep nsep, 1 <= w -> 1 <= h ->
  ndecode s w h sep nsep =
  let* groups := foldM (split_groups sep) QUALIFIERS [stripped_ws sep (number_separator nsep (w * h)) s] in
  foldM (fun coords group => let* l := decode_single group w h (number_separator nsep (w * h)) in
         Ok (sunion coord_cmp coords l)) groups [].
Proof.
  intros s w h sep nsep Hw Hh. unfold ndecode.
  replace ((w <? 1) || (h <? 1)) with false by (symmetry; apply orb_false_iff; split; apply Z.ltb_ge; auto).
  rewrite num_sep_eq. reflexivity.
Qed.
Lemma ndecode_small : forall s w h sep nsep, w < 1 \/ h < 1 -> ndecode s w h sep nsep = Err ValueError.
Proof.
  intros s w h sep nsep H. unfold ndecode.
  replace ((w <? 1) || (h <? 1)) with true; auto. symmetry. apply orb_true_iff. rewrite !Z.ltb_lt. auto.
Qed.

Lemma groups_fold_cases : forall w h ns gs acc,
  let r := foldM (fun coords group => let* l := decode_single group w h ns in Ok (sunion coord_cmp coords l)) gs acc in
  ok_or_value r \/ r = Err TypeError.
Proof.
  intros w h ns gs; induction gs as [|g gs IH]; intros acc; cbv zeta; cbn [foldM]; [left; apply ok_value_ok|].
  destruct (single_outcome g w h ns) as [[[l ->]| ->]| ->]; cbn [rbind]; [|left; right; auto|right; auto]. apply IH.
Qed.

Lemma ndecode_outcome : forall s w h sep nsep,
  ok_or_value (ndecode s w h sep nsep) \/ ndecode s w h sep nsep = Err TypeError.
Proof.
  intros s w h sep nsep. destruct (Z_lt_le_dec w 1); [left; right; apply ndecode_small; auto|].
  destruct (Z_lt_le_dec h 1); [left; right; apply ndecode_small; auto|].
  rewrite ndecode_unfold by auto. destruct (split_fold_total sep QUALIFIERS [stripped_ws sep (number_separator nsep (w * h)) s]) as [gs ->].
  cbn [rbind]. apply groups_fold_cases.
Qed.

(** * Occurrences and splitting *)
Lemma split_go_absent : forall p s, p <> [] -> ~ occurs p s -> split_go p s 0 = [s].
Proof.
  intros p s Hp H. apply split_go_one. intros a z -> Hz. destruct (starts_with p z) eqn:E; auto. exfalso.
  apply starts_with_iff in E. destruct E as [t ->]. apply H. exists a, t; auto.
Qed.

Lemma stripped_ws_id : forall sep ns s, ~ occurs WHITESPACE s -> stripped_ws sep ns s = s.
Proof.
  intros sep ns s H. unfold stripped_ws. destruct (_ && _); auto. unfold replace.
  rewrite split_go_absent by (auto; discriminate). reflexivity.
Qed.

Lemma split_single_group : forall sep s, (forall q, letter q -> ~ occurs (sep ++ [q]) s) ->
  foldM (split_groups sep) QUALIFIERS [s] = Ok [s].
Proof.
  intros sep s H. assert (X : forall qs, (forall q, In q qs -> letter q) -> foldM (split_groups sep) qs [s] = Ok [s]).
  { induction qs as [|q qs IH]; intros Hq; auto. cbn [foldM].
    assert (E : split_groups sep [s] q = Ok [s]).
    { unfold split_groups. cbn [mapM]. unfold PyStr.split.
      destruct (sep ++ [q]) as [|p0 p1] eqn:Ep; [destruct sep; discriminate|]. rewrite <- Ep. cbn [rbind].
      rewrite split_go_absent; [reflexivity|rewrite Ep; discriminate|]. apply H, Hq. left; auto. }
    rewrite E. cbn [rbind]. apply IH. intros x Hx; apply Hq; right; auto. }
  apply X. intros q Hq. apply letter_qual, char_in_iff; auto.
Qed.

(** * C60: a letter that comes back after another letter *)
Section Repeat.
Variable ns : pystr.
Variables q q' : Z.
Hypothesis Hq : letter q.
Hypothesis Hq' : letter q'.
Hypothesis Hne : q <> q'.

Lemma present_keep : forall d c d', decode_char ns d c = Ok d' -> In q (d_present d) -> In q (d_present d').
Proof.
  intros d c d' E H. unfold decode_char in E. destruct (char_in c (d_present d)); [discriminate|].
  destruct (char_in c QUALIFIERS).
  - destruct (d_current d).
    + ok_inv. destruct a as [|x l]; [discriminate|]. ok_inv. cbn. apply in_app_iff; auto.
    + ok_inv. auto.
  - destruct (is_digit c || char_in c ns); [|discriminate]. destruct (d_current d); [|discriminate]. ok_inv. auto.
Qed.

Lemma present_then_q : forall x d, In q (d_present d) -> In q x -> foldM (decode_char ns) x d = Err ValueError.
Proof.
  induction x as [|c x IH]; intros d H Hin; [destruct Hin|]. cbn [foldM].
  destruct (char_ok_value ns d c) as [[d' E]|E]; rewrite E; [|auto]. cbn [rbind].
  destruct Hin as [->|Hin].
  - exfalso. unfold decode_char in E. replace (char_in q (d_present d)) with true in E by (symmetry; apply char_in_iff; auto).
    discriminate.
  - apply IH; auto. eapply present_keep; eauto.
Qed.

Definition seen (d : dstate) : Prop := d_current d = Some q \/ In q (d_present d).

Lemma seen_keep : forall d c d', decode_char ns d c = Ok d' -> seen d -> seen d' /\ (c = q' -> In q (d_present d')).
Proof.
  intros d c d' E [H|H].
  - unfold decode_char in E. destruct (char_in c (d_present d)); [discriminate|].
    rewrite H in E. destruct (char_in c QUALIFIERS) eqn:Ec.
    + ok_inv. destruct a as [|x l]; [discriminate|]. ok_inv. unfold seen. cbn.
      assert (In q (d_present d ++ [q])) by (apply in_app_iff; right; left; auto). auto.
    + destruct (is_digit c || char_in c ns); [|discriminate]. ok_inv. split; [left; auto|].
      intros ->. apply letter_qual in Hq'. congruence.
  - pose proof (present_keep d c d' E H). split; auto. right; auto.
Qed.

Lemma seen_then : forall x d, seen d -> (exists x1 x2, x = x1 ++ q' :: x2 /\ In q x2) ->
  foldM (decode_char ns) x d = Err ValueError.
Proof.
  induction x as [|c x IH]; intros d H [x1 [x2 [E Hin]]]; [destruct x1; discriminate|]. cbn [foldM].
  destruct (char_ok_value ns d c) as [[d' Ed]|Ed]; rewrite Ed; [|auto]. cbn [rbind].
  destruct (seen_keep d c d' Ed H) as [S1 S2]. destruct x1 as [|y x1].
  - injection E as -> ->. apply present_then_q; auto.
  - injection E as <- ->. apply IH; eauto.
Qed.

Lemma repeated_then : forall x d, (exists x1 x2 x3, x = x1 ++ q :: x2 ++ q' :: x3 /\ In q x3) ->
  foldM (decode_char ns) x d = Err ValueError.
Proof.
  induction x as [|c x IH]; intros d [x1 [x2 [x3 [E Hin]]]]; [destruct x1; discriminate|]. cbn [foldM].
  destruct (char_ok_value ns d c) as [[d' Ed]|Ed]; rewrite Ed; [|auto]. cbn [rbind].
  destruct x1 as [|y x1].
  - injection E as -> ->. apply seen_then; eauto. left.
    unfold decode_char in Ed. destruct (char_in q (d_present d)); [discriminate|].
    replace (char_in q QUALIFIERS) with true in Ed by (symmetry; apply letter_qual; auto).
    destruct (d_current d); ok_inv; auto. destruct a as [|zz ll]; [discriminate|]. ok_inv. auto.
  - injection E as <- ->. apply IH; eauto 6.
Qed.
End Repeat.

Lemma repeated_rejected : forall s w h sep nsep q q' a b c d, letter q -> letter q' -> q <> q' ->
  s = a ++ q :: b ++ q' :: c ++ q :: d ->
  (forall x, letter x -> ~ occurs (sep ++ [x]) s) -> ~ occurs WHITESPACE s ->
  ndecode s w h sep nsep = Err ValueError.
Proof.
  intros s w h sep nsep q q' a b c d L1 L2 Hne E Ho Hws.
  destruct (Z_lt_le_dec w 1); [apply ndecode_small; auto|].
  destruct (Z_lt_le_dec h 1); [apply ndecode_small; auto|].
  rewrite ndecode_unfold, stripped_ws_id, split_single_group by auto. cbn [rbind foldM].
  rewrite single_unfold, (repeated_then _ q q'); auto.
  exists a, b, (c ++ q :: d). split; auto. apply in_app_iff; right; left; auto.
Qed.

(** An immediate repetition overwrites. *)
Lemma adjacent_single : forall ns w h q l1 l2 g, (forall c, In c ns -> ~ letter c /\ ~ digit c) ->
  group_shape ns ((q, l2) :: g) -> l1 <> [] -> (forall k, In k l1 -> 0 <= k /\ (ns = [] -> k <= 9)) ->
  decode_single (group_text ns ((q, l1) :: (q, l2) :: g)) w h ns = decode_single (group_text ns ((q, l2) :: g)) w h ns.
Proof.
  intros ns w h q l1 l2 g Hns [_ [G2 G3]] Hl1 Hk1. rewrite !single_unfold.
  rewrite (decode_loop ns Hns ((q, l2) :: g)) by (auto; discriminate).
  destruct (G3 q l2 (or_introl eq_refl)) as [Hq [Hl2 Hk2]].
  assert (E : (let* d := foldM (decode_char ns) (group_text ns ((q, l1) :: (q, l2) :: g)) dstate0 in finish ns d) =
    Ok (record_all ((q, l2) :: g) (dset Z.eqb (d_all dstate0) q (map pred l1)))).
  { rewrite group_text_cons, foldM_app. cbn [foldM].
    assert (E : decode_char ns dstate0 q = Ok (mk_dstate (d_all dstate0) (Some q) [] [])).
    { unfold decode_char, dstate0. cbn [d_present d_current d_all d_number_str char_in existsb].
      replace (char_in q QUALIFIERS) with true by (symmetry; apply letter_qual; auto). reflexivity. }
    rewrite E. cbn [rbind].
    rewrite (loop_chars ns) by (first [intros c []|intros c Hc; apply (nums_chars ns Hns) in Hc; auto; intros k X; apply Hk1; auto]).
    cbn [rbind app]. rewrite group_text_cons, foldM_app. cbn [foldM].
    assert (E2 : decode_char ns (mk_dstate (d_all dstate0) (Some q) [] (nums_text ns l1)) q =
                Ok (mk_dstate (dset Z.eqb (d_all dstate0) q (map pred l1)) (Some q) [q] [])).
    { unfold decode_char. cbn [d_present d_current d_all d_number_str char_in existsb].
      replace (char_in q QUALIFIERS) with true by (symmetry; apply letter_qual; auto).
      rewrite (parse_nums ns Hns) by auto. cbn [rbind]. destruct l1 as [|k l]; [congruence|]. reflexivity. }
    rewrite E2. cbn [rbind].
    rewrite (loop_chars ns).
    - cbn [rbind app]. apply loop_group; auto.
      intros c [<-|[]]. split; auto. inv G2; auto.
    - intros c Hc; apply (nums_chars ns Hns) in Hc; auto; intros k X; apply Hk2; auto.
    - intros c [<-|[]]; auto. }
  rewrite E. cbn [rbind]. unfold record_all. cbn [fold_left fst snd].
  change (d_all dstate0) with (table (fun _ => [])). rewrite !dset_table by auto.
  replace (table (fun x => if x =? q then map pred l2 else if x =? q then map pred l1 else []))
    with (table (fun x => if x =? q then map pred l2 else [])); auto.
  unfold table. apply map_ext. intros x. destruct (x =? q); auto.
Qed.

(** * C61: illegal characters *)
Lemma illegal_char : forall ns c x d, ~ letter c -> ~ digit c -> ~ In c ns -> In c x ->
  foldM (decode_char ns) x d = Err ValueError.
Proof.
  intros ns c x; induction x as [|y x IH]; intros d H1 H2 H3 Hin; [destruct Hin|]. cbn [foldM].
  destruct (char_ok_value ns d y) as [[d' Ed]|Ed]; rewrite Ed; [|auto]. cbn [rbind].
  destruct Hin as [->|Hin]; [|apply IH; auto]. exfalso. unfold decode_char in Ed.
  destruct (char_in c (d_present d)); [discriminate|].
  destruct (char_in c QUALIFIERS) eqn:E1; [apply letter_qual in E1; auto|].
  destruct (is_digit c) eqn:E2; [apply digit_is in E2; auto|].
  destruct (char_in c ns) eqn:E3; [apply char_in_iff in E3; auto|]. discriminate.
Qed.

Lemma split_go_keeps : forall p s k c, p <> [] -> In c s -> ~ In c p ->
  (forall i, (i < k)%nat -> exists x, nth_error s i = Some x /\ In x p) ->
  exists g, In g (split_go p s k) /\ In c g.
Proof.
  intros p s; induction s as [|y s IH]; intros k c Hne Hin Hp Hs; [destruct Hin|]. cbn [split_go].
  destruct k as [|k].
  - destruct (starts_with p (y :: s)) eqn:E.
    + apply starts_with_iff in E. destruct E as [t Et].
      destruct p as [|u p]; [congruence|]. injection Et as -> Et.
      assert (Hy : In c s) by (destruct Hin as [->|Hin]; auto; exfalso; apply Hp; left; auto).
      destruct (IH (length (u :: p) - 1)%nat c Hne Hy Hp) as [g [G1 G2]]; [|exists g; split; auto; right; auto].
      intros i Hi. cbn [length] in Hi. subst s.
      destruct (nth_error p i) as [x|] eqn:Ex; [|apply nth_error_None in Ex; lia].
      exists x. rewrite nth_error_app1 by lia. split; auto. right. eapply nth_error_In; eauto.
    + destruct Hin as [->|Hin].
      * destruct (split_go p s 0) as [|g gs]; cbn [cons_head]; eexists; split; try (left; reflexivity); left; auto.
      * destruct (IH 0%nat c Hne Hin Hp) as [g [G1 G2]]; [intros i Hi; lia|].
        destruct (split_go p s 0) as [|g0 gs]; [destruct G1|]. cbn [cons_head]. destruct G1 as [->|G1].
        -- eexists; split; [left; reflexivity|right; auto].
        -- exists g; split; auto. right; auto.
  - destruct Hin as [->|Hin].
    + destruct (Hs 0%nat) as [x [E X]]; [lia|]. injection E as ->. contradiction.
    + apply IH; auto. intros i Hi. destruct (Hs (S i)) as [x X]; [lia|]. eauto.
Qed.

Lemma split_groups_keeps : forall sep ks q c, ~ In c sep -> c <> q -> (exists g, In g ks /\ In c g) ->
  exists ks', split_groups sep ks q = Ok ks' /\ exists g, In g ks' /\ In c g.
Proof.
  intros sep ks q c Hc Hq [g [G1 G2]]. destruct (split_groups_total sep ks q) as [ks' E]. exists ks'. split; auto.
  unfold split_groups in E. ok_inv. revert a H G1. induction ks as [|k ks IH]; intros a H G1; [destruct G1|].
  cbn [mapM] in H. ok_inv. cbn [concat]. destruct G1 as [->|G1].
  - unfold PyStr.split in H1. assert (Np : sep ++ [q] <> []) by (destruct sep; discriminate).
    destruct (split_go_keeps (sep ++ [q]) g 0 c Np G2) as [x [X1 X2]].
    { intros X. apply in_app_iff in X. destruct X as [X|[X|[]]]; auto. }
    { intros i Hi; lia. }
    destruct (sep ++ [q]) as [|p0 p1]; [congruence|]. cbn [rbind] in H1. 
    destruct (split_go (p0 :: p1) g 0) as [|g0 gs]; [destruct X1|]. ok_inv.
    destruct X1 as [->|X1].
    + exists x. split; auto. apply in_app_iff; left; left; auto.
    + exists (q :: x). split; [|right; auto]. apply in_app_iff; left; right. apply in_map; auto.
  - destruct (IH _ H G1) as [x [X1 X2]]. exists x; split; auto. apply in_app_iff; auto.
Qed.

Lemma split_fold_keeps : forall sep qs ks c, ~ In c sep -> ~ In c qs -> (exists g, In g ks /\ In c g) ->
  exists ks', foldM (split_groups sep) qs ks = Ok ks' /\ exists g, In g ks' /\ In c g.
Proof.
  intros sep qs; induction qs as [|q qs IH]; intros ks c Hc Hq H; cbn [foldM]; eauto.
  destruct (split_groups_keeps sep ks q c Hc) as [ks' [-> X]]; auto; [intros ->; apply Hq; left; auto|].
  cbn [rbind]. apply IH; auto. intros X2; apply Hq; right; auto.
Qed.

Lemma illegal_rejected : forall s w h sep nsep c, ~ letter c -> ~ digit c -> ~ In c sep ->
  ~ In c (number_separator nsep (w * h)) -> In c s -> ~ occurs WHITESPACE s ->
  ndecode s w h sep nsep = Err ValueError \/ ndecode s w h sep nsep = Err TypeError.
Proof.
  intros s w h sep nsep c H1 H2 H3 H4 Hin Hws.
  destruct (Z_lt_le_dec w 1); [left; apply ndecode_small; auto|].
  destruct (Z_lt_le_dec h 1); [left; apply ndecode_small; auto|].
  rewrite ndecode_unfold, stripped_ws_id by auto.
  destruct (split_fold_keeps sep QUALIFIERS [s] c H3) as [gs [Egs [g [G1 G2]]]].
  { intros X. apply H1, letter_qual, char_in_iff; auto. }
  { exists s; split; auto; left; auto. }
  change (foldM (split_groups sep) QUALIFIERS [s : pystr] = Ok gs) in Egs. unfold pystr in *. rewrite Egs. clear Egs.
  cbn [rbind]. generalize (@nil coord). revert G1. induction gs as [|x gs IH]; intros G1 acc; [destruct G1|].
  cbn [foldM]. destruct G1 as [->|G1].
  - rewrite single_unfold, (illegal_char _ c) by auto. left; auto.
  - destruct (single_outcome x w h (number_separator nsep (w * h))) as [[[m ->]| ->]| ->]; cbn [rbind]; auto.
Qed.

(** The one whitespace string that is removed. *)
Lemma exact_run_ignored : forall a b w h sep nsep, ~ In 32 a ->
  (forall c, In c WHITESPACE -> ~ In c sep /\ ~ In c (number_separator nsep (w * h))) ->
  ndecode (a ++ WHITESPACE ++ b) w h sep nsep = ndecode (a ++ b) w h sep nsep.
Proof.
  intros a b w h sep nsep Ha Hc.
  destruct (Z_lt_le_dec w 1); [rewrite !ndecode_small; auto|].
  destruct (Z_lt_le_dec h 1); [rewrite !ndecode_small; auto|].
  rewrite !ndecode_unfold by auto.
  assert (E : forall s, stripped_ws sep (number_separator nsep (w * h)) s = replace WHITESPACE [] s).
  { intros s. unfold stripped_ws.
    assert (X : forall t, (forall c, In c WHITESPACE -> ~ In c t) -> existsb (fun c => char_in c t) WHITESPACE = false).
    { intros t Ht. apply not_true_is_false. intros X. apply existsb_exists in X. destruct X as [c [X1 X2]].
      apply char_in_iff in X2. apply (Ht c); auto. }
    rewrite !X; auto; intros c Y; apply Hc; auto. }
  rewrite !E. do 3 f_equal. unfold replace. change WHITESPACE with (32 :: [9; 10; 13; 11; 12]).
  rewrite (split_go_item 32 [9; 10; 13; 11; 12] a b) by auto.
  rewrite (split_go_item 32 [9; 10; 13; 11; 12] a) by auto. rewrite split_go_sep.
  destruct (split_go (32 :: [9; 10; 13; 11; 12]) b 0) as [|g gs] eqn:F; [exfalso; eapply split_go_nonempty; eauto|].
  cbn [app_head]. rewrite !join_nil. cbn [concat]. rewrite  ?app_nil_r, ?app_assoc. reflexivity.
Qed.

(** * TypeError *)
Section TypeErr.
Variables (w h : Z) (ns : pystr).

(** What the loop knows about the text [x] read so far. *)
Definition dinv (x : pystr) (d : dstate) : Prop :=
  (forall q, d_current d = Some q -> d_number_str d = [] -> letter q /\ exists y, x = y ++ [q]) /\
  (d_current d = None -> d_present d = []).

Lemma dinv_step : forall x d c d', dinv x d -> decode_char ns d c = Ok d' -> dinv (x ++ [c]) d'.
Proof.
  intros x d c d' [F1 F2] E. unfold decode_char in E.
  destruct (char_in c (d_present d)) eqn:Ep; [discriminate|].
  destruct (char_in c QUALIFIERS) eqn:Ec.
  - apply letter_qual in Ec. destruct (d_current d) as [q|] eqn:Eq.
    + ok_inv. destruct a as [|k l]; [discriminate|]. ok_inv. split; cbn; [|discriminate].
      intros y X _. inv X. eauto.
    + ok_inv. split; cbn; [|discriminate]. intros y X _. inv X. eauto.
  - destruct (is_digit c || char_in c ns); [|discriminate]. destruct (d_current d) as [q|] eqn:Eq; [|discriminate].
    ok_inv. split; cbn; [|discriminate]. intros y _ X. destruct (d_number_str d); discriminate.
Qed.

Lemma dinv_loop : forall g d, foldM (decode_char ns) g dstate0 = Ok d -> dinv g d.
Proof.
  intros g d E.
  assert (X : forall post pre d0, dinv pre d0 -> foldM (decode_char ns) post d0 = Ok d -> dinv (pre ++ post) d).
  { induction post as [|c post IH]; intros pre d0 H1 H2; cbn [foldM] in H2.
    - ok_inv. rewrite app_nil_r. auto.
    - ok_inv. change (c :: post) with ([c] ++ post). rewrite app_assoc. eapply IH; eauto. eapply dinv_step; eauto. }
  apply (X g [] dstate0); auto. split; [discriminate|auto].
Qed.

Lemma build_sets_empty : forall t, build_sets w h t = Ok [] -> forall q l, In (q, l) t -> l = [].
Proof.
  intros t E q l I. unfold build_sets in E. ok_inv.
  match goal with H : mapM _ _ = Ok _, C : concat _ = [] |- _ => revert H C; rename a into b; revert b end.
  revert I. induction t as [|kv t IH]; intros I b H0 H1; [destruct I|].
  cbn [mapM] in H0. ok_inv. cbn [concat] in H1. apply app_eq_nil in H1. destruct H1 as [H1 H1'].
  destruct I as [->|I].
  - cbn [snd] in *. destruct l; auto. discriminate.
  - eapply IH; eauto.
Qed.

Lemma parse_nil : forall s, parse_numbers ns s = Ok [] -> ns = [] /\ s = [].
Proof.
  intros s E. unfold parse_numbers in E. destruct ns as [|c t].
  - split; auto. destruct s as [|x s]; auto. cbn [mapM] in E. ok_inv.
  - unfold PyStr.split in E. cbn [rbind] in E. pose proof (split_go_nonempty (c :: t) s 0).
    destruct (split_go (c :: t) s 0); [congruence|]. cbn [mapM] in E. ok_inv.
Qed.

Lemma dset_in : forall (t : list (Z * list Z)) q l, In (q, l) (dset Z.eqb t q l).
Proof.
  induction t as [|[k v] t IH]; intros q l; cbn [dset]; [left; auto|].
  destruct (q =? k) eqn:E; [left; b2p; subst; auto|right; auto].
Qed.

Lemma single_type_error : forall g, decode_single g w h ns = Err TypeError ->
  ns = [] /\ exists y q, letter q /\ g = y ++ [q].
Proof.
  intros g. rewrite single_unfold.
  destruct (ok_value_foldM (decode_char ns) g dstate0 (char_ok_value ns)) as [[d E]|E]; rewrite E; cbn [rbind]; [|discriminate].
  apply dinv_loop in E. destruct E as [F1 F2].
  destruct (finish_ok_value ns d) as [[all Ea]|Ea]; rewrite Ea; cbn [rbind]; [|discriminate].
  destruct (sets_ok_value w h all) as [[sets Es]|Es]; rewrite Es; cbn [rbind]; [|discriminate].
  destruct sets as [|s t]; [|discriminate]. intros _. unfold finish in Ea.
  destruct (d_current d) as [q|] eqn:Eq; [|rewrite F2 in Ea by auto; discriminate].
  destruct (parse_numbers ns (d_number_str d)) as [l|e] eqn:El; cbn [rbind] in Ea; [|discriminate]. injection Ea as <-.
  assert (l = []) by (eapply build_sets_empty; eauto; apply dset_in). subst l.
  apply parse_nil in El. destruct El as [N1 N2]. split; auto. destruct (F1 q eq_refl N2) as [L [y Y]]. eauto.
Qed.
End TypeErr.

Lemma ndecode_type_error : forall s w h sep nsep, ndecode s w h sep nsep = Err TypeError ->
  nsep = [] /\ 1 <= w /\ 1 <= h /\ w * h <= 9.
Proof.
  intros s w h sep nsep E.
  destruct (Z_lt_le_dec w 1); [rewrite ndecode_small in E by auto; discriminate|].
  destruct (Z_lt_le_dec h 1); [rewrite ndecode_small in E by auto; discriminate|].
  rewrite ndecode_unfold in E by auto.
  destruct (split_fold_total sep QUALIFIERS [stripped_ws sep (number_separator nsep (w * h)) s]) as [gs Eg].
  rewrite Eg in E. cbn [rbind] in E.
  assert (X : number_separator nsep (w * h) = []).
  { clear Eg. revert E. generalize (@nil coord). induction gs as [|g gs IH]; intros acc E; cbn [foldM] in E; [discriminate|].
    destruct (single_outcome g w h (number_separator nsep (w * h))) as [[[m Em]|Em]|Em]; rewrite Em in E; cbn [rbind] in E;
      [eapply IH; eauto|discriminate|]. apply single_type_error in Em. tauto. }
  unfold number_separator in X. destruct nsep; [|discriminate]. destruct (w * h <=? 9) eqn:E9; [|discriminate].
  b2p. auto.
Qed.

(** * Whatever decode returns are fields *)
Lemma qualifier_cells : forall q n w h l p, 1 <= w -> 1 <= h -> qualifier_fun q n w h = Ok l -> In p l -> cell w h p.
Proof.
  intros q n w h l p Hw Hh E Hp.
  assert (R : 0 <= n < w * h).
  { assert (D : 0 <= n < w * h \/ ~ 0 <= n < w * h) by lia. destruct D as [D|D]; auto.
    rewrite qualifier_bad in E by auto. discriminate. }
  unfold qualifier_fun in E. destruct (q =? 114); [|destruct (q =? 99); [|destruct (q =? 98)]].
  - rewrite the_row_ok in E by auto. inv E. apply in_the_row in Hp; tauto.
  - rewrite the_column_ok in E by auto. inv E. apply in_the_column in Hp; tauto.
  - rewrite the_box_ok in E by auto. inv E. apply in_the_box in Hp; tauto.
  - rewrite the_part_ok in E by auto. inv E. apply in_the_part in Hp; tauto.
Qed.

Lemma one_set_cells : forall q l w h s p, 1 <= w -> 1 <= h -> one_set w h q l = Ok s -> In p s -> cell w h p.
Proof.
  intros q l w h s p Hw Hh. unfold one_set.
  assert (X : forall l s0 s, (forall p, In p s0 -> cell w h p) ->
    foldM (fun s number => let* l := qualifier_fun q number w h in Ok (sunion coord_cmp s l)) l s0 = Ok s ->
    forall p, In p s -> cell w h p).
  { intros l0; induction l0 as [|n l0 IH]; intros s0 s1 H E; cbn [foldM] in E; [ok_inv; auto|]. ok_inv.
    eapply IH; [|eassumption]. intros x Hx. apply (In_sunion _ coord_cmp_good) in Hx. destruct Hx as [Hx|Hx]; auto.
    eapply qualifier_cells; eauto. }
  intros E. eapply X; eauto. intros x [].
Qed.

Lemma single_cells : forall g w h ns l p, 1 <= w -> 1 <= h -> decode_single g w h ns = Ok l -> In p l -> cell w h p.
Proof.
  intros g w h ns l p Hw Hh E Hp. rewrite single_unfold in E.
  apply rbind_ok in E. destruct E as [al [_ E]]. apply rbind_ok in E. destruct E as [sets [Es E]].
  destruct sets as [|s t]; [discriminate|]. injection E as <-.
  apply in_fold_inter in Hp. destruct Hp as [Hp _].
  unfold build_sets in Es. apply rbind_ok in Es. destruct Es as [b [H Es]]. injection Es as Es.
  assert (I : In s (concat b)) by (rewrite Es; left; auto). clear Es.
  revert b H I. induction al as [|[q m] al IH]; intros b H I; cbn [mapM] in H.
  - ok_inv. destruct I.
  - ok_inv. cbn [fst snd] in *. cbn [concat] in I. apply in_app_iff in I. destruct I as [I|I]; [|eapply IH; eauto].
    destruct m; [destruct I|destruct I as [<-|[]]]. eapply one_set_cells; eauto.
Qed.

Lemma ndecode_cells : forall s w h sep nsep l, ndecode s w h sep nsep = Ok l ->
  1 <= w /\ 1 <= h /\ sorted_coords l /\ forall p, In p l -> cell w h p.
Proof.
  intros s w h sep nsep l E.
  destruct (Z_lt_le_dec w 1); [rewrite ndecode_small in E by auto; discriminate|].
  destruct (Z_lt_le_dec h 1); [rewrite ndecode_small in E by auto; discriminate|].
  split; auto. split; auto. rewrite ndecode_unfold in E by auto. ok_inv. clear H.
  assert (X : forall gs acc, sset coord_cmp acc -> (forall p, In p acc -> cell w h p) ->
    foldM (fun coords group => let* l := decode_single group w h (number_separator nsep (w * h)) in
         Ok (sunion coord_cmp coords l)) gs acc = Ok l -> sset coord_cmp l /\ forall p, In p l -> cell w h p).
  { intros gs; induction gs as [|g gs IH]; intros acc H1 H2 E; cbn [foldM] in E; [ok_inv; auto|]. ok_inv.
    eapply IH; [| |eassumption].
    - apply sunion_sset; auto. apply coord_cmp_good.
    - intros x Hx. apply (In_sunion _ coord_cmp_good) in Hx. destruct Hx as [Hx|Hx]; auto. eapply single_cells; eauto. }
  destruct (X a [] ltac:(apply sset_nil) ltac:(intros p []) H0) as [S1 S2]. split; auto. apply sset_sorted; auto.
Qed.

(** * The empty collection *)
Lemma nencode_nil : forall w h ub sep nsep, 1 <= w -> 1 <= h -> nencode [] w h ub sep nsep = Ok [].
Proof.
  intros w h ub sep nsep Hw Hh. unfold nencode.
  replace ((w <? 1) || (h <? 1)) with false by (symmetry; apply orb_false_iff; split; apply Z.ltb_ge; auto).
  destruct ub as [[|]|]; reflexivity.
Qed.
Lemma ndecode_nil : forall w h sep nsep, ndecode [] w h sep nsep = Err ValueError.
Proof.
  intros w h sep nsep.
  destruct (Z_lt_le_dec w 1); [apply ndecode_small; auto|].
  destruct (Z_lt_le_dec h 1); [apply ndecode_small; auto|].
  rewrite ndecode_unfold, stripped_ws_id, split_single_group; auto.
  - intros q _ [a [b X]]. destruct a; [destruct sep; discriminate|discriminate].
  - intros [a [b X]]. destruct a; discriminate.
Qed.

(** * Actions *)
Lemma drop_while_spaces : forall f b s, (forall c, In c b -> f c = true) -> drop_while f (b ++ s) = drop_while f s.
Proof.
  intros f b s; induction b as [|c b IH]; intros H; auto. cbn [app drop_while]. rewrite (H c) by (left; auto).
  apply IH. intros x Hx; apply H; right; auto.
Qed.
Lemma strip_around : forall b1 b2 s, (forall c, In c (b1 ++ b2) -> is_space c = true) ->
  s <> [] -> (forall c t, s = c :: t -> is_space c = false) -> (forall t c, s = t ++ [c] -> is_space c = false) ->
  strip (b1 ++ s ++ b2) = s.
Proof.
  intros b1 b2 s Hb Hn H1 H2. unfold strip, strip_by.
  rewrite drop_while_spaces by (intros c Hc; apply Hb, in_app_iff; auto).
  destruct s as [|c t]; [congruence|].
  cbn [app drop_while]. rewrite (H1 c t eq_refl). change (c :: t ++ b2) with ((c :: t) ++ b2). rewrite rev_app_distr.
  rewrite drop_while_spaces by (intros x Hx; apply Hb, in_app_iff; right; apply in_rev; auto).
  destruct (last_char (c :: t) Hn) as [u [x E]]. rewrite E. rewrite rev_app_distr. cbn [rev app drop_while].
  rewrite (H2 u x E). cbn [rev]. rewrite rev_involutive. reflexivity.
Qed.

Lemma not_space_letter : forall c, letter c -> is_space c = false.
Proof. intros c [->|[->|[->| ->]]]; reflexivity. Qed.

Section Act.
Variables (w h : Z).
Hypothesis Hw : 1 <= w.
Hypothesis Hh : 1 <= h.
Variable cs : list coord.
Hypothesis Hcs : cs <> [].
Hypothesis Hc : forall p, In p cs -> cell w h p.
Variable ub : option bool.
Variable t : pystr.
Hypothesis Ht : nencode cs w h ub (lit ",") [] = Ok t.

Lemma comma_ok : separators_ok (lit ",") [].
Proof.
  split; [discriminate|]. intros c [[<-|[]]|[]]. split; unfold letter, digit; cbn; lia.
Qed.

Lemma text_shape : (exists c u, t = c :: u /\ letter c) /\ (forall c, In c t -> letter c \/ digit c \/ c = 44).
Proof.
  destruct (notation_groups w h cs ub (lit ",") [] Hw Hh Hcs Hc) as [gs [G1 [G2 [G3 _]]]].
  rewrite Ht in G2. injection G2 as ->. split.
  - destruct gs as [|g gs]; [congruence|]. cbn [map]. rewrite join_tailtext. destruct (G3 g (or_introl eq_refl)) as [[S1 [_ S3]] _].
    destruct g as [|[q l] g]; [congruence|]. exists q. eexists. split; [reflexivity|]. apply (S3 q l); left; auto.
  - intros c Hin. apply in_join in Hin. destruct Hin as [Hin|[a [Ha Hin]]].
    + destruct Hin as [<-|[]]. auto.
    + apply in_map_iff in Ha. destruct Ha as [g [<- Hg]]. destruct (G3 g Hg) as [[_ [_ S3]] _].
      apply group_chars in Hin; auto.
      * destruct Hin as [Hin|[Hin|Hin]]; auto. unfold number_separator in Hin. destruct (w * h <=? 9); [destruct Hin|destruct Hin as [<-|[]]; auto].
      * intros x Hx. destruct (w * h <=? 9); [destruct Hx|]. destruct Hx as [<-|[]]. unfold letter, digit; lia.
Qed.

Lemma text_decodes : exists l, ndecode t w h (lit ",") [] = Ok l /\ sorted_coords l /\ forall p, In p l <-> In p cs.
Proof.
  destruct (notation_roundtrip w h cs ub (lit ",") [] Hw Hh comma_ok Hcs Hc) as [t' [l [E1 [E2 [E3 E4]]]]].
  rewrite Ht in E1. injection E1 as <-. eauto.
Qed.

Lemma text_not : forall c, ~ letter c -> ~ digit c -> c <> 44 -> ~ In c t.
Proof. intros c H1 H2 H3 X. apply text_shape in X. tauto. Qed.

Lemma decode_set : forall n b1 b2, (forall c, In c (b1 ++ b2) -> is_space c = true) ->
  exists l, decode_action (b1 ++ (t ++ lit "=" ++ str_of_int n) ++ b2) w h = Ok (SetNumber l (AInt n)) /\
    sorted_coords l /\ forall p, In p l <-> In p cs.
Proof.
  intros n b1 b2 Hb. destruct text_decodes as [l [E1 [E2 E3]]]. exists l. splits; auto.
  destruct text_shape as [[c0 [u [Et Lc]]] _].
  unfold decode_action. rewrite strip_around; auto.
  - rewrite Et at 1. cbn [app starts_with lit]. change (lit "-") with [45]. cbn [starts_with].
    replace (45 =? c0) with false by (symmetry; apply Z.eqb_neq; unfold letter in Lc; lia). cbn [andb].
    assert (N60 : ~ In 60 (t ++ lit "=" ++ str_of_int n)).
    { intros X. apply in_app_iff in X. destruct X as [X|X].
      - revert X. apply text_not; unfold letter, digit; lia.
      - apply in_app_iff in X. destruct X as [[X|[]]|X]; [discriminate|]. apply str_of_int_chars in X.
        rewrite is_digit_range in X. lia. }
    unfold str_in at 1. change (lit "<>") with [60; 62]. rewrite cut_none by auto.
    change (lit "=") with [61]. unfold str_in, str_partition.
    rewrite (cut_app 61 []) by (apply text_not; unfold letter, digit; lia).
    rewrite int_of_str_of_int. cbn [rbind]. rewrite E1. reflexivity.
  - rewrite Et. discriminate.
  - intros c x X. rewrite Et in X. injection X as <- _. apply not_space_letter; auto.
  - intros x c X. destruct (last_char (str_of_int n) (str_of_int_nonempty n)) as [v [y Ey]].
    rewrite Ey, !app_assoc in X. apply app_inj_tail in X. destruct X as [_ <-].
    apply is_space_digit. apply (str_of_int_chars n). rewrite Ey. apply in_app_iff; right; left; auto.
Qed.

Lemma decode_remove : forall ds b1 b2, (forall c, In c (b1 ++ b2) -> is_space c = true) ->
  (forall c, In c ds -> digit c) ->
  exists l, decode_action (b1 ++ (t ++ lit "<>" ++ ds) ++ b2) w h = Ok (RemoveCandidates l (map (fun c => AInt (c - 48)) ds)) /\
    sorted_coords l /\ forall p, In p l <-> In p cs.
Proof.
  intros ds b1 b2 Hb Hd. destruct text_decodes as [l [E1 [E2 E3]]]. exists l. splits; auto.
  destruct text_shape as [[c0 [u [Et Lc]]] _].
  unfold decode_action. rewrite strip_around; auto.
  - rewrite Et at 1. cbn [app starts_with lit]. change (lit "-") with [45]. cbn [starts_with].
    replace (45 =? c0) with false by (symmetry; apply Z.eqb_neq; unfold letter in Lc; lia). cbn [andb].
    change (lit "<>") with (60 :: [62]). unfold str_in at 1, str_partition at 1.
    rewrite (cut_app 60 [62]) by (apply text_not; unfold letter, digit; lia).
    unfold ints_of_chars. rewrite (mapM_ok _ (fun c => c - 48)).
    + cbn [rbind]. rewrite E1. cbn [rbind]. rewrite map_map. reflexivity.
    + intros c Hin. apply int_of_digit, digit_is; auto.
  - rewrite Et. discriminate.
  - intros c x X. rewrite Et in X. injection X as <- _. apply not_space_letter; auto.
  - intros x c X. destruct ds as [|d0 ds].
    + rewrite app_nil_r in X. change (lit "<>") with ([60] ++ [62]) in X. rewrite app_assoc in X.
      apply app_inj_tail in X. destruct X as [_ <-]. reflexivity.
    + assert (N : d0 :: ds <> []) by discriminate. destruct (last_char _ N) as [v [y Ey]].
      rewrite Ey, !app_assoc in X. apply app_inj_tail in X. destruct X as [_ <-].
      apply is_space_digit. left. apply digit_is, Hd. rewrite Ey. apply in_app_iff; right; left; auto.
Qed.
End Act.

(** ** Applying them *)
Lemma field_pset : forall s p v q, field (pset s p v) q <-> field s q.
Proof. reflexivity. Qed.
Lemma field_pcset : forall s p v q, field (pcset s p v) q <-> field s q.
Proof. reflexivity. Qed.

Lemma apply_set : forall s l n, wf s -> (forall p, In p l -> field s p) ->
  exists s', apply_action (SetNumber l (AInt n)) s = Some (Ok s') /\ wf s' /\ box_size s' = box_size s /\
    forall p, field s p -> (In p l -> num s' p = n /\ cand s' p = [n]) /\
                           (~ In p l -> num s' p = num s p /\ cand s' p = cand s p).
Proof.
  intros s l n Hs Hl. unfold apply_action. cbn [atom_int].
  destruct (foldM_ind (fun s rc => let* s := setitem s (fst rc) (snd rc) n in set_candidates s (fst rc) (snd rc) [n])
    (fun l s' => wf s' /\ box_size s' = box_size s /\ forall p, field s p -> (In p l -> num s' p = n /\ cand s' p = [n]) /\
                           (~ In p l -> num s' p = num s p /\ cand s' p = cand s p)) l s) as [s' [E I]].
  - splits; auto. intros p Hp; split; [intros []|auto].
  - intros pre [r c] post acc El [W [B I]]. cbn [fst snd].
    assert (F : field acc (r, c)).
    { assert (F0 : field s (r, c)) by (apply Hl; rewrite El; apply in_app_iff; right; left; auto).
      unfold field in *. injection B as -> ->. auto. }
    rewrite setitem_ok by auto. cbn [rbind]. assert (W1 : wf (pset acc (r, c) n)) by (apply pset_wf; auto).
    rewrite set_candidates_ok by auto. eexists; split; [reflexivity|].
    assert (Z1 : zsset (sof_list zcmp [n])) by (apply (sof_list_sset _ zcmp_good)).
    splits; auto.
    + apply pcset_wf; auto.
    + intros p Hp. assert (Fp : field acc p) by (unfold field in *; injection B as -> ->; auto).
      destruct (I p Hp) as [I1 I2].
      rewrite num_pcset, num_pset, cand_pcset, cand_pset by auto.
      destruct (coord_eqb p (r, c)) eqn:E.
      * apply coord_eqb_eq in E. subst p. split; [intros _; split; auto|].
        intros X. exfalso; apply X, in_app_iff; right; left; auto.
      * apply coord_eqb_neq in E. split; intros X.
        -- apply I1. apply in_app_iff in X. destruct X as [X|[X|[]]]; auto. congruence.
        -- apply I2. intros Y; apply X, in_app_iff; auto.
  - exists s'. rewrite E. tauto.
Qed.

Lemma apply_remove : forall s l ds, wf s -> (forall p, In p l -> field s p) ->
  exists s', apply_action (RemoveCandidates l (map AInt ds)) s = Some (Ok s') /\ wf s' /\ box_size s' = box_size s /\
    forall p, field s p -> num s' p = num s p /\
      (In p l -> forall v, In v (cand s' p) <-> In v (cand s p) /\ ~ In v ds) /\
      (~ In p l -> cand s' p = cand s p).
Proof.
  intros s l ds Hs Hl. unfold apply_action.
  assert (A : atoms_ints (map AInt ds) = Some ds).
  { induction ds as [|d ds IH]; auto. cbn [map atoms_ints atom_int]. rewrite IH. reflexivity. }
  rewrite A. clear A.
  destruct (foldM_ind (fun s rc => remove_candidates s (fst rc) (snd rc) ds)
    (fun l s' => wf s' /\ box_size s' = box_size s /\ forall p, field s p -> num s' p = num s p /\
      (In p l -> forall v, In v (cand s' p) <-> In v (cand s p) /\ ~ In v ds) /\
      (~ In p l -> cand s' p = cand s p)) l s) as [s' [E I]].
  - splits; auto. intros p Hp; splits; auto. intros [].
  - intros pre [r c] post acc El [W [B I]]. cbn [fst snd].
    assert (F0 : field s (r, c)) by (apply Hl; rewrite El; apply in_app_iff; right; left; auto).
    assert (F : field acc (r, c)) by (unfold field in *; injection B as -> ->; auto).
    rewrite remove_candidates_ok by auto. eexists; split; [reflexivity|].
    assert (Z1 : zsset (sdiff zcmp (cand acc (r, c)) (sof_list zcmp ds))) by (apply sdiff_sset; apply cand_sset; auto).
    splits; auto.
    + apply pcset_wf; auto.
    + intros p Hp. assert (Fp : field acc p) by (unfold field in *; injection B as -> ->; auto).
      destruct (I p Hp) as [I0 [I1 I2]].
      rewrite num_pcset, cand_pcset by auto. split; auto.
      destruct (coord_eqb p (r, c)) eqn:E.
      * apply coord_eqb_eq in E. subst p. split.
        -- intros _ v. rewrite (In_sdiff _ zcmp_good), (In_sof_list _ zcmp_good).
           destruct (in_dec (good_eq_dec _ coord_cmp_good) (r, c) pre) as [D|D]; [rewrite (I1 D v)|rewrite (I2 D)]; tauto.
        -- intros X. exfalso; apply X, in_app_iff; right; left; auto.
      * apply coord_eqb_neq in E. split; intros X.
        -- apply I1. apply in_app_iff in X. destruct X as [X|[X|[]]]; auto. congruence.
        -- apply I2. intros Y; apply X, in_app_iff; auto.
  - exists s'. rewrite E. tauto.
Qed.

(** ** "-" *)
Lemma minus_rejected : forall s w h u, strip s = 45 :: u ->
  decode_action s w h = Err ValueError \/ decode_action s w h = Err TypeError.
Proof.
  intros s w h u E. unfold decode_action. rewrite E. change (lit "-") with [45]. cbn [starts_with].
  rewrite Z.eqb_refl. cbn [andb]. unfold str_partition. change (lit " ") with [32].
  assert (L : forall l r, match cut [32] (45 :: u) with Some lr => lr | None => (45 :: u, []) end = (l, r) ->
    exists l', l = 45 :: l').
  { intros l r X. cbn [cut starts_with] in X. change (32 =? 45) with false in X. cbn [andb] in X.
    destruct (cut [32] u) as [[a b]|]; injection X as <- _; eauto. }
  destruct (match cut [32] (45 :: u) with Some lr => lr | None => (45 :: u, []) end) as [l r] eqn:El.
  destruct (L l r eq_refl) as [l' ->].
  unfold pystr in *. rewrite El.
  destruct (ndecode_outcome r w h (lit ",") []) as [[[x ->]| ->]| ->]; cbn [rbind]; auto.
Qed.

(** ** C63 *)
Lemma encode_decoded : forall s w h a, decode_action s w h = Ok a ->
  encode_action a w h = Err TypeError \/
  ((exists cs, a = RemoveCandidates cs []) /\ encode_action a w h = Ok None).
Proof.
  intros s w h a E. unfold decode_action in E.
  assert (X : (exists cs n, a = SetNumber cs (AInt n) /\ exists u, ndecode u w h (lit ",") [] = Ok cs) \/
    (exists cs ds, a = RemoveCandidates cs (map AInt ds) /\ exists u, ndecode u w h (lit ",") [] = Ok cs)).
  { destruct (starts_with (lit "-") (strip s)).
    - destruct (str_partition (lit " ") (strip s)). ok_inv. eauto 8.
    - destruct (str_in (lit "<>") (strip s)).
      + destruct (str_partition (lit "<>") (strip s)). ok_inv. eauto 8.
      + destruct (str_in (lit "=") (strip s)); [|discriminate].
        destruct (str_partition (lit "=") (strip s)). ok_inv. eauto 8. }
  assert (Y : forall cs u, ndecode u w h (lit ",") [] = Ok cs -> exists t, nencode cs w h None (lit ",") [] = Ok t).
  { intros cs u Hu. apply ndecode_cells in Hu. apply nencode_value_error. tauto. }
  destruct X as [[cs [n [-> [u Hu]]]]|[cs [ds [-> [u Hu]]]]]; destruct (Y cs u Hu) as [t Et]; unfold encode_action; rewrite Et; cbn [rbind].
  - left; auto.
  - destruct ds as [|d ds]; [right; split; eauto|left; auto].
Qed.

(** * The immediate repetition, for decode *)
Lemma not_occurs_char : forall (p s : pystr) c, In c p -> ~ In c s -> ~ occurs p s.
Proof. intros p s c H1 H2 [a [b ->]]. apply H2, in_app_iff; right. apply in_app_iff; auto. Qed.

Lemma adjacent_overwrites : forall w h sep q l1 l2 g, 1 <= w -> 1 <= h -> w * h <= 9 ->
  separators_ok sep [] -> group_shape [] ((q, l2) :: g) -> l1 <> [] -> (forall k, In k l1 -> 0 <= k <= 9) ->
  ndecode (group_text [] ((q, l1) :: (q, l2) :: g)) w h sep [] = ndecode (group_text [] ((q, l2) :: g)) w h sep [].
Proof.
  intros w h sep q l1 l2 g Hw Hh H9 Hs Hg Hl1 Hk.
  assert (N : number_separator [] (w * h) = [])
    by (unfold number_separator; replace (w * h <=? 9) with true by (symmetry; apply Z.leb_le; auto); auto).
  assert (Q : letter q) by (destruct Hg as [_ [_ X]]; apply (X q l2); left; auto).
  assert (C2 : forall c, In c (group_text [] ((q, l2) :: g)) -> letter c \/ digit c).
  { intros c Hc. apply group_chars in Hc.
    - destruct Hc as [Hc|[Hc|[]]]; auto.
    - intros x [].
    - destruct Hg as [_ [_ X]]. auto. }
  assert (C1 : forall c, In c (group_text [] ((q, l1) :: (q, l2) :: g)) -> letter c \/ digit c).
  { intros c Hc. apply group_chars in Hc.
    - destruct Hc as [Hc|[Hc|[]]]; auto.
    - intros x [].
    - intros x l [X|X]; [injection X as <- <-|destruct Hg as [_ [_ Y]]; eauto].
      splits; auto. intros k Hin. specialize (Hk k Hin). lia. }
  assert (R : forall s, (forall c, In c s -> letter c \/ digit c) ->
    ndecode s w h sep [] = foldM (fun coords group => let* l := decode_single group w h [] in
         Ok (sunion coord_cmp coords l)) [s] []).
  { intros s Hc. rewrite ndecode_unfold by auto. rewrite N. rewrite stripped_ws_id.
    - rewrite split_single_group; [reflexivity|]. intros x _. destruct Hs as [S1 S2]. destruct sep as [|c sep]; [congruence|].
      apply (not_occurs_char _ _ c); [left; auto|]. intros X. destruct (S2 c (or_introl (or_introl eq_refl))) as [Y1 Y2].
      apply Hc in X. tauto.
    - apply (not_occurs_char _ _ 32); [left; auto|]. intros X. apply Hc in X. unfold letter, digit in X. lia. }
  rewrite (R _ C1), (R _ C2). cbn [foldM]. rewrite adjacent_single; auto.
  - intros k Hin. specialize (Hk k Hin). lia.
Qed.
