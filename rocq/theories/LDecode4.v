(** How a whole text is read; actions. *)
From Verif Require Export LDecode3 LNotation3.
Import PyStr MNotation.

(** * The groups of a text *)
Section Text.
Variables sep nsep : pystr.
Hypothesis Hsep : separators_ok sep nsep.

Lemma groups_ok : forall ns s, exists gs, foldM (split_groups sep) QUALIFIERS [stripped_ws sep ns s] = Ok gs /\ groups_of sep ns s gs.
Proof.
  intros ns s. destruct Hsep as [N H]. destruct (cut_ok sep N ltac:(intros c I; apply H; auto) (stripped_ws sep ns s)) as [gs [E C]].
  exists gs. split; auto. exists (stripped_ws sep ns s). split; auto. apply cleaned_strip. reflexivity.
Qed.
Lemma groups_unique : forall ns s gs gs', groups_of sep ns s gs -> groups_of sep ns s gs' -> gs = gs'.
Proof.
  intros ns s gs gs' [t [A B]] [t' [A' B']]. apply cleaned_strip in A. apply cleaned_strip in A'. subst t t'.
  destruct Hsep as [N H]. apply (cut_unique sep N ltac:(intros c I; apply H; auto) gs gs' _ B B').
Qed.

Variables w h : Z.
Hypothesis Hw : 1 <= w.
Hypothesis Hh : 1 <= h.
Let ns := number_separator nsep (w * h).
Hypothesis Hp : plain_separator ns.
Lemma ns_chars : forall c, In c ns -> ~ letter c /\ ~ digit c.
Proof. apply (seps_effective sep); auto. Qed.

Definition fold_groups (gs : list pystr) (acc : list coord) : res (list coord) :=
  foldM (fun coords group => let* l := decode_single group w h ns in Ok (sunion coord_cmp coords l)) gs acc.
Lemma ndecode_groups : forall s gs, groups_of sep ns s gs -> ndecode s w h sep nsep = fold_groups gs [].
Proof.
  intros s gs G. rewrite ndecode_unfold by auto. fold ns. destruct (groups_ok ns s) as [gs' [E G']].
  rewrite E, (groups_unique ns s gs gs' G G'). reflexivity.
Qed.

Lemma fold_ok : forall gs acc l, sset coord_cmp acc -> fold_groups gs acc = Ok l ->
  exists fs, Forall2 (accepted ns (w * h)) gs fs /\ sset coord_cmp l /\
    forall p, In p l <-> In p acc \/ exists f, In f fs /\ described w h f p.
Proof.
  induction gs as [|g gs IH]; intros acc l A E; unfold fold_groups in E; cbn [foldM] in E.
  - injection E as <-. exists []. split; [constructor|]. split; [auto|]. intros p. split; [auto|]. intros [H|[f [[] _]]]; auto.
  - destruct (decode_single g w h ns) as [x|e] eqn:D; cbn [rbind] in E; [|discriminate].
    destruct (single_ok_iff ns ns_chars Hp w h Hw Hh g x D) as [f [Af [Sx Mx]]].
    destruct (IH (sunion coord_cmp acc x) l) as [fs [F [S M]]]; auto; [apply (sunion_sset _ coord_cmp_good); auto|].
    exists (f :: fs). split; [constructor; auto|]. split; auto. intros p. rewrite M, (In_sunion _ coord_cmp_good), Mx. split.
    + intros [[H|H]|[f' [H1 H2]]]; auto; right; [exists f|exists f']; split; auto; [left; auto|right; auto].
    + intros [H|[f' [[<-|H1] H2]]]; auto. right. eauto.
Qed.
Lemma fold_accepted : forall gs fs acc, Forall2 (accepted ns (w * h)) gs fs -> exists l, fold_groups gs acc = Ok l.
Proof.
  intros gs fs acc F. revert acc. induction F as [|g f gs fs A F IH]; intros acc; unfold fold_groups; cbn [foldM]; [eauto|].
  destruct (single_accepted ns ns_chars Hp w h Hw Hh g f A) as [x [-> _]]. cbn [rbind]. apply IH.
Qed.
Lemma sorted_same : forall l l', sset coord_cmp l -> sset coord_cmp l' -> (forall p, In p l <-> In p l') -> l = l'.
Proof. intros l l' A B H. apply (sset_ext _ coord_cmp_good); auto. Qed.

Lemma ndecode_iff : forall s gs l, groups_of sep ns s gs -> (ndecode s w h sep nsep = Ok l <->
  exists fs, Forall2 (accepted ns (w * h)) gs fs /\ sorted_coords l /\ forall p, In p l <-> exists f, In f fs /\ described w h f p).
Proof.
  intros s gs l G. rewrite (ndecode_groups s gs G). split.
  - intros E. destruct (fold_ok gs [] l) as [fs [F [S M]]]; [constructor|auto|]. exists fs. split; auto. split; [apply sset_sorted; auto|].
    intros p. rewrite M. split; [intros [[]|X]; auto|auto].
  - intros [fs [F [S M]]]. destruct (fold_accepted gs fs [] F) as [l' E]. rewrite E. f_equal.
    destruct (fold_ok gs [] l' ltac:(constructor) E) as [fs' [F' [S' M']]]. apply sorted_same; auto; [apply sset_sorted; auto|].
    assert (X : fs' = fs).
    { clear - F F' Hsep Hp. revert fs' F'. induction F as [|g f gs fs A F IH]; intros fs' F'; inversion F' as [|g' f' gs' fs2 A' F2]; subst; auto.
      f_equal; [|auto]. destruct A as [A _], A' as [A' _]. apply (formed_unique ns ns_chars Hp g); auto. }
    subst fs'. intros p. rewrite M', M. split; [intros [[]|Y]; auto|auto].
Qed.
Lemma fold_error : forall gs acc e, fold_groups gs acc = Err e <->
  exists a fs g b, gs = a ++ g :: b /\ Forall2 (accepted ns (w * h)) a fs /\ decode_single g w h ns = Err e.
Proof.
  induction gs as [|g gs IH]; intros acc e; unfold fold_groups; cbn [foldM].
  - split; [discriminate|]. intros [a [fs [g [b [E _]]]]]. destruct a; discriminate.
  - destruct (decode_single g w h ns) as [x|e'] eqn:D; cbn [rbind].
    + change (fold_groups gs (sunion coord_cmp acc x) = Err e <-> exists a fs g0 b, g :: gs = a ++ g0 :: b /\
        Forall2 (accepted ns (w * h)) a fs /\ decode_single g0 w h ns = Err e). rewrite IH. split.
      * intros [a [fs [g0 [b [-> [F E]]]]]]. destruct (single_ok_iff ns ns_chars Hp w h Hw Hh g x D) as [f [Af _]].
        exists (g :: a), (f :: fs), g0, b. splits; auto.
      * intros [a [fs [g0 [b [E [F H]]]]]]. destruct a as [|a0 a]; cbn [app] in E; injection E as -> E; [congruence|].
        inversion F; subst. eauto 8.
    + split.
      * intros X. injection X as ->. exists [], [], g, gs. splits; auto.
      * intros [a [fs [g0 [b [E [F H]]]]]]. destruct a as [|a0 a]; cbn [app] in E; injection E as -> E; [congruence|].
        inversion F as [|? f ? ? A ?]; subst. destruct (single_accepted ns ns_chars Hp w h Hw Hh a0 f A) as [y [Y _]]. congruence.
Qed.
Lemma text_type_error : forall s gs, groups_of sep ns s gs -> (ndecode s w h sep nsep = Err TypeError <->
  exists a fs g b, gs = a ++ g :: b /\ Forall2 (accepted ns (w * h)) a fs /\ numberless ns g).
Proof.
  intros s gs G. rewrite (ndecode_groups s gs G), fold_error.
  split; intros [a [fs [g [b [E [F H]]]]]]; exists a, fs, g, b; splits; auto; apply (single_type_error ns ns_chars Hp w h Hw Hh g); auto.
Qed.
Lemma text_value_error : forall s gs, groups_of sep ns s gs -> (ndecode s w h sep nsep = Err ValueError <->
  exists a fs g b, gs = a ++ g :: b /\ Forall2 (accepted ns (w * h)) a fs /\ ~ numberless ns g /\ forall f, ~ accepted ns (w * h) g f).
Proof.
  intros s gs G. rewrite (ndecode_groups s gs G), fold_error.
  split; intros [a [fs [g [b [E [F H]]]]]]; exists a, fs, g, b; splits; auto.
  - intros N. apply (single_type_error ns ns_chars Hp w h Hw Hh g) in N. congruence.
  - intros f A. destruct (single_accepted ns ns_chars Hp w h Hw Hh g f A) as [y [Y _]]. congruence.
  - destruct H as [N A]. destruct (single_outcome g w h ns) as [[[x X]|X]|X]; auto.
    + destruct (single_ok_iff ns ns_chars Hp w h Hw Hh g x X) as [f [Af _]]. destruct (A f Af).
    + destruct N. apply (single_type_error ns ns_chars Hp w h Hw Hh g); auto.
Qed.
End Text.

(** * Actions *)
Lemma trimmed_strip : forall s t, trimmed s t <-> t = strip s.
Proof. intros s t. unfold trimmed, strip. split; [intros H; symmetry; apply strip_by_iff; auto|]. intros ->. apply strip_by_iff. reflexivity. Qed.

Lemma cut_step : forall m s, cut m s = if starts_with m s then Some ([], skipn (length m) s) else
  match s with [] => None | c :: t => match cut m t with Some (a, b) => Some (c :: a, b) | None => None end end.
Proof. intros m [|c s]; reflexivity. Qed.
Lemma cut_first_cut : forall m t l r, m <> [] -> cut m t = Some (l, r) -> first_cut m t l r.
Proof.
  intros m t. induction t as [|c t IH]; intros l r Hm E; rewrite cut_step in E; destruct (starts_with m _) eqn:S.
  - apply starts_with_iff in S. destruct S as [x S]. destruct m; [congruence|discriminate].
  - discriminate.
  - apply starts_with_iff in S. destruct S as [x S]. rewrite S in E. rewrite skipn_app, skipn_all, Nat.sub_diag in E. cbn [app skipn] in E.
    injection E as <- <-. split; [exact S|]. intros a b X. apply (f_equal (@length _)) in X. cbn [app] in X. rewrite !app_length in X. destruct b; auto. cbn in X. lia.
  - destruct (cut m t) as [[a b]|] eqn:C; [|discriminate]. injection E as <- <-. destruct (IH a b Hm eq_refl) as [-> F]. split; [reflexivity|].
    intros a' b' X. destruct a' as [|x a'].
    + exfalso. cbn [app] in X. assert (Y : starts_with m (c :: a ++ m ++ b) = true); [|congruence].
      apply starts_with_iff. exists (b' ++ b). transitivity ((c :: a ++ m) ++ b); [cbn [app]; rewrite <- app_assoc; reflexivity|]. cbn [app] in X. rewrite X, <- app_assoc. reflexivity.
    + cbn [app] in X. injection X as _ X. eapply F; eauto.
Qed.
Lemma cut_no : forall m t, cut m t = None <-> ~ occurs m t.
Proof.
  intros m t. induction t as [|c t IH]; rewrite cut_step; destruct (starts_with m _) eqn:S.
  - split; [discriminate|]. intros H. destruct H. apply starts_with_iff in S. destruct S as [x S]. exists [], x. exact S.
  - split; auto. intros _ [a [b E]]. assert (X : starts_with m [] = true); [|congruence]. destruct a; [|discriminate]. apply starts_with_iff. exists b. exact E.
  - split; [discriminate|]. intros H. destruct H. apply starts_with_iff in S. destruct S as [x S]. exists [], x. exact S.
  - split.
    + intros E O. apply occurs_cons in O. destruct O as [O|O]; [congruence|]. destruct (cut m t) as [[a b]|]; [discriminate|]. apply (proj1 IH eq_refl); auto.
    + intros H. destruct (cut m t) as [[a b]|] eqn:C; auto. exfalso. assert (X : ~ occurs m t); [|apply IH in X; discriminate].
      intros O. apply H. apply (occurs_suffix m [c]); auto.
Qed.
Lemma first_cut_unique : forall m t l r l' r', first_cut m t l r -> first_cut m t l' r' -> l = l' /\ r = r'.
Proof.
  assert (X : forall m (l r l' r' e : pystr), (forall a b, l ++ m = a ++ m ++ b -> b = []) -> l ++ m = (l' ++ m) ++ e -> r' = e ++ r -> l = l' /\ r = r').
  { intros m l r l' r' e F E R. rewrite <- app_assoc in E. pose proof (F l' e E) as ->. rewrite app_nil_r in E. apply app_inv_tail in E. auto. }
  intros m t l r l' r' [-> F] [E F']. rewrite !app_assoc in E. apply app_eq_app in E. destruct E as [e [[E1 E2]|[E1 E2]]].
  - eapply X; eauto.
  - destruct (X m l' r' l r e) as [-> ->]; auto.
Qed.
Lemma cut_iff : forall m t l r, m <> [] -> (cut m t = Some (l, r) <-> first_cut m t l r).
Proof.
  intros m t l r Hm. split; [apply cut_first_cut; auto|]. intros F. destruct (cut m t) as [[a b]|] eqn:C.
  - apply cut_first_cut in C; auto. destruct (first_cut_unique m t l r a b F C) as [-> ->]. auto.
  - apply cut_no in C. destruct C. destruct F as [-> _]. exists l, r. reflexivity.
Qed.

Lemma mapM_forall2 : forall {A B} (f : A -> res B) l vs, mapM f l = Ok vs <-> Forall2 (fun x v => f x = Ok v) l vs.
Proof.
  intros A B f l; induction l as [|x l IH]; intros vs; cbn [mapM].
  - split; [intros E; injection E as <-; constructor|]. intros F. inversion F. auto.
  - split.
    + destruct (f x) as [v|e] eqn:E; cbn [rbind]; [|discriminate]. destruct (mapM f l) as [r|e] eqn:E2; cbn [rbind]; [|discriminate].
      intros X. injection X as <-. constructor; auto. apply IH; auto.
    + intros F. inversion F as [|? v ? r F1 F2]; subst. rewrite F1. cbn [rbind]. apply IH in F2. rewrite F2. reflexivity.
Qed.
Lemma forall2_iff : forall {A B} (P Q : A -> B -> Prop) l m, (forall a b, P a b <-> Q a b) -> (Forall2 P l m <-> Forall2 Q l m).
Proof. intros A B P Q l m H. split; intros F; induction F; constructor; auto; apply H; auto. Qed.
Lemma int_char : forall c k, int_of_str [c] = Ok k <-> digit_of c k.
Proof.
  intros c k. rewrite int_text_iff. split.
  - intros [a [sgn [ps [b [ds [E [B [S [N [Q [F ->]]]]]]]]]]].
    destruct ps as [|p ps]; [congruence|]. pose proof (Q p (or_introl eq_refl)) as Np. destruct p as [|x p]; [congruence|].
    destruct (join_head [95] (x :: p) ps) as [t Ht].
    assert (E' : [c] = a ++ sgn ++ (x :: p ++ t) ++ b) by (rewrite Ht in E; exact E).
    assert (L : a = [] /\ sgn = [] /\ p ++ t = [] /\ b = []).
    { apply (f_equal (@length _)) in E'. rewrite !app_length in E'. cbn [length] in E'. rewrite app_length in E'.
      destruct a, sgn, p, t, b; cbn [length] in E'; try lia; auto. }
    destruct L as [-> [-> [L ->]]]. apply app_eq_nil in L. destruct L as [-> ->]. cbn [app] in E'. injection E' as <-.
    destruct ps as [|y ps]; [|rewrite join_cons in Ht; discriminate].
    cbn [concat app] in F. inversion F as [|x0 d l0 ds' F1 F2]; subst. inversion F2; subst. unfold number_of. cbn [fold_left].
    replace (10 * 0 + d) with d by lia. auto.
  - intros D. exists [], [], [[c]], [], [k]. splits; auto.
    + intros x [].
    + discriminate.
    + intros x [<-|[]]. discriminate.
    + cbn [concat app]. constructor; auto.
Qed.
Lemma ints_of_digits : forall r l, ints_of_chars r = Ok l <-> Forall2 digit_of r l.
Proof.
  intros r l. unfold ints_of_chars. rewrite mapM_forall2. apply forall2_iff. apply int_char.
Qed.

Lemma commas_ok : separators_ok (lit ",") [].
Proof. change (lit ",") with [44]. split; [discriminate|]. intros c [[<-|[]]|[]]. unfold letter, digit. lia. Qed.
Lemma default_plain : forall n, plain_separator (number_separator [] n).
Proof. intros n c I. unfold number_separator in I. destruct (n <=? 9); [destruct I|]. destruct I as [<-|[]]. splits; try lia; [reflexivity|].
  intros d D. apply digit_of_facts in D. lia. Qed.

Lemma minus_left : forall u l, ints_of_chars (45 :: u) <> Ok l.
Proof. intros u l E. apply ints_of_digits in E. inversion E as [|c d x y D F]; subst. apply digit_of_facts in D. lia. Qed.
Lemma minus_start : forall t, starts_with (lit "-") t = true <-> exists u, t = 45 :: u.
Proof. intros t. rewrite starts_with_iff. split; intros [u E]; exists u; exact E. Qed.

Lemma ints_value : forall r, ok_or_value (ints_of_chars r).
Proof. intros r. apply ok_value_mapM. intros x. apply int_ok_value. Qed.

(** The three forms of a line *)
Lemma action_minus : forall s u w h, strip s = 45 :: u -> decode_action s w h =
  match cut (lit " ") (45 :: u) with
  | Some (_, r) => match ndecode r w h (lit ",") [] with Ok _ => Err ValueError | Err e => Err e end
  | None => Err ValueError
  end.
Proof.
  intros s u w h E. unfold decode_action. rewrite E. cbn [starts_with lit]. unfold str_partition.
  assert (X : starts_with (lit "-") (45 :: u) = true) by reflexivity. rewrite X.
  assert (M : forall x (m : list coord -> list Z -> action), (exists v, x = 45 :: v) -> forall c, (let* k := ints_of_chars x in Ok (m c k)) = Err ValueError).
  { intros x m [v ->] c. destruct (ints_value (45 :: v)) as [[k K]|K]; rewrite K; auto. exfalso. eapply minus_left; eauto. }
  destruct (cut (lit " ") (45 :: u)) as [[l r]|] eqn:C.
  - destruct (ndecode r w h (lit ",") []) as [c|e]; auto. cbn [rbind]. apply (M l (fun c k => RemoveCandidates c (map AInt k))).
    apply cut_first_cut in C; [|discriminate]. destruct C as [C _]. destruct l as [|y l]; [discriminate|]. injection C as <- _. eauto.
  - assert (N : ndecode [] w h (lit ",") [] = Err ValueError).
    { destruct (Z_lt_le_dec w 1); [apply ndecode_small; auto|]. destruct (Z_lt_le_dec h 1); [apply ndecode_small; auto|].
      rewrite ndecode_unfold by auto. assert (S : stripped_ws (lit ",") (number_separator [] (w * h)) [] = []).
      { unfold stripped_ws. destruct (_ && _); reflexivity. }
      rewrite S. reflexivity. }
    rewrite N. reflexivity.
Qed.
Lemma action_other : forall s t w h, strip s = t -> (forall u, t <> 45 :: u) -> decode_action s w h =
  match cut (lit "<>") t with
  | Some (l, r) => let* k := ints_of_chars r in let* c := ndecode l w h (lit ",") [] in Ok (RemoveCandidates c (map AInt k))
  | None => match cut (lit "=") t with
            | Some (l, r) => let* n := int_of_str r in let* c := ndecode l w h (lit ",") [] in Ok (SetNumber c (AInt n))
            | None => Err ValueError
            end
  end.
Proof.
  intros s t w h E N. unfold decode_action. rewrite E. destruct (starts_with (lit "-") t) eqn:S; [apply minus_start in S; destruct S as [u ->]; destruct (N u); auto|].
  unfold str_in, str_partition. destruct (cut (lit "<>") t) as [[l r]|]; [reflexivity|]. destruct (cut (lit "=") t) as [[l r]|]; reflexivity.
Qed.
Lemma minus_dec : forall t, (exists u, t = 45 :: u) \/ forall u, t <> 45 :: u.
Proof. intros [|c t]; [right; discriminate|]. destruct (Z.eq_dec c 45) as [->|N]; [left; eauto|right; intros u E; injection E as E _; congruence]. Qed.

Lemma parts_result : forall s l mk w h, action_parts s l mk ->
  decode_action s w h = match ndecode l w h (lit ",") [] with Ok cs => Ok (mk cs) | Err e => Err e end.
Proof.
  intros s l mk w h [t x l' r ds T N F D|t x l' r n T N O F D]; apply trimmed_strip in T.
  - rewrite (action_other t x w h (eq_sym T) N). rewrite (proj2 (cut_iff (lit "<>") x l' r ltac:(discriminate)) F).
    rewrite (proj2 (ints_of_digits r _) D). cbn [rbind]. destruct (ndecode l' w h (lit ",") []); reflexivity.
  - rewrite (action_other t x w h (eq_sym T) N). rewrite (proj2 (cut_no _ x) O). rewrite (proj2 (cut_iff (lit "=") x l' r ltac:(discriminate)) F).
    rewrite (proj2 (int_text_iff r n) D). cbn [rbind]. destruct (ndecode l' w h (lit ",") []); reflexivity.
Qed.
Lemma other_parts : forall s w h, (forall u, strip s <> 45 :: u) -> decode_action s w h = Err ValueError \/ exists l mk, action_parts s l mk.
Proof.
  intros s w h N. rewrite (action_other s _ w h eq_refl N). assert (T : trimmed s (strip s)) by (apply trimmed_strip; auto).
  destruct (cut (lit "<>") (strip s)) as [[l r]|] eqn:C.
  - destruct (ints_value r) as [[k K]|K]; rewrite K; auto. right. apply ints_of_digits in K.
    exists l. eexists. apply (parts_remove s (strip s) l r k T N); [apply cut_iff; [discriminate|auto]|auto].
  - apply cut_no in C. destruct (cut (lit "=") (strip s)) as [[l r]|] eqn:C2; auto.
    destruct (int_ok_value r) as [[k K]|K]; rewrite K; auto. right. exists l. eexists. apply (parts_set s (strip s) l r k T N C); [apply cut_iff; [discriminate|auto]|apply int_text_iff; auto].
Qed.
Lemma parts_minus : forall s l mk u, action_parts s l mk -> strip s <> 45 :: u.
Proof. intros s l mk u [t x l' r ds T N F D|t x l' r n T N O F D]; apply trimmed_strip in T; rewrite <- T; apply N. Qed.

Lemma read_action_ok : forall s w h a, decode_action s w h = Ok a <->
  exists l mk cs, action_parts s l mk /\ ndecode l w h (lit ",") [] = Ok cs /\ a = mk cs.
Proof.
  intros s w h a. split.
  - intros E. destruct (minus_dec (strip s)) as [[u M]|M].
    + rewrite (action_minus s u w h M) in E. destruct (cut (lit " ") (45 :: u)) as [[l r]|]; [|discriminate].
      destruct (ndecode r w h (lit ",") []); discriminate.
    + destruct (other_parts s w h M) as [X|[l [mk P]]]; [congruence|]. rewrite (parts_result s l mk w h P) in E.
      destruct (ndecode l w h (lit ",") []) as [cs|e] eqn:D; [|discriminate]. injection E as <-. exists l, mk, cs. auto.
  - intros [l [mk [cs [P [D ->]]]]]. rewrite (parts_result s l mk w h P), D. reflexivity.
Qed.
Lemma read_action_type : forall s w h, decode_action s w h = Err TypeError <->
  exists x, ndecode x w h (lit ",") [] = Err TypeError /\
    ((exists mk, action_parts s x mk) \/ exists t u l, trimmed s t /\ t = 45 :: u /\ first_cut (lit " ") t l x).
Proof.
  intros s w h. split.
  - intros E. destruct (minus_dec (strip s)) as [[u M]|M].
    + rewrite (action_minus s u w h M) in E. destruct (cut (lit " ") (45 :: u)) as [[l r]|] eqn:C; [|discriminate].
      exists r. destruct (ndecode r w h (lit ",") []) as [c|e] eqn:D; [discriminate|]. injection E as ->. split; auto.
      right. exists (45 :: u), u, l. splits; auto.
      * apply trimmed_strip; auto.
      * apply cut_iff; [discriminate|auto].
    + destruct (other_parts s w h M) as [X|[l [mk P]]]; [congruence|]. rewrite (parts_result s l mk w h P) in E.
      exists l. destruct (ndecode l w h (lit ",") []) as [cs|e] eqn:D; [discriminate|]. injection E as ->. split; eauto.
  - intros [x [D [[mk P]|[t [u [l [T [-> F]]]]]]]].
    + rewrite (parts_result s x mk w h P), D. reflexivity.
    + apply trimmed_strip in T. rewrite (action_minus s u w h (eq_sym T)). rewrite (proj2 (cut_iff (lit " ") (45 :: u) l x ltac:(discriminate)) F), D. reflexivity.
Qed.
