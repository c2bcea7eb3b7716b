(** Numbers in texts; the text without the run of blanks. *)
From Verif Require Export LDecode.
Import PyStr MNotation.

(** * Removing string.whitespace *)
Lemma ws_start : forall z T, z <> [] -> starts_with WHITESPACE (z ++ WHITESPACE ++ T) = true -> exists t, z = WHITESPACE ++ t.
Proof.
  intros z T Hz H. apply starts_with_iff in H. destruct H as [t H]. unfold WHITESPACE in *.
  destruct z as [|z1 z]; [congruence|]. cbn [app] in H. injection H as -> H.
  destruct z as [|z2 z]; [cbn [app] in H; discriminate|]. cbn [app] in H. injection H as -> H.
  destruct z as [|z3 z]; [cbn [app] in H; discriminate|]. cbn [app] in H. injection H as -> H.
  destruct z as [|z4 z]; [cbn [app] in H; discriminate|]. cbn [app] in H. injection H as -> H.
  destruct z as [|z5 z]; [cbn [app] in H; discriminate|]. cbn [app] in H. injection H as -> H.
  destruct z as [|z6 z]; [cbn [app] in H; discriminate|]. cbn [app] in H. injection H as -> H. exists z. reflexivity.
Qed.
Lemma ws_split : forall ps, ps <> [] -> (forall x, In x ps -> ~ occurs WHITESPACE x) -> split_go WHITESPACE (join WHITESPACE ps) 0 = ps.
Proof.
  induction ps as [|x ps IH]; intros N F; [congruence|]. destruct ps as [|y ps].
  - cbn [join]. apply split_go_absent; [discriminate|]. apply F. left; auto.
  - rewrite join_cons. rewrite split_go_no.
    + assert (E : split_go WHITESPACE (WHITESPACE ++ join WHITESPACE (y :: ps)) 0 = [] :: y :: ps).
      { unfold WHITESPACE at 1 2. rewrite split_go_sep. f_equal. apply IH; [discriminate|]. intros; apply F; right; auto. }
      refine (eq_trans (f_equal _ E) _). cbn [app_head]. rewrite app_nil_r. reflexivity.
    + intros a z -> Hz. destruct (starts_with WHITESPACE (z ++ WHITESPACE ++ join WHITESPACE (y :: ps))) eqn:S; auto. exfalso.
      apply ws_start in S; auto. destruct S as [t ->]. apply (F (a ++ WHITESPACE ++ t)); [left; auto|]. exists a, t. reflexivity.
Qed.
Lemma without_replace : forall s s', without_run s s' <-> s' = replace WHITESPACE [] s.
Proof.
  intros s s'. unfold replace. rewrite join_nil. split.
  - intros [ps [-> [-> [N F]]]]. f_equal. symmetry. apply ws_split; auto.
  - intros ->. destruct (split_pieces WHITESPACE s ltac:(discriminate)) as [J F]. exists (split_go WHITESPACE s 0). splits; auto.
    apply split_go_nonempty.
Qed.
Lemma has_blank_b : forall t, has_blank t <-> existsb (fun c => char_in c t) WHITESPACE = true.
Proof.
  intros t. rewrite existsb_exists. unfold has_blank. split; intros [c [A B]]; exists c; split; auto; apply char_in_iff; auto.
Qed.
Lemma cleaned_strip : forall sep ns s s', cleaned sep ns s s' <-> s' = stripped_ws sep ns s.
Proof.
  intros sep ns s s'. unfold cleaned, stripped_ws. rewrite !has_blank_b, without_replace.
  destruct (existsb (fun c => char_in c sep) WHITESPACE), (existsb (fun c => char_in c ns) WHITESPACE); cbn [negb andb]; intuition congruence.
Qed.

(** * Integers *)
Lemma zeros_ok : forallb (fun z => forallb (fun d => match decimal (z + d) with Some e => (d =? e) && negb (is_space (z + d)) && (48 <=? z + d) && negb (z + d =? 95) &&
  ((z + d <=? 57) || (127 <? z + d)) | None => false end) [0; 1; 2; 3; 4; 5; 6; 7; 8; 9]) DECIMAL_ZEROS = true.
Proof. vm_compute. reflexivity. Qed.
Lemma digit_of_facts : forall c d, digit_of c d -> decimal c = Some d /\ is_space c = false /\ 48 <= c /\ c <> 95 /\ (c <= 57 \/ 127 < c) /\ 0 <= d <= 9.
Proof.
  intros c d [z [I [R ->]]]. pose proof (proj1 (forallb_forall _ _) zeros_ok z I) as X.
  assert (J : In d [0; 1; 2; 3; 4; 5; 6; 7; 8; 9]).
  { assert (d = 0 \/ d = 1 \/ d = 2 \/ d = 3 \/ d = 4 \/ d = 5 \/ d = 6 \/ d = 7 \/ d = 8 \/ d = 9) as K by lia. cbn [In].
    repeat (destruct K as [->|K]; [tauto|]). subst d. tauto. }
  pose proof (proj1 (forallb_forall _ _) X d J) as Y. cbv beta in Y. destruct (decimal (z + d)) as [e|]; [|discriminate].
  rewrite !andb_true_iff, orb_true_iff, !negb_true_iff in Y. destruct Y as [[[[Y1 Y2] Y3] Y4] Y5].
  apply Z.eqb_eq in Y1. apply Z.leb_le in Y3. apply Z.eqb_neq in Y4. rewrite Z.leb_le, Z.ltb_lt in Y5. subst e. splits; auto; lia.
Qed.
Lemma decimal_iff : forall c d, decimal c = Some d <-> digit_of c d.
Proof.
  intros c d. split; [|intros H; apply digit_of_facts in H; tauto]. unfold decimal.
  destruct (List.find (fun z => (z <=? c) && (c <=? z + 9)) DECIMAL_ZEROS) as [z|] eqn:F; [|discriminate]. intros E. injection E as <-.
  apply find_some in F. destruct F as [I F]. apply andb_true_iff in F. rewrite !Z.leb_le in F. exists z. splits; auto; lia.
Qed.
Lemma digit_digit_of : forall c, digit c -> digit_of c (c - 48).
Proof. intros c H. apply decimal_iff, decimal_digit, digit_is, H. Qed.
Lemma digit_of_unique : forall c d e, digit_of c d -> digit_of c e -> d = e.
Proof. intros c d e H K. apply decimal_iff in H, K. congruence. Qed.
Lemma digits_of_unique : forall l ds es, Forall2 digit_of l ds -> Forall2 digit_of l es -> ds = es.
Proof.
  induction l as [|c l IH]; intros ds es H K; inversion H; inversion K; subst; auto. f_equal; [eapply digit_of_unique|]; eauto.
Qed.
Lemma digits_digits_of : forall l, (forall c, In c l -> digit c) -> Forall2 digit_of l (map (fun c => c - 48) l).
Proof.
  induction l as [|c l IH]; intros H; constructor; [apply digit_digit_of, H; left; auto|apply IH; intros; apply H; right; auto].
Qed.
Lemma value_number : forall l, number_of (map (fun c => c - 48) l) = value_of l.
Proof.
  intros l. unfold number_of, value_of. generalize 0. induction l as [|c l IH]; intros a; auto. cbn [map fold_left]. apply IH.
Qed.

Definition dstep (n d : Z) : Z := 10 * n + d.
Lemma digits_val_iff : forall l acc b n, digits_val l acc b = Some n <->
  exists p ps ds, l = join [95] (p :: ps) /\ (b = false -> p <> []) /\ (forall x, In x ps -> x <> []) /\
    Forall2 digit_of (concat (p :: ps)) ds /\ n = fold_left dstep ds acc.
Proof.
  induction l as [|c l IH]; intros acc b n; cbn [digits_val].
  - split.
    + destruct b; [|discriminate]. intros E. injection E as <-. exists [], [], []. splits; auto; try (intros x []); [discriminate|constructor].
    + intros [p [ps [ds [E [B [Q [D ->]]]]]]]. destruct ps as [|x ps]; [|rewrite join_cons in E; destruct p; discriminate].
      cbn [join] in E. subst p. inversion D. destruct b; [reflexivity|]. destruct B; auto.
  - destruct (decimal c) as [k|] eqn:D.
    + rewrite IH. apply decimal_iff in D. split.
      * intros [p [ps [ds [E [B [Q [F ->]]]]]]]. exists (c :: p), ps, (k :: ds). splits; auto.
        -- rewrite E. destruct ps; reflexivity.
        -- discriminate.
        -- constructor; auto.
      * intros [p [ps [ds [E [B [Q [F ->]]]]]]]. destruct p as [|x p].
        -- exfalso. destruct ps as [|y ps]; [discriminate|]. rewrite join_cons in E. injection E as E _. apply digit_of_facts in D. intuition congruence.
        -- assert (G : x = c /\ l = join [95] (p :: ps)).
           { destruct ps as [|y ps]; [cbn [join] in *; injection E as -> ->; auto|]. rewrite join_cons in E |- *. cbn [app] in *. injection E as -> ->. auto. }
           destruct G as [-> ->]. cbn [concat app] in F. inversion F as [|x0 k' l0 ds' F1 F2]; subst. rewrite (digit_of_unique _ _ _ D F1).
           exists p, ps, ds'. splits; auto. discriminate.
    + destruct ((c =? 95) && b) eqn:U.
      * apply andb_true_iff in U. destruct U as [U ->]. apply Z.eqb_eq in U. subst c. rewrite IH. split.
        -- intros [p [ps [ds [E [B [Q [F ->]]]]]]]. exists [], (p :: ps), ds. splits; auto.
           ++ rewrite join_cons, E. reflexivity.
           ++ discriminate.
           ++ intros x [<-|I]; auto.
        -- intros [p [ps [ds [E [B [Q [F ->]]]]]]]. destruct p as [|x p].
           ++ destruct ps as [|y ps]; [discriminate|]. rewrite join_cons in E. cbn [app] in E. injection E as E.
              exists y, ps, ds. splits; auto; intros; apply Q; [left|right]; auto.
           ++ exfalso. destruct (join_head [95] (x :: p) ps) as [t Ht]. pose proof (eq_trans E Ht) as X. injection X as <- _.
              cbn [concat app] in F. inversion F as [|x0 k' l0 ds' F1 F2]; subst. apply decimal_iff in F1. congruence.
      * split; [discriminate|]. intros [p [ps [ds [E [B [Q [F _]]]]]]]. exfalso. destruct p as [|x p].
        -- destruct ps as [|y ps]; [discriminate|]. rewrite join_cons in E. cbn [app] in E. injection E as -> E. destruct b; [discriminate|]. apply B; auto.
        -- destruct (join_head [95] (x :: p) ps) as [t Ht]. pose proof (eq_trans E Ht) as X. injection X as <- _.
           cbn [concat app] in F. inversion F as [|x0 k' l0 ds' F1 F2]; subst. apply decimal_iff in F1. congruence.
Qed.

Lemma drop_spec : forall f s, exists b, s = b ++ drop_while f s /\ (forall c, In c b -> f c = true) /\ (forall c t, drop_while f s = c :: t -> f c = false).
Proof.
  intros f. induction s as [|x s IH]; cbn [drop_while].
  - exists []. split; [reflexivity|]. split; [intros c []|discriminate].
  - destruct (f x) eqn:E.
    + destruct IH as [b [H1 [H2 H3]]]. exists (x :: b). splits; auto.
      * cbn [app]. f_equal. auto.
      * intros c [<-|H]; auto.
    + exists []. split; [reflexivity|]. split; [intros c []|]. intros c t H. injection H as <- _. auto.
Qed.
Lemma drop_start : forall f b s, (forall c, In c b -> f c = true) -> (forall c t, s = c :: t -> f c = false) -> drop_while f (b ++ s) = s.
Proof.
  intros f b s B S. rewrite drop_while_spaces by auto. destruct s as [|c s]; auto. cbn [drop_while]. rewrite (S c s eq_refl). auto.
Qed.
Lemma strip_by_iff : forall f s u, strip_by f s = u <-> exists a b, s = a ++ u ++ b /\ (forall c, In c (a ++ b) -> f c = true) /\
  (forall c t, u = c :: t -> f c = false) /\ (forall c t, u = t ++ [c] -> f c = false).
Proof.
  intros f s u. unfold strip_by. split.
  - intros <-. destruct (drop_spec f s) as [a [E1 [A D1]]]. destruct (drop_spec f (rev (drop_while f s))) as [b [E2 [B D2]]].
    assert (X : drop_while f s = rev (drop_while f (rev (drop_while f s))) ++ rev b).
    { rewrite <- (rev_involutive (drop_while f s)) at 1. rewrite E2 at 1. rewrite rev_app_distr. reflexivity. }
    exists a, (rev b). splits.
    + rewrite E1 at 1. f_equal. exact X.
    + intros c I. apply in_app_iff in I. destruct I as [I|I]; auto. apply B. apply in_rev; auto.
    + intros c t Y. rewrite Y in X. eapply D1. cbn [app] in X. exact X.
    + intros c t Y. apply (f_equal (@rev _)) in Y. rewrite rev_involutive, rev_app_distr in Y. cbn [rev app] in Y. eapply D2. exact Y.
  - intros [a [b [-> [H [H1 H2]]]]]. destruct u as [|x u].
    + cbn [app]. replace (drop_while f (a ++ b)) with (@nil Z); auto. symmetry. rewrite <- (app_nil_r (a ++ b)). apply drop_start; [auto|discriminate].
    + rewrite drop_start.
      * rewrite rev_app_distr. rewrite drop_start.
        -- apply rev_involutive.
        -- intros c I. apply H. apply in_app_iff. right. apply in_rev; auto.
        -- intros c t E. apply (H2 c (rev t)). apply (f_equal (@rev _)) in E. rewrite rev_involutive in E. exact E.
      * intros; apply H, in_app_iff; auto.
      * intros c t E. injection E as <- _. eapply H1; eauto.
Qed.
Lemma int_blank_b : forall c, int_blank c <-> int_space c = true.
Proof.
  intros c. unfold int_blank, int_space. rewrite andb_true_iff, negb_true_iff, andb_false_iff, !Z.leb_gt.
  split; intros [A B]; split; auto; lia.
Qed.
Lemma sign_match : forall (A : Type) (x : Z) (a b c : A), x <> 45 -> x <> 43 -> match x with 45 => a | 43 => b | _ => c end = c.
Proof. intros A x a b c N M. destruct x as [|p|p]; auto. do 6 (destruct p; auto; try lia). Qed.

Definition signed (u : pystr) : option Z :=
  match u with
  | 45 :: v => match digits_val v 0 false with Some n => Some (- n) | None => None end
  | 43 :: v => digits_val v 0 false
  | _ => digits_val u 0 false
  end.
Lemma signed_iff : forall u n, signed u = Some n <-> exists sgn v m, u = sgn ++ v /\ (sgn = [] \/ sgn = [43] \/ sgn = [45]) /\
  digits_val v 0 false = Some m /\ n = (if match sgn with [45] => true | _ => false end then - m else m).
Proof.
  intros u n. split.
  - unfold signed. destruct u as [|x u]; [discriminate|]. destruct (Z.eq_dec x 45) as [->|N1].
    + destruct (digits_val u 0 false) as [m|] eqn:E; [|discriminate]. intros X. injection X as <-. exists [45], u, m. splits; auto.
    + destruct (Z.eq_dec x 43) as [->|N2].
      * intros E. exists [43], u, n. splits; auto.
      * rewrite (sign_match _ x _ _ _ N1 N2). intros E. exists [], (x :: u), n. splits; auto.
  - intros [sgn [v [m [-> [S [E ->]]]]]]. destruct S as [->|[->| ->]].
    + cbn [app]. unfold signed. destruct v as [|x v]; [exact E|].
      assert (X : 48 <= x). { cbn [digits_val] in E. destruct (decimal x) eqn:D; [apply decimal_iff, digit_of_facts in D; tauto|]. rewrite andb_false_r in E. discriminate. }
      rewrite (sign_match _ x _ _ _) by lia. exact E.
    + exact E.
    + cbn [app signed]. rewrite E. reflexivity.
Qed.
Lemma dv_chars : forall v acc b m c, digits_val v acc b = Some m -> In c v -> is_space c = false.
Proof.
  induction v as [|x v IH]; intros acc b m c E I; [destruct I|]. cbn [digits_val] in E. destruct (decimal x) as [k|] eqn:D.
  - destruct I as [<-|I]; [apply decimal_iff, digit_of_facts in D; tauto|eapply IH; eauto].
  - destruct ((x =? 95) && b) eqn:U; [|discriminate]. apply andb_true_iff in U. destruct U as [U _]. apply Z.eqb_eq in U.
    destruct I as [<-|I]; [subst x; reflexivity|eapply IH; eauto].
Qed.
Lemma int_text_iff : forall t n, int_of_str t = Ok n <-> int_text t n.
Proof.
  intros t n. assert (U : int_of_str t = match signed (strip_by int_space t) with Some n => Ok n | None => Err ValueError end) by reflexivity.
  rewrite U. split.
  - destruct (signed (strip_by int_space t)) as [k|] eqn:S; [|discriminate]. intros X. injection X as <-.
    apply signed_iff in S. destruct S as [sgn [v [m [E [S [D ->]]]]]].
    apply strip_by_iff in E. destruct E as [a [b [E [B _]]]]. apply digits_val_iff in D. destruct D as [p [ps [ds [-> [N [Q [F ->]]]]]]].
    exists a, sgn, (p :: ps), b, ds. splits; auto.
    + rewrite E at 1. rewrite <- !app_assoc. reflexivity.
    + intros c I. apply int_blank_b. auto.
    + discriminate.
    + intros x [<-|I]; auto.
  - intros [a [sgn [ps [b [ds [E [B [S [N [Q [F ->]]]]]]]]]]].
    assert (D : digits_val (join [95] ps) 0 false = Some (number_of ds)).
    { apply digits_val_iff. destruct ps as [|p ps]; [congruence|]. exists p, ps, ds. splits; auto; intros; apply Q; [left|right]; auto. }
    assert (Y : signed (sgn ++ join [95] ps) = Some (if match sgn with [45] => true | _ => false end then - number_of ds else number_of ds)).
    { apply signed_iff. exists sgn, (join [95] ps), (number_of ds). splits; auto. }
    assert (C : forall c, In c (sgn ++ join [95] ps) -> int_space c = false).
    { intros c I. apply int_space_false. apply in_app_iff in I. destruct I as [I|I]; [|eapply dv_chars; eauto].
      destruct S as [->|[->| ->]]; [destruct I|destruct I as [<-|[]]; reflexivity|destruct I as [<-|[]]; reflexivity]. }
    assert (Z : strip_by int_space t = sgn ++ join [95] ps).
    { apply strip_by_iff. exists a, b. splits.
      - rewrite E at 1. rewrite <- !app_assoc. reflexivity.
      - intros c I. apply int_blank_b, B; auto.
      - intros c u X. apply C. rewrite X. left; auto.
      - intros c u X. apply C. rewrite X. apply in_app_iff. right; left; auto. }
    rewrite Z, Y. reflexivity.
Qed.

(** ** The numbers of a section *)
Section Numbers.
Variable ns : pystr.
Hypothesis Hns : forall c, In c ns -> ~ letter c /\ ~ digit c.
Hypothesis Hp : plain_separator ns.

Lemma int_plain : forall x k, (forall c, In c x -> digit c \/ In c ns) -> (int_of_str x = Ok k <-> digits x /\ k = value_of x).
Proof.
  intros x k C. rewrite int_text_iff. split.
  - intros [a [sgn [ps [b [ds [E [B [S [N [Q [F ->]]]]]]]]]]].
    assert (NB : forall c, In c x -> is_space c = false /\ c <> 43 /\ c <> 45 /\ c <> 95 /\ forall d, digit_of c d -> digit c).
    { intros c I. destruct (C c I) as [D|D]; [|destruct (Hp c D) as [P1 [P2 [P3 [P4 P5]]]]; splits; auto; intros d X; destruct (P5 d X)].
      splits; try (unfold digit in D; lia); auto. apply is_space_digit. left. apply digit_is; auto. }
    assert (a ++ b = []).
    { destruct (a ++ b) as [|c r] eqn:X; auto. exfalso. destruct (B c) as [B1 _]; [left; auto|].
      assert (I : In c x). { rewrite E. assert (In c (a ++ b)) by (rewrite X; left; auto). rewrite !in_app_iff in *. tauto. }
      apply NB in I. destruct I; congruence. }
    apply app_eq_nil in H. destruct H as [-> ->]. rewrite app_nil_r in E. cbn [app] in E.
    assert (sgn = []).
    { destruct S as [->|[->| ->]]; auto; exfalso.
      - destruct (NB 43) as [_ [X _]]; [rewrite E; left|]; auto.
      - destruct (NB 45) as [_ [_ [X _]]]; [rewrite E; left|]; auto. }
    subst sgn. cbn [app] in E. destruct ps as [|p [|p2 ps]]; [congruence| |].
    + cbn [join] in E. subst p. cbn [concat] in F. rewrite app_nil_r in F.
      assert (D : forall c, In c x -> digit c).
      { intros c I. destruct (NB c I) as [_ [_ [_ [_ X]]]]. clear - F I X. induction F as [|y d l ds Y F IH]; [destruct I|].
        destruct I as [<-|I]; [apply (X d Y)|auto]. }
      split; [split; auto; apply Q; left; auto|]. rewrite <- value_number. f_equal. apply (digits_of_unique x); auto. apply digits_digits_of; auto.
    + exfalso. rewrite join_cons in E. destruct (NB 95) as [_ [_ [_ [X _]]]]; [|auto]. rewrite E. apply in_app_iff. right; left; auto.
  - intros [[D1 D2] ->]. exists [], [], [x], [], (map (fun c => c - 48) x). splits; auto.
    + cbn. rewrite app_nil_r. reflexivity.
    + intros c [].
    + discriminate.
    + intros y [<-|[]]; auto.
    + cbn [concat]. rewrite app_nil_r. apply digits_digits_of; auto.
    + symmetry. apply value_number.
Qed.

Lemma mapM_ints : forall xs l, (forall x c, In x xs -> In c x -> digit c \/ In c ns) ->
  (mapM (fun n => let* k := int_of_str n in Ok (k - 1)) xs = Ok l <-> (forall x, In x xs -> digits x) /\ l = map pred (map value_of xs)).
Proof.
  induction xs as [|x xs IH]; intros l C; cbn [mapM map].
  - split; [intros E; injection E as <-; split; auto; intros x []|]. intros [_ ->]. reflexivity.
  - assert (C1 : forall c, In c x -> digit c \/ In c ns) by (intros c; apply C; left; auto).
    assert (C2 : forall y c, In y xs -> In c y -> digit c \/ In c ns) by (intros y c I; apply C; right; auto).
    split.
    + destruct (int_of_str x) as [k|e] eqn:E; cbn [rbind]; [|discriminate]. apply (int_plain x k C1) in E. destruct E as [D ->].
      destruct (mapM (fun n => let* k := int_of_str n in Ok (k - 1)) xs) as [r|e] eqn:E; cbn [rbind]; [|discriminate]. intros X. injection X as <-.
      destruct (proj1 (IH r C2) eq_refl) as [F ->]. split; auto. intros y [<-|I]; auto.
    + intros [D ->]. rewrite (proj2 (int_plain x (value_of x) C1)) by (split; auto; apply D; left; auto). cbn [rbind].
      rewrite (proj2 (IH (map pred (map value_of xs)) C2)) by (split; auto; intros; apply D; right; auto). reflexivity.
Qed.
Lemma mapM_singles : forall (t : pystr), mapM (fun n => let* k := int_of_str [n] in Ok (k - 1)) t =
  mapM (fun n => let* k := int_of_str n in Ok (k - 1)) (map (fun c => [c]) t).
Proof. intros t. rewrite mapM_map. reflexivity. Qed.

Lemma parse_iff : forall t l, (forall c, In c t -> digit c \/ In c ns) ->
  (parse_numbers ns t = Ok l <-> exists ks, written ns t ks /\ l = map pred ks).
Proof.
  intros t l C. unfold parse_numbers.
  assert (Cs : ns = [] \/ exists n0 nt, ns = n0 :: nt) by (destruct ns; eauto). destruct Cs as [En|[n0 [nt En]]]; rewrite En in C |- *.
  - rewrite mapM_singles. split.
    + intros E. apply mapM_ints in E.
      * destruct E as [D ->]. exists (map value_of (map (fun c => [c]) t)). split; auto. exists (map (fun c => [c]) t). splits; auto.
        -- rewrite join_nil. clear. induction t as [|c t IH]; cbn [map concat app]; [|rewrite <- IH]; auto.
        -- intros x I. split; [auto|]. intros _. apply in_map_iff in I. destruct I as [c [<- _]]. reflexivity.
      * intros x c I J. rewrite En. apply in_map_iff in I. destruct I as [d [<- I]]. destruct J as [<-|[]]. auto.
    + intros [ks [[ps [-> [-> [P _]]]] ->]]. rewrite join_nil in *.
      assert (X : map (fun c => [c]) (concat ps) = ps).
      { clear C. induction ps as [|p ps IH]; auto. cbn [concat]. rewrite map_app, IH by (intros; apply P; right; auto).
        destruct (P p (or_introl eq_refl)) as [_ L]. specialize (L eq_refl). destruct p as [|c [|d p]]; try discriminate. reflexivity. }
      rewrite X. apply mapM_ints.
      * intros x c I J. left. apply (P x I); auto.
      * split; auto. intros x I. apply P; auto.
  - unfold PyStr.split. cbn [rbind]. split.
    + intros E. destruct (split_pieces (n0 :: nt) t ltac:(discriminate)) as [J F].
      assert (C2 : forall x c, In x (split_go (n0 :: nt) t 0) -> In c x -> digit c \/ In c ns).
      { intros x c I K. rewrite En. apply C. rewrite <- J. destruct (in_join_occurs (n0 :: nt) x _ I) as [a [b ->]].
        rewrite !in_app_iff. auto. }
      apply mapM_ints in E; auto. destruct E as [D ->]. eexists; split; [|reflexivity]. exists (split_go (n0 :: nt) t 0).
      split; [symmetry; exact J|]. split; [reflexivity|]. split; [|intros _; apply split_go_nonempty]. intros x I. split; [auto|discriminate].
    + intros [ks [[ps [-> [-> [P N]]]] ->]].
      assert (X : split_go (n0 :: nt) (join (n0 :: nt) ps) 0 = ps).
      { apply split_join; [apply N; discriminate|]. intros x I J. apply (proj2 (Hns n0 ltac:(rewrite En; left; auto))). apply (P x I); auto. }
      unfold pystr in *. rewrite X. apply mapM_ints.
      * intros x c I J. left. apply (P x I); auto.
      * split; auto. intros x I. apply P; auto.
Qed.
Lemma written_chars : forall t ks c, written ns t ks -> In c t -> (digit c \/ In c ns) /\ ~ letter c.
Proof.
  intros t ks c [ps [-> [_ [P _]]]] I. apply in_join in I. destruct I as [I|[x [I J]]].
  - split; auto. apply Hns; auto.
  - assert (D : digit c) by (apply (P x I); auto). split; auto. intros L. apply letter_not_digit in L. auto.
Qed.
Lemma map_pred_inj : forall a b, map pred a = map pred b -> a = b.
Proof.
  induction a as [|x a IH]; intros [|y b] E; try discriminate; auto. injection E as E1 E2. f_equal; [unfold pred in E1; lia|auto].
Qed.
Lemma written_unique : forall t ks ks', written ns t ks -> written ns t ks' -> ks = ks'.
Proof.
  intros t ks ks' A B.
  assert (C : forall c, In c t -> digit c \/ In c ns) by (intros c I; apply (written_chars t ks c A I)).
  assert (X : parse_numbers ns t = Ok (map pred ks)) by (apply parse_iff; eauto).
  assert (Y : parse_numbers ns t = Ok (map pred ks')) by (apply parse_iff; eauto).
  rewrite X in Y. injection Y as Y. apply map_pred_inj; auto.
Qed.
End Numbers.
