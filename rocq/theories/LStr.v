(** Lemmas about PyStr: printing and parsing of integers, strip, join and split. *)
From Verif Require Export LBase PyStr.

Lemma str_eqb_eq : forall a b, str_eqb a b = true <-> a = b.
Proof.
  induction a as [|x a IH]; intros [|y b]; simpl; split; intros H; try congruence; auto.
  - apply andb_prop in H. destruct H as [H1 H2]. apply Z.eqb_eq in H1. apply IH in H2. congruence.
  - injection H as <- <-. rewrite Z.eqb_refl. apply IH; auto.
Qed.

Lemma char_in_iff : forall c s, char_in c s = true <-> In c s.
Proof.
  intros c s; unfold char_in. rewrite existsb_exists. split.
  - intros [x [H1 H2]]. apply Z.eqb_eq in H2. subst; auto.
  - intros H; exists c; split; auto. apply Z.eqb_refl.
Qed.

Lemma char_in_false : forall c s, char_in c s = false <-> ~ In c s.
Proof. intros c s. rewrite <- char_in_iff. destruct (char_in c s); split; congruence. Qed.

(** * Integers *)
Definition dval (l : pystr) (acc : Z) : Z := fold_left (fun a c => 10 * a + (c - 48)) l acc.

Lemma decimal_digit : forall c, is_digit c = true -> decimal c = Some (c - 48).
Proof. intros c H. unfold decimal, DECIMAL_ZEROS. cbn [List.find]. change (48 + 9) with 57. unfold is_digit in H. rewrite H. reflexivity. Qed.

Lemma digits_val_digits : forall l acc b, (forall c, In c l -> is_digit c = true) ->
  digits_val l acc b = match l with [] => if b then Some acc else None | _ => Some (dval l acc) end.
Proof.
  induction l as [|c l IH]; intros acc b H; auto. cbn [digits_val].
  rewrite (decimal_digit c) by (apply H; left; auto). rewrite IH by (intros; apply H; right; auto).
  destruct l; auto.
Qed.

Lemma digits_of_spec : forall f n, 0 <= n -> (Z.to_nat (Z.log2 n) < f)%nat ->
  (forall c, In c (digits_of f n) -> is_digit c = true) /\ digits_of f n <> [] /\ dval (digits_of f n) 0 = n.
Proof.
  induction f as [|f IH]; intros n Hn Hf; [lia|]. cbn [digits_of].
  destruct (n <? 10) eqn:E.
  - apply Z.ltb_lt in E. split; [|split; [discriminate|unfold dval; cbn [fold_left]; lia]].
    intros c [<-|[]]. unfold is_digit. apply andb_true_intro; split; apply Z.leb_le; lia.
  - apply Z.ltb_ge in E.
    assert (H1 : 0 <= n / 10) by (apply Z.div_pos; lia).
    assert (H2 : (Z.to_nat (Z.log2 (n / 10)) < f)%nat).
    { assert (Z.log2 (n / 10) < Z.log2 n).
      { assert (n / 10 <= n / 2) by (apply Z.div_le_compat_l; lia).
        assert (Z.log2 (n / 10) <= Z.log2 (n / 2)) by (apply Z.log2_le_mono; lia).
        assert (Hs : Z.log2 (2 * (n / 2)) = Z.succ (Z.log2 (n / 2))).
        { apply Z.log2_double. apply Z.div_str_pos; lia. }
        assert (Z.log2 (2 * (n / 2)) <= Z.log2 n) by (apply Z.log2_le_mono, Z.mul_div_le; lia). lia. }
      pose proof (Z.log2_nonneg (n / 10)). lia. }
    destruct (IH (n / 10) H1 H2) as [D1 [D2 D3]]. split; [|split].
    + intros c Hc. apply in_app_iff in Hc. destruct Hc as [Hc|[<-|[]]]; auto.
      pose proof (Z.mod_pos_bound n 10). unfold is_digit. apply andb_true_intro; split; apply Z.leb_le; lia.
    + intros X. apply app_eq_nil in X. destruct X; discriminate.
    + unfold dval in *. rewrite fold_left_app, D3. cbn [fold_left]. pose proof (Z.div_mod n 10). lia.
Qed.

Lemma str_of_nat_spec : forall n, 0 <= n ->
  (forall c, In c (str_of_nat n) -> is_digit c = true) /\ str_of_nat n <> [] /\ dval (str_of_nat n) 0 = n.
Proof. intros n H; apply digits_of_spec; auto. Qed.

Lemma str_of_digit : forall n, 0 <= n < 10 -> str_of_int n = [48 + n].
Proof.
  intros n H. unfold str_of_int, str_of_nat. destruct (n <? 0) eqn:E; [apply Z.ltb_lt in E; lia|].
  cbn [digits_of]. destruct (n <? 10) eqn:E2; auto. apply Z.ltb_ge in E2; lia.
Qed.

Lemma str_of_int_chars : forall n c, In c (str_of_int n) -> is_digit c = true \/ c = 45.
Proof.
  intros n c. unfold str_of_int. destruct (n <? 0) eqn:E.
  - apply Z.ltb_lt in E. intros [<-|H]; auto. left. revert H. apply str_of_nat_spec. lia.
  - apply Z.ltb_ge in E. left. revert H. apply str_of_nat_spec. lia.
Qed.

Lemma str_of_int_nonempty : forall n, str_of_int n <> [].
Proof.
  intros n. unfold str_of_int. destruct (n <? 0) eqn:E; [discriminate|]. apply Z.ltb_ge in E.
  apply str_of_nat_spec; auto.
Qed.

Lemma is_digit_range : forall c, is_digit c = true <-> 48 <= c <= 57.
Proof. intros c; unfold is_digit. rewrite andb_true_iff, !Z.leb_le. tauto. Qed.

Lemma is_space_digit : forall c, is_digit c = true \/ c = 45 -> is_space c = false.
Proof.
  intros c H. unfold is_space. rewrite is_digit_range in H.
  assert (33 <= c <= 57) by lia.
  repeat (apply orb_false_intro); try (apply andb_false_iff; (left; apply Z.leb_gt; lia) || (right; apply Z.leb_gt; lia));
    apply Z.eqb_neq; lia.
Qed.

Lemma drop_while_id : forall f s, (forall c, In c s -> f c = false) -> drop_while f s = s.
Proof. intros f [|c s] H; simpl; auto. rewrite (H c) by (left; auto). auto. Qed.

Lemma strip_by_id : forall f s, (forall c, In c s -> f c = false) -> strip_by f s = s.
Proof.
  intros f s H. unfold strip_by. rewrite (drop_while_id f s H), drop_while_id; [apply rev_involutive|].
  intros c Hc. apply H. apply in_rev; auto.
Qed.

Lemma int_space_false : forall c, is_space c = false -> int_space c = false.
Proof. intros c H. unfold int_space. rewrite H. reflexivity. Qed.

Lemma int_of_str_of_int : forall n, int_of_str (str_of_int n) = Ok n.
Proof.
  intros n. unfold int_of_str. rewrite strip_by_id.
  2:{ intros c H. apply int_space_false, is_space_digit. eapply str_of_int_chars; eauto. }
  unfold str_of_int. destruct (n <? 0) eqn:E.
  - apply Z.ltb_lt in E. destruct (str_of_nat_spec (- n)) as [H1 [H2 H3]]; [lia|].
    rewrite digits_val_digits by auto. destruct (str_of_nat (- n)); [congruence|]. rewrite H3. f_equal. lia.
  - apply Z.ltb_ge in E. destruct (str_of_nat_spec n E) as [H1 [H2 H3]].
    destruct (str_of_nat n) as [|x l] eqn:Es; [congruence|]. rewrite <- Es in *.
    assert (Dx : 48 <= x <= 57) by (apply is_digit_range, H1; rewrite Es; left; auto).
    assert (X : digits_val (str_of_nat n) 0 false = Some n).
    { rewrite digits_val_digits by auto. rewrite H3. rewrite Es; auto. }
    rewrite Es in X |- *. rewrite X.
    assert (Xp : forall (A : Type) (a b c : A), match x with 45 => a | 43 => b | _ => c end = c).
    { intros A a b c. destruct x as [|p|p]; auto; try lia.
      do 6 (destruct p; auto; try lia). }
    rewrite Xp. reflexivity.
Qed.

Lemma int_of_digit : forall c, is_digit c = true -> int_of_str [c] = Ok (c - 48).
Proof.
  intros c H. apply is_digit_range in H.
  replace [c] with (str_of_int (c - 48)) by (rewrite str_of_digit by lia; f_equal; lia).
  apply int_of_str_of_int.
Qed.

Lemma str_of_int_inj : forall a b, str_of_int a = str_of_int b -> a = b.
Proof.
  intros a b H. pose proof (int_of_str_of_int a) as X. rewrite H, int_of_str_of_int in X. congruence.
Qed.

(** * join and split *)
Lemma join_cons : forall sep x y l, join sep (x :: y :: l) = x ++ sep ++ join sep (y :: l).
Proof. reflexivity. Qed.

Lemma join_nil : forall l, join [] l = concat l.
Proof.
  induction l as [|x [|y l] IH]; auto.
  - simpl. rewrite app_nil_r; auto.
  - rewrite join_cons, IH. reflexivity.
Qed.

Lemma join_app : forall sep l m, l <> [] -> m <> [] -> join sep (l ++ m) = join sep l ++ sep ++ join sep m.
Proof.
  intros sep l; induction l as [|x l IH]; intros m Hl Hm; [congruence|].
  destruct l as [|y l].
  - destruct m as [|z m]; [congruence|]. reflexivity.
  - change ((x :: y :: l) ++ m) with (x :: (y :: l ++ m)). rewrite join_cons.
    change (y :: l ++ m) with ((y :: l) ++ m). rewrite IH by (auto; discriminate).
    rewrite join_cons, <- !app_assoc. reflexivity.
Qed.

Lemma join_join : forall sep ll, (forall l, In l ll -> l <> []) ->
  join sep (map (join sep) ll) = join sep (concat ll).
Proof.
  intros sep ll; induction ll as [|l ll IH]; intros H; auto.
  destruct ll as [|m ll].
  - simpl. rewrite app_nil_r; auto.
  - cbn [map]. rewrite join_cons. change (join sep m :: map (join sep) ll) with (map (join sep) (m :: ll)).
    rewrite IH by (intros; apply H; right; auto). cbn [concat]. symmetry. apply join_app.
    + apply H; left; auto.
    + intros X. apply app_eq_nil in X. apply (H m); [right; left; auto|tauto].
Qed.

Definition app_head (a : pystr) (l : list pystr) : list pystr :=
  match l with
  | [] => [a]
  | x :: t => (a ++ x) :: t
  end.

Lemma split_go_nonempty : forall sep s k, split_go sep s k <> [].
Proof.
  intros sep s; induction s as [|c s IH]; intros k; simpl; [discriminate|].
  destruct k; auto. destruct (starts_with sep (c :: s)); [discriminate|].
  destruct (split_go sep s 0); discriminate.
Qed.

Lemma cons_app_head : forall c a l, l <> [] -> cons_head c (app_head a l) = app_head (c :: a) l.
Proof. intros c a [|x l] H; auto. Qed.

(** A piece that does not contain the first character of the separator. *)
Lemma split_go_item : forall sep0 sep a rest, ~ In sep0 a ->
  split_go (sep0 :: sep) (a ++ rest) 0 = app_head a (split_go (sep0 :: sep) rest 0).
Proof.
  intros sep0 sep a rest; induction a as [|c a IH]; intros H.
  - simpl app. destruct (split_go (sep0 :: sep) rest 0) eqn:E; [exfalso; eapply split_go_nonempty; eauto|reflexivity].
  - cbn [app split_go]. cbn [starts_with].
    replace (sep0 =? c) with false by (symmetry; apply Z.eqb_neq; intros ->; apply H; left; auto).
    cbn [andb]. rewrite IH by (intros X; apply H; right; auto).
    apply cons_app_head, split_go_nonempty.
Qed.

Lemma split_go_skip : forall sep a rest, split_go sep (a ++ rest) (length a) = split_go sep rest 0.
Proof. intros sep a rest; induction a as [|c a IH]; simpl; auto. Qed.

Lemma starts_with_app : forall p s, starts_with p (p ++ s) = true.
Proof. induction p as [|c p IH]; intros s; simpl; auto. rewrite Z.eqb_refl; apply IH. Qed.

Lemma starts_with_iff : forall p s, starts_with p s = true <-> exists t, s = p ++ t.
Proof.
  induction p as [|c p IH]; intros s; simpl.
  - split; eauto.
  - destruct s as [|d s]; simpl.
    + split; [discriminate|]. intros [t H]; discriminate.
    + rewrite andb_true_iff, IH, Z.eqb_eq. split.
      * intros [-> [t ->]]. eauto.
      * intros [t H]. injection H as -> ->. eauto.
Qed.

Lemma split_go_sep : forall sep0 sep rest,
  split_go (sep0 :: sep) ((sep0 :: sep) ++ rest) 0 = [] :: split_go (sep0 :: sep) rest 0.
Proof.
  intros sep0 sep rest. change ((sep0 :: sep) ++ rest) with (sep0 :: (sep ++ rest)). cbn [split_go].
  change (sep0 :: sep ++ rest) with ((sep0 :: sep) ++ rest). rewrite starts_with_app.
  cbn [length]. replace (S (length sep) - 1)%nat with (length sep) by lia. rewrite split_go_skip. reflexivity.
Qed.

Lemma split_join : forall sep0 sep l, l <> [] -> (forall a, In a l -> ~ In sep0 a) ->
  split_go (sep0 :: sep) (join (sep0 :: sep) l) 0 = l.
Proof.
  intros sep0 sep l; induction l as [|x l IH]; intros Hl H; [congruence|].
  destruct l as [|y l].
  - cbn [join]. rewrite <- (app_nil_r x) at 1. rewrite split_go_item by (apply H; left; auto).
    cbn. rewrite app_nil_r; auto.
  - rewrite join_cons, split_go_item by (apply H; left; auto). rewrite split_go_sep.
    assert (E : split_go (sep0 :: sep) (join (sep0 :: sep) (y :: l)) 0 = y :: l)
      by (apply IH; [discriminate|intros; apply H; right; auto]).
    unfold pystr in *. rewrite E. cbn. rewrite app_nil_r; auto.
Qed.

Lemma in_join : forall sep l c, In c (join sep l) -> In c sep \/ exists a, In a l /\ In c a.
Proof.
  intros sep l; induction l as [|x l IH]; intros c H; [destruct H|].
  destruct l as [|y l].
  - right; exists x; simpl; auto.
  - rewrite join_cons, !in_app_iff in H. destruct H as [H|[H|H]]; auto.
    + right; exists x; simpl; auto.
    + destruct (IH c H) as [H1|[a [H1 H2]]]; auto. right; exists a; simpl in *; auto.
Qed.

Lemma replace_char_id : forall c b s, ~ In c s -> replace_char c b s = s.
Proof.
  intros c b s; induction s as [|x s IH]; intros H; auto. unfold replace_char in *. cbn [flat_map].
  replace (x =? c) with false by (symmetry; apply Z.eqb_neq; intros ->; apply H; left; auto).
  rewrite IH by (intros X; apply H; right; auto). reflexivity.
Qed.

(** * cut *)
Lemma cut_none : forall c p s, ~ In c s -> cut (c :: p) s = None.
Proof.
  intros c p s; induction s as [|x s IH]; intros H; auto. cbn [cut starts_with].
  replace (c =? x) with false by (symmetry; apply Z.eqb_neq; intros ->; apply H; left; auto).
  cbn [andb]. rewrite IH; auto. intros X; apply H; right; auto.
Qed.

Lemma cut_app : forall c p a b, ~ In c a -> cut (c :: p) (a ++ (c :: p) ++ b) = Some (a, b).
Proof.
  intros c p a b; induction a as [|x a IH]; intros H.
  - change ([] ++ (c :: p) ++ b) with (c :: (p ++ b)). cbn [cut].
    change (c :: p ++ b) with ((c :: p) ++ b). rewrite starts_with_app. f_equal. f_equal.
    rewrite skipn_app, skipn_all, Nat.sub_diag. reflexivity.
  - change ((x :: a) ++ (c :: p) ++ b) with (x :: (a ++ (c :: p) ++ b)). cbn [cut starts_with].
    replace (c =? x) with false by (symmetry; apply Z.eqb_neq; intros ->; apply H; left; auto).
    cbn [andb]. rewrite IH; auto. intros X; apply H; right; auto.
Qed.
