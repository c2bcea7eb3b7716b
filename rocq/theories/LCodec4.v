(** Lemmas about MCodec: rows separated by a blank (usually a newline). *)
From Verif Require Export LCodec3.
Import PyStr.

Lemma clean_rows : forall s e n a b r, strip s = s -> In r WHITESPACE -> ~ In r (e ++ a ++ b ++ n) ->
  (forall c, In c WHITESPACE -> c <> r -> In c (e ++ a ++ b ++ n) \/ ~ In c s) ->
  clean s e n a b = replace_char r n s.
Proof.
  intros s e n a b r H1 H2 H3 H4. unfold clean. rewrite H1.
  assert (Hn : forall c, In c n -> In c (e ++ a ++ b ++ n)) by (intros; rewrite !in_app_iff; auto).
  remember (e ++ a ++ b ++ n) as sp. clear Heqsp H1.
  set (f := fun s c => if char_in c sp then s else replace_char c n s).
  assert (Done : forall l, (forall c, In c l -> In c WHITESPACE) -> fold_left f l (replace_char r n s) = replace_char r n s).
  { induction l as [|c l IH]; intros Hl; auto. cbn [fold_left]. unfold f at 2.
    destruct (char_in c sp) eqn:E; [apply IH; intros; apply Hl; right; auto|].
    apply char_in_false in E. rewrite replace_char_id; [apply IH; intros; apply Hl; right; auto|].
    unfold replace_char. rewrite in_flat_map. intros [x [X1 X2]].
    destruct (x =? r) eqn:Ex; b2p.
    - apply E, Hn; auto.
    - destruct X2 as [->|[]]. destruct (H4 c (Hl c (or_introl eq_refl)) Ex); auto. }
  assert (G : forall l, (forall c, In c l -> In c WHITESPACE) -> In r l -> fold_left f l s = replace_char r n s).
  { induction l as [|c l IH]; intros Hl Hi; [destruct Hi|]. cbn [fold_left]. unfold f at 2.
    destruct (Z.eq_dec c r) as [->|Ne].
    - replace (char_in r sp) with false by (symmetry; apply char_in_false; auto).
      apply Done. intros; apply Hl; right; auto.
    - assert (Hi' : In r l) by (destruct Hi; [congruence|auto]).
      destruct (char_in c sp) eqn:E; [apply IH; auto; intros; apply Hl; right; auto|].
      apply char_in_false in E. rewrite replace_char_id; [apply IH; auto; intros; apply Hl; right; auto|].
      destruct (H4 c (Hl c (or_introl eq_refl)) Ne); auto. }
  apply G; auto.
Qed.

Lemma replace_char_app : forall c n a b, replace_char c n (a ++ b) = replace_char c n a ++ replace_char c n b.
Proof. intros; unfold replace_char. apply flat_map_app. Qed.

Lemma replace_join : forall r n l, (forall a, In a l -> ~ In r a) -> replace_char r n (join [r] l) = join n l.
Proof.
  intros r n l; induction l as [|x [|y l] IH]; intros H; auto.
  - cbn [join]. apply replace_char_id, H; left; auto.
  - rewrite !join_cons, !replace_char_app.
    assert (E : replace_char r n (join [r] (y :: l)) = join n (y :: l)) by (apply IH; intros; apply H; right; auto).
    unfold pystr in *. rewrite E.
    rewrite replace_char_id by (apply H; left; auto). f_equal. f_equal.
    unfold replace_char. cbn [flat_map]. rewrite Z.eqb_refl. apply app_nil_r.
Qed.

Section rows.
Variable s : sudoku.
Hypothesis Hw : wf s.

Definition row_texts (x : pystr) : list pystr :=
  map (fun r => join x (map (fun c => str_of_int (num s (r, c))) (indices s))) (indices s).

Lemma rows_texts_join : forall x, join x (row_texts x) = join x (texts s).
Proof.
  intros x. pose proof (encode_same_sep s x Hw) as E. unfold encode in E. rewrite (encode_rows s x Hw) in E.
  cbn [rbind] in E. injection E as E. exact E.
Qed.

Lemma row_nonempty : forall x a, In a (row_texts x) -> a <> [].
Proof.
  intros x a Ha E. apply in_map_iff in Ha. destruct Ha as [r [<- Hr]].
  pose proof (indices_nonempty s Hw). destruct (indices s) as [|i [|j l]]; [congruence| |].
  - cbn in E. eapply str_of_int_nonempty; eauto.
  - cbn [map] in E. rewrite join_cons in E. apply app_eq_nil in E. destruct E as [E _].
    eapply str_of_int_nonempty; eauto.
Qed.

Lemma row_first : forall x a c t, In a (row_texts x) -> a = c :: t -> is_digit c = true \/ c = 45.
Proof.
  intros x a c t Ha E. apply in_map_iff in Ha. destruct Ha as [r [Er Hr]]. subst a.
  pose proof (indices_nonempty s Hw). destruct (indices s) as [|i [|j l]]; [congruence| |].
  - cbn [map join] in E. apply (str_of_int_chars (num s (r, i))). rewrite E; left; auto.
  - cbn [map] in E. rewrite join_cons in E. pose proof (str_of_int_nonempty (num s (r, i))) as N.
    destruct (str_of_int (num s (r, i))) as [|d u] eqn:D; [congruence|]. injection E as <- _.
    apply (str_of_int_chars (num s (r, i))). rewrite D; left; auto.
Qed.

Lemma row_last : forall x a c t, In a (row_texts x) -> a = t ++ [c] -> is_digit c = true \/ c = 45.
Proof.
  intros x a c t Ha E. apply in_map_iff in Ha. destruct Ha as [r [Er Hr]]. subst a.
  set (l := map (fun c => str_of_int (num s (r, c))) (indices s)) in *.
  assert (Nl : l <> []).
  { pose proof (indices_nonempty s Hw). unfold l. destruct (indices s); [congruence|discriminate]. }
  destruct (join_last x l Nl) as [pre P]. pose proof (in_last l [] Nl) as I.
  apply in_map_iff in I. destruct I as [i [I1 I2]]. rewrite <- I1 in P.
  destruct (last_char _ (str_of_int_nonempty (num s (r, i)))) as [u [d D]].
  rewrite E, D, app_assoc in P. apply app_inj_tail in P. destruct P as [_ ->].
  apply (str_of_int_chars (num s (r, i))). rewrite D. apply in_app_iff; right; left; auto.
Qed.

Lemma decode_rows : forall r c x, blank r -> ~ In r (c :: x) ->
  is_digit c = false -> c <> 45 -> ~ In 124 (c :: x) ->
  exists str t, encode s [r] (c :: x) false = Ok str /\
    decode str (lit "0") (c :: x) (lit "|") (lit ",") (Some (box_size s)) = Ok t /\
    wf t /\ same_numbers s t /\ (forall p, field s p -> cand t p = []).
Proof.
  intros r c x Hr Hrx Hc1 Hc2 Hc3. set (X := c :: x) in *. set (str := join [r] (row_texts X)).
  assert (Rn : row_texts X <> []).
  { unfold row_texts. pose proof (indices_nonempty s Hw). destruct (indices s); [congruence|discriminate]. }
  assert (Hin : forall a d, In a (row_texts X) -> In d a -> In d X \/ is_digit d = true \/ d = 45).
  { intros a d Ha Hd. apply in_map_iff in Ha. destruct Ha as [i [<- Hi]]. apply in_join in Hd.
    destruct Hd as [Hd|[b [Hb Hd]]]; auto. right. apply in_map_iff in Hb. destruct Hb as [j [<- Hj]].
    eapply str_of_int_chars; eauto. }
  assert (Rd : is_digit r = false /\ r <> 45 /\ In r WHITESPACE /\ r <> 48 /\ r <> 124 /\ r <> 44).
  { splits; try (unfold blank in Hr; lia); [|apply blank_ws; auto]. destruct (is_digit r) eqn:E; auto.
    apply is_digit_range in E. unfold blank in Hr. lia. }
  destruct Rd as [R1 [R2 [R3 [R4 [R5 R6]]]]].
  assert (Rrow : forall a, In a (row_texts X) -> ~ In r a).
  { intros a Ha Hi. destruct (Hin a r Ha Hi) as [J|[J|J]]; auto; congruence. }
  assert (Cl : clean str (lit "0") X (lit "|") (lit ",") = join X (texts s)).
  { rewrite (clean_rows _ _ _ _ _ r); auto.
    - unfold str. rewrite replace_join by auto. apply rows_texts_join.
    - apply strip_ends.
      + intros d t E. apply is_space_digit. unfold str in E. destruct (row_texts X) as [|a [|b l]] eqn:Er; [congruence| |].
        * cbn [join] in E. apply (row_first X a d t); auto. rewrite Er; left; auto.
        * rewrite join_cons in E. assert (Ia : In a (row_texts X)) by (rewrite Er; left; auto).
          destruct a as [|d' a]; [exfalso; apply (row_nonempty X _ Ia); auto|]. injection E as <- _.
          apply (row_first X _ d' a Ia); auto.
      + intros t d E. apply is_space_digit. destruct (join_last [r] _ Rn) as [pre P].
        pose proof (in_last (row_texts X) [] Rn) as I. pose proof (row_nonempty X _ I) as Ne.
        destruct (last_char _ Ne) as [u [d' D]]. unfold str in E. rewrite E, D, app_assoc in P.
        apply app_inj_tail in P. destruct P as [_ ->]. apply (row_last X _ d' u I); auto.
    - rewrite !in_app_iff. cbn [In]. intros [[J|[]]|[[J|[]]|[[J|[]]|J]]]; cbn in J; auto.
    - intros d Hd Hne. destruct (in_dec Z.eq_dec d X) as [I|I].
      + left. rewrite !in_app_iff. auto.
      + right. intros J. unfold str in J. apply in_join in J. destruct J as [[->|[]]|[a [Ha J]]]; [congruence|].
        destruct (Hin a d Ha J) as [K|[K|K]]; auto.
        * rewrite ws_not_digit in K; auto; discriminate.
        * subst d. destruct Hd as [Y|[Y|[Y|[Y|[Y|[Y|[]]]]]]]; discriminate. }
  destruct (decode_nums s Hw str X (join X (texts s)) (join X (texts s)) []) as [t [T1 [T2 [T3 T4]]]]; auto.
  - change (lit "|") with [124]. rewrite (cut_none 124 [] (join X (texts s))); auto.
    intros J. apply in_join in J. destruct J as [J|[a [Ha J]]]; auto.
    destruct (texts_chars s 124 a Ha J); discriminate.
  - apply (split_join c x); [apply texts_nonempty; auto|]. intros a Ha J. destruct (texts_chars s c a Ha J); congruence.
  - exists str, t. splits; auto. unfold encode. rewrite (encode_rows s X Hw). reflexivity.
Qed.
End rows.

(** * Too few and too many fields *)
Lemma read_fields_extra : forall empty more items s i, wf s -> 0 <= i -> items <> [] ->
  i + py_len items = NN s * NN s ->
  read_fields empty (items ++ more) s (i / NN s) (i mod NN s) = read_fields empty items s (i / NN s) (i mod NN s).
Proof.
  intros empty more items; induction items as [|item items IH]; intros s i Hw Hi He L; [congruence|].
  assert (Ln : py_len (item :: items) = 1 + py_len items) by (unfold py_len; cbn [length]; lia).
  assert (Lp : 0 <= py_len items) by (unfold py_len; lia). pose proof (NN_pos s Hw) as Np.
  assert (Hf : field s (i / NN s, i mod NN s)) by (apply div_field; lia).
  cbn [app read_fields].
  destruct (if str_is item empty then Ok 0 else int_of_str item) as [v|e]; cbn [rbind]; auto.
  rewrite setitem_ok by auto. cbn [rbind].
  set (s1 := pset s (i / NN s, i mod NN s) v).
  change (box_width s1 * box_height s1) with (NN s).
  rewrite step_div by lia. cbv beta iota.
  destruct (NN s <=? (i + 1) / NN s) eqn:E; b2p; auto.
  assert (i + 1 < NN s * NN s).
  { assert (i + 1 < NN s * ((i + 1) / NN s + 1)).
    { pose proof (Z.div_mod (i + 1) (NN s) ltac:(lia)). pose proof (Z.mod_pos_bound (i + 1) (NN s) ltac:(lia)). nia. } nia. }
  apply (IH s1 (i + 1)); try lia.
  - apply pset_wf; auto.
  - intros ->. unfold py_len in *. cbn in *. lia.
  - change (NN s1) with (NN s). lia.
Qed.

Lemma decode_plain : forall str b, (forall c, In c str -> is_space c = false /\ c <> 124) ->
  decode str (lit "0") [] (lit "|") (lit ",") (Some b) =
  read_fields (lit "0") (map (fun c => [c]) str) (new_sudoku b) 0 0.
Proof.
  intros str b H. unfold decode. rewrite clean_id.
  2:{ apply strip_by_id. intros c Hc. apply H; auto. }
  2:{ intros c Hc. right. intros Hi. apply H in Hi. destruct Hi as [Hi _].
      destruct Hc as [<-|[<-|[<-|[<-|[<-|[<-|[]]]]]]]; discriminate. }
  cbv zeta. change (lit "|") with [124]. cbv iota. cbn [rbind]. rewrite (cut_none 124 []).
  2:{ intros Hi. apply H in Hi. tauto. }
  cbn [rbind]. destruct (read_fields _ _ _ _ _); reflexivity.
Qed.

Lemma digit_plain : forall c, is_digit c = true -> is_space c = false /\ c <> 124.
Proof. intros c H. split; [apply is_space_digit; auto|]. apply is_digit_range in H. lia. Qed.

Lemma C72_short_proof : forall w h str, 1 <= w -> 1 <= h ->
  (forall c, In c str -> is_digit c = true) -> py_len str <= w * h * (w * h) ->
  exists t, decode str (lit "0") [] (lit "|") (lit ",") (Some (w, h)) = Ok t /\ wf t /\ box_size t = (w, h) /\
    forall r c, field t (r, c) -> cand t (r, c) = [] /\
      num t (r, c) = if r * (w * h) + c <? py_len str then nth (Z.to_nat (r * (w * h) + c)) str 0 - 48 else 0.
Proof.
  intros w h str Hw Hh H L. pose proof (new_sudoku_wf w h Hw Hh) as W.
  rewrite decode_plain by (intros; apply digit_plain; auto).
  destruct (read_fields_ok (lit "0") (map (fun c => [c]) str) (map (fun c => c - 48) str) (new_sudoku (w, h)) 0)
    as [t [T1 [T2 [T3 [T4 T5]]]]]; auto; try lia.
  - clear L. induction str as [|c str IH]; cbn [map]; constructor.
    + apply read_item_digit, H; left; auto.
    + apply IH. intros; apply H; right; auto.
  - intros _. unfold py_len in *. rewrite map_length. cbn. lia.
  - exists t. change (NN (new_sudoku (w, h))) with (w * h) in *.
    rewrite Z.div_0_l, Z.mod_0_l in T1 by nia. splits; auto.
    + unfold box_size. rewrite T3, T4. reflexivity.
    + intros r c Hp. assert (Hf : field (new_sudoku (w, h)) (r, c)) by (unfold field in *; rewrite <- T3, <- T4; auto).
      destruct (T5 (r, c) Hf) as [E1 E2]. pose proof (pos_bound _ _ Hf) as B. change (NN (new_sudoku (w, h))) with (w * h) in B.
      split; [rewrite E1; apply cand_new; auto|].
      rewrite E2. cbv zeta. unfold py_len in *. rewrite map_length.
      replace (0 <=? pos (w * h) (r, c)) with true by (symmetry; apply Z.leb_le; lia). cbn [andb].
      change (r * (w * h) + c) with (pos (w * h) (r, c)). rewrite Z.add_0_l.
      destruct (pos (w * h) (r, c) <? Z.of_nat (length str)) eqn:E; b2p.
      * rewrite Z.sub_0_r. rewrite nth_indep with (d' := 0 - 48) by (rewrite map_length; lia).
        rewrite (map_nth (fun c => c - 48)). reflexivity.
      * apply num_new; auto.
Qed.

Lemma C72_long_proof : forall w h str more, 1 <= w -> 1 <= h ->
  (forall c, In c str -> is_digit c = true) -> py_len str = w * h * (w * h) ->
  (forall c, In c more -> is_space c = false /\ c <> 124) ->
  decode (str ++ more) (lit "0") [] (lit "|") (lit ",") (Some (w, h)) =
  decode str (lit "0") [] (lit "|") (lit ",") (Some (w, h)).
Proof.
  intros w h str more Hw Hh H L M. pose proof (new_sudoku_wf w h Hw Hh) as W.
  rewrite (decode_plain str) by (intros; apply digit_plain; auto).
  rewrite decode_plain.
  2:{ intros c Hc. apply in_app_iff in Hc. destruct Hc; [apply digit_plain|]; auto. }
  rewrite map_app.
  pose proof (read_fields_extra (lit "0") (map (fun c => [c]) more) (map (fun c => [c]) str) (new_sudoku (w, h)) 0 W) as E.
  change (NN (new_sudoku (w, h))) with (w * h) in E. rewrite Z.div_0_l, Z.mod_0_l in E by nia.
  apply E; [lia| |].
  - intros X. apply map_eq_nil in X. subst str. unfold py_len in L. cbn in L. nia.
  - unfold py_len in *. rewrite map_length. lia.
Qed.
