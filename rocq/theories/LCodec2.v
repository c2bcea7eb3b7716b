(** Lemmas about MCodec: decode. *)
From Verif Require Export LSolvers5 LCodec SpecCodec.
Import PyStr.

Lemma read_item_int : forall n, read_item (lit "0") (str_of_int n) = Ok n.
Proof.
  intros n. unfold read_item. destruct (str_is (str_of_int n) (lit "0")) eqn:E.
  - unfold str_is in E. apply andb_prop in E. destruct E as [_ E]. apply str_eqb_eq in E.
    change (lit "0") with (str_of_int 0) in E. apply str_of_int_inj in E. congruence.
  - apply int_of_str_of_int.
Qed.

Lemma last_char : forall (s : pystr), s <> [] -> exists t c, s = t ++ [c].
Proof. intros s H. destruct (exists_last H) as [t [c E]]. eauto. Qed.

Lemma strip_ends : forall s, (forall c t, s = c :: t -> is_space c = false) ->
  (forall t c, s = t ++ [c] -> is_space c = false) -> strip s = s.
Proof.
  intros s H1 H2. unfold strip, strip_by.
  replace (drop_while is_space s) with s.
  - destruct s as [|c s]; auto. destruct (last_char (c :: s)) as [t [d E]]; [discriminate|].
    specialize (H2 t d E). rewrite E, rev_unit. cbn [drop_while]. rewrite H2.
    cbn [rev]. rewrite rev_involutive. reflexivity.
  - destruct s as [|c s]; auto. cbn [drop_while]. rewrite (H1 c s) by auto. reflexivity.
Qed.

Lemma clean_id : forall s e n a b, strip s = s ->
  (forall c, In c WHITESPACE -> In c (e ++ a ++ b ++ n) \/ ~ In c s) -> clean s e n a b = s.
Proof.
  intros s e n a b H1 H2. unfold clean. rewrite H1.
  remember (e ++ a ++ b ++ n) as sp. clear Heqsp H1. revert H2. generalize WHITESPACE as l. intros l.
  induction l as [|c l IH]; intros H2; auto. cbn [fold_left].
  destruct (char_in c sp) eqn:E.
  - apply IH. intros; apply H2; right; auto.
  - apply char_in_false in E. rewrite replace_char_id.
    + apply IH. intros; apply H2; right; auto.
    + destruct (H2 c); auto. left; auto.
Qed.

Section decode.
Variable s : sudoku.
Hypothesis Hw : wf s.

Definition texts : list pystr := map (fun p => str_of_int (num s p)) (coords s).

Lemma py_len_coords : py_len (coords s) = NN s * NN s.
Proof.
  unfold py_len. rewrite length_coords. pose proof (NN_pos s Hw). rewrite Nat2Z.inj_mul, Z2Nat.id by lia. lia.
Qed.

Lemma texts_nonempty : texts <> [].
Proof. unfold texts. pose proof (coords_nonempty s Hw). destruct (coords s); [congruence|discriminate]. Qed.

Lemma new_size : wf (new_sudoku (box_size s)) /\
  forall p, field (new_sudoku (box_size s)) p <-> field s p.
Proof. split; [apply new_sudoku_wf; [apply (wf_w _ Hw)|apply (wf_h _ Hw)]|reflexivity]. Qed.

Lemma decode_nums : forall str nsep full body rest,
  clean str (lit "0") nsep (lit "|") (lit ",") = full ->
  (match cut (lit "|") full with Some (a, b) => (a, b) | None => (full, []) end) = (body, rest) ->
  (match nsep with [] => map (fun c => [c]) body | _ => split_go nsep body 0 end) = texts ->
  exists t, wf t /\ same_numbers s t /\ (forall p, field s p -> cand t p = []) /\
    decode str (lit "0") nsep (lit "|") (lit ",") (Some (box_size s)) =
    match rest with
    | [] => Ok t
    | _ => let* l := split (lit ",") rest in read_candidates nsep l t 0 0
    end.
Proof.
  intros str nsep full body rest H1 H2 H3.
  destruct new_size as [W F]. pose proof (NN_pos s Hw) as Np.
  destruct (read_fields_ok (lit "0") texts (map (num s) (coords s)) (new_sudoku (box_size s)) 0)
    as [t [T1 [T2 [T3 [T4 T5]]]]]; auto; try lia.
  - unfold texts. induction (coords s) as [|p l IH]; cbn [map]; constructor; auto. apply read_item_int.
  - intros _. unfold texts, py_len. rewrite map_length. pose proof py_len_coords as L. unfold py_len in L. rewrite L.
    cbn. lia.
  - exists t. splits; auto.
    + split; [unfold box_size at 1; rewrite T3, T4; reflexivity|]. intros p Hp.
      destruct (T5 p (proj2 (F p) Hp)) as [_ E]. rewrite E. cbv zeta.
      change (NN (new_sudoku (box_size s))) with (NN s). pose proof (pos_bound s p Hp) as B.
      unfold texts, py_len. rewrite map_length. fold (py_len (coords s)). rewrite py_len_coords.
      replace (0 <=? pos (NN s) p) with true by (symmetry; apply Z.leb_le; lia).
      replace (pos (NN s) p <? 0 + NN s * NN s) with true by (symmetry; apply Z.ltb_lt; lia). cbn [andb].
      rewrite Z.sub_0_r. rewrite nth_indep with (d' := num s (0, 0)).
      * rewrite map_nth. f_equal. apply nth_coords; auto.
      * rewrite map_length. pose proof py_len_coords. unfold py_len in *. lia.
    + intros p Hp. destruct (T5 p (proj2 (F p) Hp)) as [E _]. rewrite E.
      apply cand_new; [apply (wf_w _ Hw)|apply (wf_h _ Hw)|apply Hp].
    + unfold decode. rewrite H1. cbv zeta. change (lit "|") with [124] in *. cbv iota. cbn [rbind].
      rewrite H2. cbn [rbind]. rewrite H3. cbn [rbind].
      change (NN (new_sudoku (box_size s))) with (NN s) in *.
      rewrite Z.div_0_l, Z.mod_0_l in T1 by lia. rewrite T1. cbn [rbind]. reflexivity.
Qed.

Lemma texts_chars : forall c a, In a texts -> In c a -> is_digit c = true \/ c = 45.
Proof.
  intros c a Ha Hc. apply in_map_iff in Ha. destruct Ha as [p [<- _]]. eapply str_of_int_chars; eauto.
Qed.

Lemma texts_items_nonempty : forall a, In a texts -> a <> [].
Proof. intros a Ha. apply in_map_iff in Ha. destruct Ha as [p [<- _]]. apply str_of_int_nonempty. Qed.

(** The first and the last character of the joined texts are digits or '-'. *)
Lemma join_texts_first : forall x c t, join x texts = c :: t -> is_digit c = true \/ c = 45.
Proof.
  intros x c t E. pose proof texts_nonempty. pose proof texts_items_nonempty as I. pose proof texts_chars as C.
  destruct texts as [|a [|b l]]; [congruence| |].
  - cbn [join] in E. apply (C c a); [left; auto|]. rewrite E; left; auto.
  - rewrite join_cons in E. destruct a as [|d a]; [destruct (I []); [left|]; auto|].
    injection E as <- _. apply (C d (d :: a)); left; auto.
Qed.

Lemma join_last : forall x l, l <> [] -> exists pre, join x l = pre ++ last l [].
Proof.
  intros x l; induction l as [|a [|b l] IH]; intros H; [congruence| |].
  - exists []; reflexivity.
  - destruct IH as [pre E]; [discriminate|]. rewrite join_cons, E. exists (a ++ x ++ pre).
    rewrite <- !app_assoc. reflexivity.
Qed.

Lemma in_last : forall {A} (l : list A) d, l <> [] -> In (last l d) l.
Proof.
  intros A l d H. destruct (exists_last H) as [m [x ->]]. rewrite last_last. apply in_app_iff; right; left; auto.
Qed.

Lemma join_texts_last : forall x c t, join x texts = t ++ [c] -> is_digit c = true \/ c = 45.
Proof.
  intros x c t E. destruct (join_last x texts texts_nonempty) as [pre P].
  pose proof (in_last texts [] texts_nonempty) as I. pose proof (texts_items_nonempty _ I) as Ne.
  destruct (last_char _ Ne) as [u [d D]]. rewrite D, E, app_assoc in P.
  apply app_inj_tail in P. destruct P as [_ <-]. apply (texts_chars c (last texts [])); auto.
  rewrite D. apply in_app_iff; right; left; auto.
Qed.

(** * Separated numbers (C49) *)
Lemma decode_separated : forall c x, is_digit c = false -> c <> 45 -> ~ In 124 (c :: x) ->
  exists str t, encode s (c :: x) (c :: x) false = Ok str /\
    decode str (lit "0") (c :: x) (lit "|") (lit ",") (Some (box_size s)) = Ok t /\
    wf t /\ same_numbers s t /\ (forall p, field s p -> cand t p = []).
Proof.
  intros c x Hc1 Hc2 Hc3. exists (join (c :: x) texts).
  assert (Hin : forall d, In d (join (c :: x) texts) -> In d (c :: x) \/ is_digit d = true \/ d = 45).
  { intros d Hd. apply in_join in Hd. destruct Hd as [Hd|[a [Ha Hd]]]; auto. right. eapply texts_chars; eauto. }
  destruct (decode_nums (join (c :: x) texts) (c :: x) (join (c :: x) texts) (join (c :: x) texts) [])
    as [t [T1 [T2 [T3 T4]]]].
  - apply clean_id.
    + apply strip_ends; intros; apply is_space_digit; [eapply join_texts_first|eapply join_texts_last]; eauto.
    + intros d Hd. destruct (in_dec Z.eq_dec d (c :: x)) as [I|I].
      * left. rewrite !in_app_iff. auto.
      * right. intros J. destruct (Hin d J) as [J1|J1]; auto.
        assert (is_space d = true) by (destruct Hd as [<-|[<-|[<-|[<-|[<-|[<-|[]]]]]]]; reflexivity).
        rewrite is_space_digit in H; congruence.
  - change (lit "|") with [124]. rewrite (cut_none 124 [] (join (c :: x) texts)); auto.
    intros J. destruct (Hin _ J) as [J1|[J1|J1]]; [auto|discriminate|discriminate].
  - apply split_join; [apply texts_nonempty|]. intros a Ha J. destruct (texts_chars c a Ha J); congruence.
  - exists t. splits; auto. apply encode_same_sep; auto.
Qed.

(** * One-digit numbers (C48, C50) *)
Hypothesis Hd : one_digit s.

Lemma texts_digits : texts = map (fun p => [48 + num s p]) (coords s).
Proof.
  unfold texts. apply map_ext_in. intros p Hp. apply in_coords in Hp. apply str_of_digit. specialize (Hd p Hp). lia.
Qed.

Definition digit_str : pystr := map (fun p => 48 + num s p) (coords s).

Lemma join_digits : join [] texts = digit_str.
Proof.
  rewrite join_nil, texts_digits. unfold digit_str. induction (coords s); cbn; f_equal; auto.
Qed.

Lemma chars_digits : map (fun c => [c]) digit_str = texts.
Proof. rewrite texts_digits. unfold digit_str. rewrite map_map. reflexivity. Qed.

Lemma digit_str_in : forall c, In c digit_str -> is_digit c = true.
Proof.
  intros c H. apply in_map_iff in H. destruct H as [p [<- Hp]]. apply in_coords in Hp. specialize (Hd p Hp).
  apply is_digit_range. lia.
Qed.

Lemma ws_not_digit : forall c, In c WHITESPACE -> is_digit c = false.
Proof. intros c Hc. destruct Hc as [<-|[<-|[<-|[<-|[<-|[<-|[]]]]]]]; reflexivity. Qed.

Lemma decode_digits : exists str t, encode s [] [] false = Ok str /\
    decode str (lit "0") [] (lit "|") (lit ",") (Some (box_size s)) = Ok t /\
    wf t /\ same_numbers s t /\ (forall p, field s p -> cand t p = []).
Proof.
  exists digit_str. destruct (decode_nums digit_str [] digit_str digit_str []) as [t [T1 [T2 [T3 T4]]]].
  - apply clean_id.
    + apply strip_by_id. intros c H. apply is_space_digit. left. apply digit_str_in; auto.
    + intros c Hc. right. intros H. apply digit_str_in in H. rewrite ws_not_digit in H; auto; discriminate.
  - change (lit "|") with [124]. rewrite (cut_none 124 [] digit_str); auto. intros J. apply digit_str_in in J. discriminate.
  - apply chars_digits.
  - exists t. splits; auto. rewrite encode_same_sep by auto. fold texts. rewrite join_digits. auto.
Qed.

Hypothesis Hc : one_digit_cands s.

Definition cand_texts : list pystr := map (fun p => map (fun n => 48 + n) (cand s p)) (coords s).

Lemma cand_texts_eq : map (fun p => concat (map str_of_int (cand s p))) (coords s) = cand_texts.
Proof.
  unfold cand_texts. apply map_ext_in. intros p Hp. apply in_coords in Hp.
  pose proof (fun n H => Hc p n Hp H) as B. induction (cand s p) as [|n l IH]; auto.
  cbn [map concat]. rewrite str_of_digit by (specialize (B n (or_introl eq_refl)); lia).
  cbn [app]. rewrite IH; auto. intros; apply B; right; auto.
Qed.

Lemma cand_texts_in : forall c a, In a cand_texts -> In c a -> is_digit c = true.
Proof.
  intros c a Ha H. apply in_map_iff in Ha. destruct Ha as [p [<- Hp]]. apply in_coords in Hp.
  apply in_map_iff in H. destruct H as [n [<- Hn]]. specialize (Hc p n Hp Hn). apply is_digit_range. lia.
Qed.

Lemma read_cand_text : forall p, field s p ->
  read_cands [] (map (fun n => 48 + n) (cand s p)) = Ok (cand s p).
Proof.
  intros p Hp. unfold read_cands. unfold strip. rewrite strip_by_id.
  - cbn [rbind]. rewrite map_map. pose proof (fun n H => Hc p n Hp H) as B.
    induction (cand s p) as [|n l IH]; auto. cbn [map mapM].
    rewrite int_of_digit by (apply is_digit_range; specialize (B n (or_introl eq_refl)); lia).
    cbn [rbind]. rewrite IH by (intros; apply B; right; auto). cbn [rbind]. replace (48 + n - 48) with n by lia. reflexivity.
  - intros c H. apply is_space_digit. left. apply in_map_iff in H. destruct H as [n [<- Hn]].
    specialize (Hc p n Hp Hn). apply is_digit_range. lia.
Qed.

Lemma decode_candidates : exists str, encode s [] [] true = Ok str /\
    decode str (lit "0") [] (lit "|") (lit ",") (Some (box_size s)) = Ok s.
Proof.
  set (rest := join (lit ",") cand_texts). set (full := digit_str ++ lit "|" ++ rest).
  exists full. split.
  { rewrite encode_cands by auto. fold texts. rewrite join_digits, cand_texts_eq. reflexivity. }
  assert (Hin : forall c, In c full -> is_digit c = true \/ c = 124 \/ c = 44).
  { intros c H. unfold full in H. rewrite !in_app_iff in H. destruct H as [H|[[<-|[]]|H]]; auto.
    - left; apply digit_str_in; auto.
    - apply in_join in H. destruct H as [[<-|[]]|[a [Ha H]]]; auto. left; eapply cand_texts_in; eauto. }
  destruct (decode_nums full [] full digit_str rest) as [t [T1 [[T2 T2'] [T3 T4]]]].
  - apply clean_id.
    + apply strip_by_id. intros c H. destruct (Hin c H) as [J|[ -> | -> ]]; auto. apply is_space_digit; auto.
    + intros c Hw'. right. intros H. pose proof (ws_not_digit c Hw').
      destruct (Hin c H) as [J|[ -> | -> ]]; [congruence| |];
        destruct Hw' as [X|[X|[X|[X|[X|[X|[]]]]]]]; discriminate.
  - unfold full. change (lit "|") with [124]. rewrite cut_app; auto.
    intros J. apply digit_str_in in J. discriminate.
  - apply chars_digits.
  - rewrite T4. pose proof (NN_pos s Hw) as Np.
    assert (Et : NN t = NN s) by (unfold box_size in T2; injection T2 as -> ->; auto).
    assert (Ft : forall p, field t p <-> field s p) by (intros p; unfold field; unfold box_size in T2; injection T2 as -> ->; reflexivity).
    assert (Done : forall u, wf u -> box_width u = box_width t -> box_height u = box_height t ->
       (forall p, field t p -> num u p = num t p) -> (forall p, field t p -> cand u p = cand s p) -> u = s).
    { intros u U1 U2 U3 U4 U5. injection T2 as B1 B2. apply sudoku_ext; auto; try congruence.
      - intros p Hp. assert (Hs : field s p) by (unfold field in *; rewrite U2, U3, B1, B2 in Hp; auto).
        rewrite U4 by (apply Ft; auto). auto.
      - intros p Hp. assert (Hs : field s p) by (unfold field in *; rewrite U2, U3, B1, B2 in Hp; auto).
        apply U5. apply Ft; auto. }
    destruct (list_eq_dec Z.eq_dec rest []) as [E|E].
    + rewrite E. f_equal. apply Done; auto. intros p Hp. apply Ft in Hp. rewrite T3 by auto.
      symmetry. unfold rest in E. unfold cand_texts in E.
      assert (X : map (fun n => 48 + n) (cand s p) = []).
      { pose proof (proj2 (in_coords s p) Hp) as Ip. destruct (coords s) as [|q [|q' l]]; [destruct Ip| |].
        - destruct Ip as [<-|[]]. exact E.
        - cbn [map] in E. rewrite join_cons in E. apply app_eq_nil in E. destruct E as [_ E]. discriminate. }
      destruct (cand s p); [auto|discriminate].
    + assert (G : split (lit ",") rest = Ok cand_texts).
      { unfold rest. change (lit ",") with [44]. cbn [split]. f_equal. apply split_join.
        - unfold cand_texts. pose proof (coords_nonempty s Hw). destruct (coords s); [congruence|discriminate].
        - intros a Ha J. pose proof (cand_texts_in _ _ Ha J). discriminate. }
      assert (G2 : match rest with [] => Ok t | _ => let* l := split (lit ",") rest in read_candidates [] l t 0 0 end
                   = read_candidates [] cand_texts t 0 0).
      { rewrite G. destruct rest; [congruence|reflexivity]. }
      rewrite G2.
      destruct (read_candidates_ok [] cand_texts (map (cand s) (coords s)) t 0) as [u [U1 [U2 [U3 [U4 U5]]]]]; auto; try lia.
      * unfold cand_texts. assert (Fc : forall p, In p (coords s) -> field s p) by (intros p; apply in_coords).
        revert Fc. generalize (coords s) as l. intros l; induction l as [|p l IH]; intros Fc; cbn [map]; constructor.
        -- apply read_cand_text, Fc; left; auto.
        -- apply IH. intros; apply Fc; right; auto.
      * intros _. unfold cand_texts, py_len. rewrite map_length. pose proof py_len_coords as L. unfold py_len in L.
        rewrite L, Et. lia.
      * rewrite Et in *. rewrite Z.div_0_l, Z.mod_0_l in U1 by lia. rewrite U1. f_equal. apply Done; auto.
        -- intros p Hp. apply U5; auto.
        -- intros p Hp. destruct (U5 p Hp) as [_ V]. rewrite V. cbv zeta. apply Ft in Hp.
           pose proof (pos_bound s p Hp) as B.
           unfold cand_texts, py_len. rewrite map_length. fold (py_len (coords s)). rewrite py_len_coords.
           replace (0 <=? pos (NN s) p) with true by (symmetry; apply Z.leb_le; lia).
           replace (pos (NN s) p <? 0 + NN s * NN s) with true by (symmetry; apply Z.ltb_lt; lia). cbn [andb].
           rewrite Z.sub_0_r. rewrite nth_indep with (d' := cand s (0, 0)).
           ++ rewrite map_nth. transitivity (sof_list zcmp (cand s p)); [do 2 f_equal; apply nth_coords; auto|]. apply (sof_list_id _ zcmp_good). apply cand_sset; auto.
           ++ rewrite map_length. pose proof py_len_coords as L. unfold py_len in L. lia.
Qed.
End decode.
