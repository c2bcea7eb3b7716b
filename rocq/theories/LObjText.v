(** Lemmas for C135: the texts of sudokus with arbitrary objects. *)
From Verif Require Export LView2 SpecObjText.
From Verif Require Import LCodec4.
Import PyStr MCodec.

Section text.
Variables (truth : Z -> bool) (ostr : Z -> pystr).

Lemma encode_o_ok : forall s row_sep col_sep, wf s -> encode_o ostr s row_sep col_sep false = Ok (encode_text ostr s row_sep col_sep).
Proof.
  intros s a b W. unfold encode_o, encode_text.
  rewrite (mapM_ok _ (fun r => join b (map (fun c => ostr (num s (r, c))) (indices s)))).
  - reflexivity.
  - intros r Hr. apply in_indices in Hr. rewrite (mapM_ok _ (fun c => ostr (num s (r, c)))); auto.
    intros c Hc. apply in_indices in Hc. rewrite getitem_ok by (auto; apply field_cell; cbn; auto). reflexivity.
Qed.

Lemma encode_o_same : forall s t row_sep col_sep inc, wf s -> wf t -> box_size t = box_size s ->
  (forall p, field s p -> ostr (num s p) = str_of_int (num t p) /\ cand s p = cand t p) ->
  encode_o ostr s row_sep col_sep inc = encode t row_sep col_sep inc.
Proof.
  intros s t a b inc W Wt B H. unfold box_size in B. injection B as Bw Bh.
  assert (I : indices t = indices s) by (unfold indices; rewrite Bw, Bh; auto).
  assert (C : coords t = coords s) by (unfold coords; rewrite I; auto).
  assert (F : forall p, field s p -> field t p) by (intros p; unfold field; rewrite Bw, Bh; auto).
  unfold encode_o, encode. rewrite I, C.
  rewrite (mapM_ok _ (fun r => join b (map (fun c => str_of_int (num t (r, c))) (indices s)))).
  2:{ intros r Hr. apply in_indices in Hr. rewrite (mapM_ok _ (fun c => str_of_int (num t (r, c)))); auto.
      intros c Hc. apply in_indices in Hc. assert (Fp : field s (r, c)) by (apply field_cell; cbn; auto).
      rewrite getitem_ok by auto. cbn [rbind]. rewrite (proj1 (H _ Fp)). auto. }
  rewrite (mapM_ok (fun row => let* nums := mapM (fun col => let* v := getitem t row col in Ok (str_of_int v)) (indices s) in Ok (join b nums))
    (fun r => join b (map (fun c => str_of_int (num t (r, c))) (indices s)))).
  2:{ intros r Hr. apply in_indices in Hr. rewrite (mapM_ok _ (fun c => str_of_int (num t (r, c)))); auto.
      intros c Hc. apply in_indices in Hc. assert (Fp : field s (r, c)) by (apply field_cell; cbn; auto).
      rewrite getitem_ok by auto. auto. }
  cbn [rbind]. destruct inc; auto.
  rewrite (mapM_ok _ (fun p => concat (map str_of_int (cand t p)))).
  2:{ intros [r c] Hp. apply in_coords in Hp. cbn [fst snd]. rewrite get_candidates_ok by auto. cbn [rbind]. rewrite (proj2 (H _ Hp)). auto. }
  rewrite (mapM_ok (fun rc => let* c := get_candidates t (fst rc) (snd rc) in Ok (concat (map str_of_int c))) (fun p => concat (map str_of_int (cand t p)))); auto.
  intros [r c] Hp. apply in_coords in Hp. cbn [fst snd]. rewrite get_candidates_ok by auto. auto.
Qed.

Section view.
Variables (s : sudoku) (inc : bool) (prefix : pystr) (right : bool).
Hypothesis W : wf s.
Let w := box_width s.
Let h := box_height s.

Lemma view_row_o_ok : forall m r, 0 <= r < NN s ->
  view_row_o truth ostr s inc (if 10 <=? NN s then lit "," else []) prefix right m r =
  Ok (line w h (fun c => just right m (shown_o truth ostr s inc prefix (r, c)))).
Proof.
  intros m r Hr'. unfold view_row_o, line.
  rewrite (mapM_ok _ (pieces w h (fun c => just right m (shown_o truth ostr s inc prefix (r, c))))); [reflexivity|].
  intros c Hc. apply in_indices in Hc. assert (Hf : field s (r, c)) by (apply field_cell; cbn; auto).
  rewrite getitem_ok by auto. cbn [rbind]. unfold pieces. fold w h.
  assert (E : (if truth (num s (r, c)) then Ok (ostr (num s (r, c)))
               else if negb inc then Ok []
               else let* c0 := get_candidates s r c in
                    Ok (prefix ++ join (if 10 <=? w * h then lit "," else []) (map str_of_int c0)))
              = Ok (shown_o truth ostr s inc prefix (r, c))).
  { unfold shown_o. destruct (truth (num s (r, c))); auto.
    destruct inc; cbn [negb]; auto. rewrite get_candidates_ok by auto. reflexivity. }
  unfold w, h in *. rewrite E. reflexivity.
Qed.

Lemma view_text_o : forall m ln rule row, (forall r, 0 <= r < NN s -> row r = Ok (ln r)) ->
  view_rule s m = rule ++ [10] ->
  foldM (fun acc rc =>
           let* line := row rc in
           let acc := acc ++ line in
           let acc := if rc <? NN s - 1 then acc ++ [10] else acc in
           Ok (if ((rc + 1) mod box_height s =? 0) && (rc <? NN s - 1)
               then acc ++ view_rule s m else acc))
        (indices s) []
  = Ok (join [10] (concat (map (block s ln rule) (indices s)))).
Proof.
  intros m ln rule row H1 H2. pose proof (NN_pos s W) as Np.
  assert (G : forall n, Z.of_nat n < NN s -> foldM (fun acc rc =>
           let* line := row rc in
           let acc := acc ++ line in
           let acc := if rc <? NN s - 1 then acc ++ [10] else acc in
           Ok (if ((rc + 1) mod box_height s =? 0) && (rc <? NN s - 1)
               then acc ++ view_rule s m else acc))
        (py_range (Z.of_nat n)) []
    = Ok (flat_map (fun x => x ++ [10]) (concat (map (block s ln rule) (py_range (Z.of_nat n)))))).
  { induction n as [|n IH]; intros Hn; auto.
    replace (Z.of_nat (S n)) with (Z.of_nat n + 1) by lia. rewrite py_range_app by lia.
    rewrite foldM_app, IH by lia. cbn [rbind foldM]. rewrite H1 by lia. cbn [rbind].
    rewrite map_app, concat_app, flat_map_app. cbn [map concat]. rewrite app_nil_r. unfold block.
    replace (Z.of_nat n <? NN s - 1) with true by (symmetry; apply Z.ltb_lt; lia). rewrite andb_true_r.
    destruct ((Z.of_nat n + 1) mod box_height s =? 0).
    - cbn [andb flat_map]. rewrite H2, ?app_nil_r, <- !app_assoc. reflexivity.
    - cbn [andb flat_map]. rewrite ?app_nil_r, <- !app_assoc. reflexivity. }
  assert (Ei : indices s = py_range (NN s - 1) ++ [NN s - 1]).
  { rewrite <- py_range_app by lia. unfold indices. f_equal. lia. }
  rewrite Ei.
  rewrite foldM_app. specialize (G (Z.to_nat (NN s - 1))). rewrite Z2Nat.id in G by lia. rewrite G by lia.
  cbn [rbind foldM]. rewrite H1 by lia. cbn [rbind].
  rewrite map_app, concat_app. cbn [map concat]. rewrite app_nil_r.
  replace (NN s - 1 <? NN s - 1) with false by (symmetry; apply Z.ltb_ge; lia). rewrite !andb_false_r.
  assert (Eb : block s ln rule (NN s - 1) = [ln (NN s - 1)]).
  { unfold block. replace (NN s - 1 <? NN s - 1) with false by (symmetry; apply Z.ltb_ge; lia).
    rewrite andb_false_r. reflexivity. }
  rewrite Eb. apply (f_equal (@Ok pystr)). generalize (concat (map (block s ln rule) (py_range (NN s - 1)))) as l. intros l.
  induction l as [|x l IH]; auto. cbn [flat_map]. rewrite <- app_assoc, IH.
  cbn [app]. destruct (l ++ [ln (NN s - 1)]) eqn:E.
  - apply app_eq_nil in E. destruct E; discriminate.
  - rewrite join_cons, <- app_assoc. reflexivity.
Qed.

Lemma view_o_exact : forall number_sep, exists m, field_width s inc prefix m /\
  view_o truth ostr s inc number_sep prefix right = Ok (grid_text w h (shown_o truth ostr s inc prefix) right m).
Proof.
  intros number_sep. destruct (width_ok s inc prefix W) as [M [m [M1 [M4 [Hm [F F3]]]]]]. exists m. split; auto.
  pose proof (wf_w _ W) as Hw. pose proof (wf_h _ W) as Hh.
  set (ln := fun r => line w h (fun c => just right m (shown_o truth ostr s inc prefix (r, c)))).
  assert (Rule : view_rule s m = rule_text w h m ++ [10]).
  { rewrite <- rule_same by (auto; unfold w, h; lia). unfold view_rule, rule_body, dashes. change (lit "+") with [43]. fold w h. rewrite <- !app_assoc. reflexivity. }
  unfold view_o. rewrite M1. cbn [rbind]. rewrite M4. refine (eq_trans (rbind_ok_l _ _ _ F3) _).
  refine (eq_trans (view_text_o m ln (rule_text w h m) (view_row_o truth ostr s inc (if 10 <=? NN s then lit "," else []) prefix right m) _ Rule) _); [intros r Hr; apply view_row_o_ok; auto|].
  apply f_equal. unfold grid_text.
  refine (eq_trans _ (nested_join [10] (rule_text w h m) (grid_row w h (shown_o truth ostr s inc prefix) right m) h Hh w Hw)).
  unfold indices. change (box_width s * box_height s) with (w * h). apply f_equal. apply f_equal. apply map_ext_in. intros r Hr.
  unfold block, piece. change (NN s) with (w * h). fold h.
  assert (L : ln r = grid_row w h (shown_o truth ostr s inc prefix) right m r).
  { unfold ln, line, grid_row. change (lit " | ") with ([32] ++ [124] ++ [32]). change (lit " ") with [32].
    refine (eq_trans _ (nested_join [32] [124] (fun c => padded right m (shown_o truth ostr s inc prefix (r, c))) w Hw h Hh)).
    unfold pieces, piece. replace (h * w) with (w * h) by ring. apply f_equal. apply f_equal. apply map_ext. intros c. rewrite just_padded. reflexivity. }
  rewrite L. reflexivity.
Qed.
End view.
End text.

(** * The sudoku of the ints *)
Definition renum (g : Z -> Z) (s : sudoku) : sudoku :=
  {| box_width := box_width s; box_height := box_height s; s_numbers := map (map g) (s_numbers s); s_candidates := s_candidates s |}.
Lemma renum_wf : forall g s, wf s -> wf (renum g s).
Proof.
  intros g s [H1 H2 H3 H4 H5 H6 H7]. constructor; cbn [renum box_width box_height s_numbers s_candidates]; auto.
  - rewrite map_length. exact H3.
  - intros row H. apply in_map_iff in H. destruct H as [r [<- H]]. rewrite map_length. auto.
Qed.
Lemma renum_num : forall g s p, wf s -> field s p -> num (renum g s) p = g (num s p).
Proof.
  intros g s p W F. rewrite num_nth by (auto using renum_wf). rewrite (num_nth s) by auto. cbn [renum s_numbers].
  pose proof (wf_nrows _ W) as L1. pose proof (wf_nrow _ W) as L2. destruct F as [Hr Hc]. unfold pystr in *.
  change (@nil Z) with (map g []) at 1. rewrite map_nth. rewrite (nth_indep (map g _) 0 (g 0)); [apply map_nth|].
  rewrite map_length, L2; [lia|]. apply nth_In. lia.
Qed.
Lemma renum_cand : forall g s p, cand (renum g s) p = cand s p.
Proof. reflexivity. Qed.

Lemma texts_ints : forall ostr s, wf s -> (forall p, field s p -> exists n, ostr (num s p) = str_of_int n) ->
  exists t, wf t /\ box_size t = box_size s /\ forall p, field s p -> ostr (num s p) = str_of_int (num t p) /\ cand s p = cand t p.
Proof.
  intros ostr s W H. set (g := fun x => match int_of_str (ostr x) with Ok n => n | Err _ => 0 end).
  exists (renum g s). split; [apply renum_wf; auto|]. split; [reflexivity|]. intros p F. split; [|reflexivity].
  rewrite renum_num by auto. destruct (H p F) as [n E]. unfold g. rewrite E, int_of_str_of_int. reflexivity.
Qed.

Lemma C135_digits_proof : forall ostr s, wf s -> (forall p, field s p -> exists d, 0 <= d <= 9 /\ ostr (num s p) = [48 + d]) ->
  exists str u, encode_o ostr s [] [] false = Ok str /\
    decode str (lit "0") [] (lit "|") (lit ",") (Some (box_size s)) = Ok u /\ wf u /\ box_size u = box_size s /\
    (forall p, field s p -> ostr (num s p) = [48 + num u p]) /\ (forall p, field s p -> cand u p = []).
Proof.
  intros ostr s W H. destruct (texts_ints ostr s W) as [t [Wt [B Ht]]].
  { intros p F. destruct (H p F) as [d [Hd E]]. exists d. rewrite E, str_of_digit by lia. auto. }
  assert (Ft : forall p, field t p <-> field s p) by (intros p; unfold box_size in B; injection B as B1 B2; unfold field; rewrite B1, B2; tauto).
  assert (One : forall p, field s p -> 0 <= num t p <= 9).
  { intros p F. destruct (H p F) as [d [Hd E]]. destruct (Ht p F) as [E' _]. rewrite E, <- str_of_digit in E' by lia.
    apply str_of_int_inj in E'. lia. }
  destruct (decode_digits t Wt) as [str [u [E1 [E2 [Wu [[Bu Nu] Cu]]]]]]; [intros p F; apply One, Ft; auto|].
  exists str, u. rewrite (encode_o_same ostr s t) by auto. rewrite <- B. splits; auto; try congruence.
  - intros p F. destruct (Ht p F) as [E' _]. rewrite E', Nu by (apply Ft; auto). apply str_of_digit. specialize (One p F). lia.
  - intros p F. apply Cu, Ft; auto.
Qed.

Lemma C135_separated_proof : forall ostr s c x, wf s -> (forall p, field s p -> exists n, ostr (num s p) = str_of_int n) ->
  is_digit c = false -> c <> 45 -> ~ In 124 (c :: x) ->
  exists str u, encode_o ostr s (c :: x) (c :: x) false = Ok str /\
    decode str (lit "0") (c :: x) (lit "|") (lit ",") (Some (box_size s)) = Ok u /\ wf u /\ box_size u = box_size s /\
    (forall p, field s p -> ostr (num s p) = str_of_int (num u p)) /\ (forall p, field s p -> cand u p = []).
Proof.
  intros ostr s c x W H H1 H2 H3. destruct (texts_ints ostr s W H) as [t [Wt [B Ht]]].
  assert (Ft : forall p, field t p <-> field s p) by (intros p; unfold box_size in B; injection B as B1 B2; unfold field; rewrite B1, B2; tauto).
  destruct (decode_separated t Wt c x H1 H2 H3) as [str [u [E1 [E2 [Wu [[Bu Nu] Cu]]]]]].
  exists str, u. rewrite (encode_o_same ostr s t) by auto. rewrite <- B. splits; auto; try congruence.
  - intros p F. destruct (Ht p F) as [E' _]. rewrite E', Nu by (apply Ft; auto). auto.
  - intros p F. apply Cu, Ft; auto.
Qed.
