(** The exact text of view. *)
From Verif Require Export LView SpecView.

Lemma below_range : forall n, below n = py_range n.
Proof. reflexivity. Qed.

(** Pieces separated by [sp], and after each [b] of them by [sep], too *)
Section nested.
Variables (sp sep : pystr) (x : Z -> pystr) (b : Z).
Hypothesis Hb : 1 <= b.

Lemma range_plus : forall n k, 0 <= n -> py_range (n + Z.of_nat k) = py_range n ++ map (fun i => n + i) (py_range (Z.of_nat k)).
Proof.
  intros n k Hn. induction k as [|k IH]; [rewrite Z.add_0_r, app_nil_r; reflexivity|].
  replace (n + Z.of_nat (S k)) with (n + Z.of_nat k + 1) by lia. replace (Z.of_nat (S k)) with (Z.of_nat k + 1) by lia.
  rewrite !py_range_app by lia. rewrite IH, map_app, app_assoc. reflexivity.
Qed.

Definition piece (tot i : Z) : list pystr := if ((i + 1) mod b =? 0) && (i <? tot - 1) then [x i; sep] else [x i].
Definition blk (k : Z) : list pystr := map (fun i => x (k * b + i)) (py_range b).

Lemma blk_nonempty : forall k, blk k <> [].
Proof. intros k H. unfold blk in H. apply map_eq_nil in H. assert (In 0 (py_range b)) by (apply in_py_range; lia). rewrite H in *. auto. Qed.

Lemma piece_block : forall tot k, 0 <= k ->
  concat (map (piece tot) (map (fun i => k * b + i) (py_range b))) = blk k ++ (if (k + 1) * b <? tot then [sep] else []).
Proof.
  intros tot k Hk.
  assert (E : py_range b = py_range (b - 1) ++ [b - 1]).
  { rewrite <- py_range_app by lia. f_equal. lia. }
  assert (M : forall i, 0 <= i < b -> ((k * b + i + 1) mod b =? 0) = (i =? b - 1)).
  { intros i Hi. destruct (Z.eqb_spec i (b - 1)) as [->|D].
    - apply Z.eqb_eq. replace (k * b + (b - 1) + 1) with ((k + 1) * b) by ring. apply Z_mod_mult.
    - apply Z.eqb_neq. replace (k * b + i + 1) with (i + 1 + k * b) by ring. rewrite Z_mod_plus_full, Z.mod_small by lia. lia. }
  unfold blk. rewrite E, !map_app, !concat_app, <- app_assoc. cbn [map concat]. f_equal.
  - assert (G : forall l, (forall i, In i l -> 0 <= i < b - 1) ->
      concat (map (piece tot) (map (fun i => k * b + i) l)) = map (fun i => x (k * b + i)) l).
    { induction l as [|i l IH]; intros H; auto. cbn [map concat]. rewrite IH by (intros; apply H; right; auto).
      specialize (H i (or_introl eq_refl)). unfold piece. rewrite M by lia. replace (i =? b - 1) with false by (symmetry; apply Z.eqb_neq; lia). reflexivity. }
    apply G. intros i Hi. apply in_py_range in Hi. lia.
  - rewrite app_nil_r. unfold piece. rewrite M by lia. rewrite Z.eqb_refl. cbn [andb].
    replace (k * b + (b - 1) <? tot - 1) with ((k + 1) * b <? tot).
    + destruct (_ <? _); reflexivity.
    + destruct ((k + 1) * b <? tot) eqn:L; symmetry; [apply Z.ltb_lt in L; apply Z.ltb_lt|apply Z.ltb_ge in L; apply Z.ltb_ge]; lia.
Qed.

Lemma nested_front : forall tot n, Z.of_nat n * b <= tot ->
  concat (map (piece tot) (py_range (Z.of_nat n * b))) =
  concat (map (fun k => blk k ++ (if (k + 1) * b <? tot then [sep] else [])) (py_range (Z.of_nat n))).
Proof.
  intros tot n. induction n as [|n IH]; intros H; auto.
  replace (Z.of_nat (S n)) with (Z.of_nat n + 1) in * by lia.
  replace ((Z.of_nat n + 1) * b) with (Z.of_nat n * b + Z.of_nat (Z.to_nat b)) by lia. rewrite range_plus, py_range_app by nia.
  rewrite !map_app, !concat_app, IH by nia. rewrite Z2Nat.id by lia. rewrite piece_block by lia. cbn [map concat]. rewrite app_nil_r. reflexivity.
Qed.

Lemma nested_join : forall a, 1 <= a ->
  join sp (concat (map (piece (a * b)) (py_range (a * b)))) =
  join (sp ++ sep ++ sp) (map (fun k => join sp (blk k)) (py_range a)).
Proof.
  intros a Ha. replace (py_range (a * b)) with (py_range (Z.of_nat (Z.to_nat a) * b)) by (f_equal; lia). rewrite nested_front by lia. rewrite Z2Nat.id by lia.
  assert (G : forall n, Z.of_nat n <= a -> (0 < n)%nat ->
    join sp (concat (map (fun k => blk k ++ (if (k + 1) * b <? a * b then [sep] else [])) (py_range (Z.of_nat n)))) =
    join (sp ++ sep ++ sp) (map (fun k => join sp (blk k)) (py_range (Z.of_nat n))) ++ (if Z.of_nat n <? a then sp ++ sep else [])).
  { induction n as [|n IH]; intros H P; [lia|]. replace (Z.of_nat (S n)) with (Z.of_nat n + 1) in * by lia.
    replace ((Z.of_nat n + 1) * b <? a * b) with (Z.of_nat n + 1 <? a).
    2: { destruct (Z.of_nat n + 1 <? a) eqn:L; symmetry; [apply Z.ltb_lt in L; apply Z.ltb_lt|apply Z.ltb_ge in L; apply Z.ltb_ge]; nia. }
    rewrite py_range_app by lia. rewrite !map_app, concat_app. cbn [map concat]. rewrite app_nil_r.
    assert (L : join sp (blk (Z.of_nat n) ++ (if (Z.of_nat n + 1) * b <? a * b then [sep] else [])) =
                join sp (blk (Z.of_nat n)) ++ (if Z.of_nat n + 1 <? a then sp ++ sep else [])).
    { replace ((Z.of_nat n + 1) * b <? a * b) with (Z.of_nat n + 1 <? a).
      2: { destruct (Z.of_nat n + 1 <? a) eqn:L; symmetry; [apply Z.ltb_lt in L; apply Z.ltb_lt|apply Z.ltb_ge in L; apply Z.ltb_ge]; nia. }
      destruct (Z.of_nat n + 1 <? a); cbn iota; [|rewrite !app_nil_r; reflexivity]. rewrite join_app; [reflexivity|apply blk_nonempty|discriminate]. }
    destruct n as [|n].
    - cbn [Z.of_nat py_range seq Z.to_nat map concat app]. cbn [join]. exact L.
    - set (n' := S n) in *.
      replace ((Z.of_nat n' + 1) * b <? a * b) with (Z.of_nat n' + 1 <? a) in L
        by (destruct (Z.of_nat n' + 1 <? a) eqn:L'; symmetry; [apply Z.ltb_lt in L'; apply Z.ltb_lt|apply Z.ltb_ge in L'; apply Z.ltb_ge]; nia).
      rewrite join_app.
      + rewrite IH by (unfold n'; lia). replace ((Z.of_nat n' + 1) * b <? a * b) with (Z.of_nat n' + 1 <? a)
          by (destruct (Z.of_nat n' + 1 <? a) eqn:L'; symmetry; [apply Z.ltb_lt in L'; apply Z.ltb_lt|apply Z.ltb_ge in L'; apply Z.ltb_ge]; nia).
        rewrite L. replace (Z.of_nat n' <? a) with true by (symmetry; apply Z.ltb_lt; lia).
        rewrite (join_app (sp ++ sep ++ sp)); [|intros E; apply map_eq_nil in E; assert (I : In 0 (py_range (Z.of_nat n'))) by (apply in_py_range; unfold n'; lia); rewrite E in I; auto|discriminate].
        cbn [join]. rewrite <- !app_assoc. reflexivity.
      + intros E. assert (I : In 0 (py_range (Z.of_nat n'))) by (apply in_py_range; unfold n'; lia).
        apply in_split in I. destruct I as [l1 [l2 I]]. rewrite I, map_app, concat_app in E. apply app_eq_nil in E. destruct E as [_ E]. cbn [map concat] in E.
        apply app_eq_nil in E. destruct E as [E _]. apply app_eq_nil in E. destruct E as [E _]. exact (blk_nonempty _ E).
      + intros E. apply app_eq_nil in E. destruct E as [E _]. exact (blk_nonempty _ E). }
  specialize (G (Z.to_nat a)). rewrite Z2Nat.id in G by lia. rewrite G by lia. rewrite Z.ltb_irrefl, app_nil_r. reflexivity.
Qed.
End nested.

(** The rule of the model *)
Lemma rule_same : forall w h m, 1 <= w -> 1 <= h -> 0 <= m -> rule_body w h m = rule_text w h m.
Proof.
  intros w h m Hw Hh Hm. unfold rule_body, rule_text, dashes. change (lit "+") with [43]. change (lit "-+-") with [45; 43; 45].
  replace (w + w * m) with (w * (m + 1)) by ring. unfold str_mul.
  set (d := w * (m + 1)). assert (1 <= d) by (unfold d; nia).
  destruct (Z.eqb_spec h 1) as [->|D]; [reflexivity|].
  assert (R : forall n, repeat 45 n ++ [45] = repeat 45 (S n)) by (intros n; rewrite <- repeat_cons; reflexivity).
  assert (G : forall n, join [45; 43; 45] (repeat (repeat 45 (Z.to_nat (d - 1))) (S n)) ++ [45] =
     concat (map (fun _ => repeat 45 (Z.to_nat (d - 1)) ++ [45; 43; 45]) (py_range (Z.of_nat n))) ++ repeat 45 (Z.to_nat d)).
  { induction n as [|n IH].
    - cbn [repeat join py_range Z.of_nat Z.to_nat seq map concat app]. rewrite R. f_equal. lia.
    - cbn [repeat] in IH |- *. rewrite join_cons, <- !app_assoc. unfold pystr in *. rewrite IH.
      replace (Z.of_nat (S n)) with (1 + Z.of_nat n) by lia. rewrite range_plus by lia. change (py_range 1) with [0]. rewrite map_app, concat_app, map_map. cbn [map concat].
      rewrite app_nil_r, <- !app_assoc. reflexivity. }
  assert (X : forall n, repeat 45 (Z.to_nat d) ++ [43] ++ concat (map (fun _ => repeat 45 (Z.to_nat (d + 1)) ++ [43]) (py_range (Z.of_nat n))) ++ [45] =
     concat (map (fun _ => repeat 45 (Z.to_nat (d - 1)) ++ [45; 43; 45]) (py_range (Z.of_nat n + 1)))).
  { assert (E1 : repeat 45 (Z.to_nat d) = repeat 45 (Z.to_nat (d - 1)) ++ [45]) by (rewrite R; f_equal; lia).
    assert (E2 : repeat 45 (Z.to_nat (d + 1)) = 45 :: repeat 45 (Z.to_nat d)).
    { replace (Z.to_nat (d + 1)) with (S (Z.to_nat d)) by lia. reflexivity. }
    induction n as [|n IH].
    - change (py_range (Z.of_nat 0 + 1)) with [0]. change (py_range (Z.of_nat 0)) with (@nil Z). cbn [map concat]. rewrite E1, app_nil_r, <- !app_assoc. reflexivity.
    - replace (Z.of_nat (S n)) with (Z.of_nat n + 1) by lia. rewrite (py_range_app (Z.of_nat n + 1)) by lia.
      rewrite map_app, concat_app, <- IH. rewrite py_range_app by lia. rewrite map_app, concat_app. cbn [map concat].
      rewrite E2, E1. rewrite !app_nil_r. rewrite <- !app_assoc. cbn [app]. rewrite <- !app_assoc. reflexivity. }
  apply (f_equal (fun l => l)). apply (app_inv_tail [45]). replace (Z.to_nat h) with (S (Z.to_nat (h - 1))) by lia. rewrite G.
  specialize (X (Z.to_nat (h - 2))). rewrite !Z2Nat.id in X by lia. rewrite Z2Nat.id by lia. replace (h - 1) with (h - 2 + 1) by lia. rewrite <- X.
  rewrite <- !app_assoc. do 3 f_equal. rewrite R. change [45] with (repeat 45 1). rewrite <- repeat_app. reflexivity.
Qed.

Section view.
Variables (s : sudoku) (inc : bool) (prefix : pystr) (right : bool).
Hypothesis W : wf s.
Let w := box_width s.
Let h := box_height s.

Lemma width_ok : exists M m, MCodec.list_max (map (fun n => py_len (str_of_int n)) (numbers s)) = Ok M /\ (1 <? M) = (10 <=? NN s) /\
  1 <= m /\ field_width s inc prefix m /\
  (if inc then
      foldM (fun m rc =>
               let* c := get_candidates s (fst rc) (snd rc) in
               let length := py_len (join (if 10 <=? NN s then lit "," else []) (map str_of_int c)) + py_len prefix in
               Ok (if m <? length then length else m))
            (coords s) M
    else Ok M) = Ok m.
Proof.
  pose proof (NN_pos s W) as Np.
  destruct (list_max_ok (map (fun n => py_len (str_of_int n)) (numbers s))) as [M [M1 [M2 M3]]].
  { intros E. apply map_eq_nil in E. assert (I : In 1 (numbers s)) by (apply in_py_range2; lia). rewrite E in I; auto. }
  assert (B : forall n, 1 <= n <= NN s -> py_len (str_of_int n) <= M).
  { intros n Hn. apply M3. apply in_map_iff. exists n. split; auto. apply in_py_range2. lia. }
  assert (P : 1 <= M) by (specialize (B 1 ltac:(lia)); change (py_len (str_of_int 1)) with 1 in B; lia).
  apply in_map_iff in M2. destruct M2 as [n [N1 N2]]. apply in_py_range2 in N2.
  assert (S10 : (1 <? M) = (10 <=? NN s)).
  { destruct (10 <=? NN s) eqn:E; b2p.
    + apply Z.ltb_lt. specialize (B (NN s) ltac:(lia)). assert (1 < py_len (str_of_int (NN s))) by (apply len_str_one; lia). lia.
    + apply Z.ltb_ge. destruct (Z_lt_le_dec 1 M); auto. rewrite <- N1 in l. apply len_str_one in l; lia. }
  assert (T : forall p, Z.of_nat (length (candidate_text s prefix p)) = py_len (join (if 10 <=? NN s then lit "," else []) (map str_of_int (cand s p))) + py_len prefix).
  { intros p. unfold candidate_text. rewrite app_length. unfold py_len. lia. }
  assert (Bn : exists n, 1 <= n <= NN s /\ M = Z.of_nat (length (str_of_int n))) by (exists n; split; [lia|symmetry; exact N1]).
  clear n N1 N2 M3. unfold field_width. destruct inc.
  2:{ exists M, M. split; auto. split; auto. split; auto. split; [|reflexivity]. split; [left; exact Bn|]. split; [exact B|discriminate]. }
  assert (G : forall l, (forall p, In p l -> field s p) -> forall M0, exists m, M0 <= m /\
     (forall p, In p l -> Z.of_nat (length (candidate_text s prefix p)) <= m) /\
     (m = M0 \/ exists p, In p l /\ m = Z.of_nat (length (candidate_text s prefix p))) /\
     foldM (fun m rc =>
               let* c := get_candidates s (fst rc) (snd rc) in
               let length := py_len (join (if 10 <=? NN s then lit "," else []) (map str_of_int c)) + py_len prefix in
               Ok (if m <? length then length else m)) l M0 = Ok m).
  { induction l as [|[r c] l IH]; intros F M0.
    - exists M0. split; [lia|]. split; [intros p []|]. split; auto.
    - cbn [foldM]. cbn [fst snd]. rewrite get_candidates_ok by (auto; apply F; left; auto). cbn [rbind].
      rewrite <- T. set (n := Z.of_nat (length (candidate_text s prefix (r, c)))).
      destruct (IH ltac:(intros; apply F; right; auto) (if M0 <? n then n else M0)) as [m [I1 [I2 [I3 I4]]]].
      exists m. split; [|split; [|split; [|exact I4]]].
      + destruct (M0 <? n) eqn:E; b2p; lia.
      + intros p [<-|Hi]; auto. fold n. destruct (M0 <? n) eqn:E; b2p; lia.
      + destruct I3 as [I3|[p [I3 I5]]].
        * destruct (M0 <? n); auto. right. exists (r, c). split; [left; auto|exact I3].
        * right. exists p. split; [right; auto|exact I5]. }
  destruct (G (coords s) (fun p => proj1 (in_coords s p)) M) as [m [I1 [I2 [I3 I4]]]].
  exists M, m. split; auto. split; auto. split; [lia|]. split; [|exact I4]. split.
  - destruct I3 as [->|[p [I3 I5]]]; [left; exact Bn|]. right. split; auto. exists p. split; auto. apply in_coords; auto.
  - split.
    + intros n Hn. specialize (B n Hn). unfold py_len in B. lia.
    + intros _ p Hp. apply I2, in_coords; auto.
Qed.

Lemma view_exact : forall number_sep, exists m, field_width s inc prefix m /\
  view s inc number_sep prefix right = Ok (sudoku_text s inc prefix right m).
Proof.
  intros number_sep. destruct width_ok as [M [m [M1 [M4 [Hm [F F3]]]]]]. exists m. split; auto.
  pose proof (wf_w _ W) as Hw. pose proof (wf_h _ W) as Hh.
  set (ln := fun r => line w h (fun c => just right m (shown s inc prefix (r, c)))).
  assert (Rule : view_rule s m = rule_text w h m ++ [10]).
  { rewrite <- rule_same by (auto; unfold w, h; lia). unfold view_rule, rule_body, dashes. change (lit "+") with [43]. fold w h. rewrite <- !app_assoc. reflexivity. }
  unfold view. rewrite M1. cbn [rbind]. rewrite M4. refine (eq_trans (rbind_ok_l _ _ _ F3) _).
  refine (eq_trans (view_text s inc prefix right W m ln (rule_text w h m) _ Rule) _); [intros r Hr; apply view_row_ok; auto|].
  apply f_equal. unfold sudoku_text. fold w h.
  refine (eq_trans _ (nested_join [10] (rule_text w h m) (row_text s inc prefix right m) h Hh w Hw)).
  unfold indices. change (box_width s * box_height s) with (w * h). apply f_equal. apply f_equal. apply map_ext_in. intros r Hr.
  unfold block, piece. change (NN s) with (w * h). fold h.
  assert (L : ln r = row_text s inc prefix right m r).
  { unfold ln, line, row_text. fold w h. change (lit " | ") with ([32] ++ [124] ++ [32]). change (lit " ") with [32].
    refine (eq_trans _ (nested_join [32] [124] (fun c => padded right m (shown s inc prefix (r, c))) w Hw h Hh)).
    unfold pieces, piece. replace (h * w) with (w * h) by ring. apply f_equal. apply f_equal. apply map_ext. intros c. rewrite just_padded. reflexivity. }
  rewrite L. reflexivity.
Qed.
End view.
