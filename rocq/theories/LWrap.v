(** Lemmas about coordinates that count from the end. *)
From Verif Require Import SpecWrap LSolve MAnalyze.

Lemma py_idx_mod : forall n i, - Z.of_nat n <= i < Z.of_nat n -> py_idx n i = py_idx n (i mod Z.of_nat n).
Proof.
  intros n i H. destruct (Z_lt_dec i 0) as [L|L].
  - replace (i mod Z.of_nat n) with (i + Z.of_nat n).
    2:{ apply Z.mod_unique with (-1); lia. }
    rewrite (py_idx_ok n (i + Z.of_nat n)) by lia. unfold py_idx.
    replace (0 <=? i) with false by (symmetry; apply Z.leb_gt; lia). cbn [andb].
    replace (- Z.of_nat n <=? i) with true by (symmetry; apply Z.leb_le; lia).
    replace (i <? 0) with true by (symmetry; apply Z.ltb_lt; lia). reflexivity.
  - rewrite Z.mod_small by lia. reflexivity.
Qed.

Lemma list_get_mod : forall {A} (l : list A) i n, py_len l = n -> - n <= i < n -> list_get l i = list_get l (i mod n).
Proof. intros A l i n <- H. unfold list_get. rewrite (py_idx_mod (length l) i) by (unfold py_len in H; lia). reflexivity. Qed.
Lemma list_set_mod : forall {A} (l : list A) i v n, py_len l = n -> - n <= i < n -> list_set l i v = list_set l (i mod n) v.
Proof. intros A l i v n <- H. unfold list_set. rewrite (py_idx_mod (length l) i) by (unfold py_len in H; lia). reflexivity. Qed.

Section S.
Variable s : sudoku.
Hypothesis W : wf s.

Lemma spot_mod : forall i, valid_index s i -> 0 <= i mod NN s < NN s.
Proof. intros i _. apply Z.mod_pos_bound. pose proof (NN_pos s W). lia. Qed.

Lemma spot_field : forall p, valid_pair s p -> field s (spot s p).
Proof. intros p [H1 H2]. split; simpl; apply spot_mod; auto. Qed.

Lemma spot_id : forall p, field s p -> spot s p = p.
Proof. intros [r c] [H1 H2]; simpl in *. unfold spot; simpl. rewrite !Z.mod_small by lia. reflexivity. Qed.

Lemma field_valid : forall p, field s p -> valid_pair s p.
Proof. intros [r c] [H1 H2]; simpl in *. unfold valid_pair, valid_index; simpl. lia. Qed.

Lemma mod_val : forall i, valid_index s i -> i mod NN s = if i <? 0 then i + NN s else i.
Proof.
  intros i H. unfold valid_index in H. destruct (i <? 0) eqn:E; b2p.
  - symmetry. apply Z.mod_unique with (-1); lia.
  - apply Z.mod_small. lia.
Qed.

Lemma row_get : forall {A} (m : list (list A)) r c,
  length m = Z.to_nat (NN s) -> (forall x, In x m -> length x = Z.to_nat (NN s)) ->
  valid_index s r -> valid_index s c ->
  exists x, list_get m r = Ok x /\ list_get m (r mod NN s) = Ok x /\ py_len x = NN s.
Proof.
  intros A m r c L1 L2 Hr Hc. pose proof (NN_pos s W) as NP. unfold valid_index in Hr.
  rewrite (list_get_mod m r (NN s)) by (unfold py_len; lia).
  assert (B : 0 <= r mod NN s < NN s) by (apply Z.mod_pos_bound; lia).
  rewrite (list_get_ok m _ []) by (unfold py_len; lia).
  eexists; split; [reflexivity|]; split; [reflexivity|].
  unfold py_len. rewrite L2; [lia|]. apply nth_In. lia.
Qed.

Lemma getitem_mod : forall r c, valid_index s r -> valid_index s c ->
  getitem s r c = getitem s (r mod NN s) (c mod NN s).
Proof.
  intros r c Hr Hc. unfold getitem.
  destruct (row_get (s_numbers s) r c (wf_nrows _ W) (wf_nrow _ W) Hr Hc) as [x [E1 [E2 E3]]].
  rewrite E1, E2. cbn [rbind]. apply list_get_mod; auto.
Qed.

Lemma get_candidates_mod : forall r c, valid_index s r -> valid_index s c ->
  get_candidates s r c = get_candidates s (r mod NN s) (c mod NN s).
Proof.
  intros r c Hr Hc. unfold get_candidates.
  destruct (row_get (s_candidates s) r c (wf_crows _ W) (wf_crow _ W) Hr Hc) as [x [E1 [E2 E3]]].
  rewrite E1, E2. cbn [rbind]. apply list_get_mod; auto.
Qed.

Lemma setitem_mod : forall r c v, valid_index s r -> valid_index s c ->
  setitem s r c v = setitem s (r mod NN s) (c mod NN s) v.
Proof.
  intros r c v Hr Hc. unfold setitem.
  destruct (row_get (s_numbers s) r c (wf_nrows _ W) (wf_nrow _ W) Hr Hc) as [x [E1 [E2 E3]]].
  rewrite E1, E2. cbn [rbind]. rewrite (list_set_mod x c v (NN s)) by auto.
  destruct (list_set x (c mod NN s) v) as [x'|]; auto. cbn [rbind].
  rewrite (list_set_mod (s_numbers s) r x' (NN s)); auto.
  unfold py_len. rewrite (wf_nrows _ W). pose proof (NN_pos s W). lia.
Qed.

Lemma set_candidates_mod : forall r c v, valid_index s r -> valid_index s c ->
  set_candidates s r c v = set_candidates s (r mod NN s) (c mod NN s) v.
Proof.
  intros r c v Hr Hc. unfold set_candidates.
  destruct (row_get (s_candidates s) r c (wf_crows _ W) (wf_crow _ W) Hr Hc) as [x [E1 [E2 E3]]].
  rewrite E1, E2. cbn [rbind]. rewrite (list_set_mod x c _ (NN s)) by auto.
  destruct (list_set x (c mod NN s) _) as [x'|]; auto. cbn [rbind].
  rewrite (list_set_mod (s_candidates s) r x' (NN s)); auto.
  unfold py_len. rewrite (wf_crows _ W). pose proof (NN_pos s W). lia.
Qed.

Lemma remove_candidates_mod : forall r c v, valid_index s r -> valid_index s c ->
  remove_candidates s r c v = remove_candidates s (r mod NN s) (c mod NN s) v.
Proof.
  intros r c v Hr Hc. unfold remove_candidates.
  destruct (row_get (s_candidates s) r c (wf_crows _ W) (wf_crow _ W) Hr Hc) as [x [E1 [E2 E3]]].
  rewrite E1, E2. cbn [rbind]. rewrite (list_get_mod x c (NN s)) by auto.
  destruct (list_get x (c mod NN s)) as [old|]; auto. cbn [rbind].
  rewrite (list_set_mod x c _ (NN s)) by auto.
  destruct (list_set x (c mod NN s) _) as [x'|]; auto. cbn [rbind].
  rewrite (list_set_mod (s_candidates s) r x' (NN s)); auto.
  unfold py_len. rewrite (wf_crows _ W). pose proof (NN_pos s W). lia.
Qed.

Lemma getitem_spot : forall p, valid_pair s p -> getitem s (fst p) (snd p) = Ok (num s (spot s p)).
Proof.
  intros p [H1 H2]. rewrite getitem_mod by auto.
  change (getitem s (fst (spot s p)) (snd (spot s p)) = Ok (num s (spot s p))).
  destruct (spot s p) as [r c] eqn:E. apply getitem_ok; auto. rewrite <- E. apply spot_field; split; auto.
Qed.

(** * Units *)
Lemma mod_h : forall r, valid_index s r -> (r mod NN s) mod box_height s = r mod box_height s.
Proof.
  intros r H. rewrite mod_val by auto. destruct (r <? 0); auto.
  apply Z_mod_plus_full.
Qed.
Lemma mod_w : forall r, valid_index s r -> (r mod NN s) mod box_width s = r mod box_width s.
Proof.
  intros r H. rewrite mod_val by auto. destruct (r <? 0); auto.
  rewrite (Z.mul_comm (box_width s)). apply Z_mod_plus_full.
Qed.

Lemma block : forall r d e i, NN s = e * d -> 1 <= d -> valid_index s r -> 0 <= i < d ->
  - NN s <= r - r mod d + i < NN s /\
  (r - r mod d + i) mod NN s = r mod NN s - (r mod NN s) mod d + i.
Proof.
  intros r d e i E D H Hi. pose proof (NN_pos s W) as NP.
  unfold valid_index in H.
  pose proof (Z.mod_pos_bound r d ltac:(lia)) as B. pose proof (Z_div_mod_eq_full r d) as Q.
  assert (Q1 : - e <= r / d < e).
  { split; [apply Z.div_le_lower_bound; lia|apply Z.div_lt_upper_bound; lia]. }
  assert (U1 : d * (r / d) <= d * (e - 1)) by (apply Z.mul_le_mono_nonneg_l; lia).
  assert (U2 : d * (- e) <= d * (r / d)) by (apply Z.mul_le_mono_nonneg_l; lia).
  assert (R : - NN s <= r - r mod d + i < NN s) by lia.
  assert (U3 : r < 0 -> d * (r / d) <= d * (- 1)).
  { intros. apply Z.mul_le_mono_nonneg_l; [lia|]. assert (r / d < 0) by (apply Z.div_lt_upper_bound; lia). lia. }
  assert (U4 : 0 <= r -> d * 0 <= d * (r / d)).
  { intros. apply Z.mul_le_mono_nonneg_l; [lia|]. apply Z.div_pos; lia. }
  split; auto.
  assert (M : (r mod NN s) mod d = r mod d).
  { rewrite (mod_val r) by exact H. destruct (r <? 0); auto. rewrite E. apply Z_mod_plus_full. }
  rewrite M. rewrite (mod_val r) by exact H. destruct (r <? 0) eqn:N; b2p.
  - symmetry. apply Z.mod_unique with (-1); [|lia]. left. lia.
  - apply Z.mod_small. lia.
Qed.

Lemma block_r : forall r i, valid_index s r -> 0 <= i < box_height s ->
  valid_index s (r - r mod box_height s + i) /\
  (r - r mod box_height s + i) mod NN s = r mod NN s - (r mod NN s) mod box_height s + i.
Proof. intros r i H Hi. apply block with (box_width s); auto. apply (wf_h _ W). Qed.
Lemma block_c : forall r i, valid_index s r -> 0 <= i < box_width s ->
  valid_index s (r - r mod box_width s + i) /\
  (r - r mod box_width s + i) mod NN s = r mod NN s - (r mod NN s) mod box_width s + i.
Proof. intros r i H Hi. apply block with (box_height s); auto. lia. apply (wf_w _ W). Qed.

Lemma spots_row : forall r c b, valid_index s r -> valid_index s c ->
  spots s (row_of s r c b) = row_of s (r mod NN s) (c mod NN s) (b || (c <? 0)).
Proof.
  intros r c b Hr Hc. unfold spots, row_of. rewrite map_map.
  assert (F : filter (fun j => b || negb (j =? c)) (indices s) =
              filter (fun j => (b || (c <? 0)) || negb (j =? c mod NN s)) (indices s)).
  { apply filter_ext_in'. intros j Hj. unfold indices in Hj; apply in_py_range in Hj.
    rewrite (mod_val c) by auto. destruct b; auto. cbn [orb]. destruct (c <? 0) eqn:E; cbn [orb]; auto.
    b2p. replace (j =? c) with false; auto. symmetry. apply Z.eqb_neq. lia. }
  rewrite F. apply map_ext_in. intros j Hj. apply filter_In in Hj. destruct Hj as [Hj _].
  unfold indices in Hj; apply in_py_range in Hj. unfold spot; simpl. rewrite (Z.mod_small j) by lia. reflexivity.
Qed.

Lemma spots_column : forall r c b, valid_index s r -> valid_index s c ->
  spots s (column_of s r c b) = column_of s (r mod NN s) (c mod NN s) (b || (r <? 0)).
Proof.
  intros r c b Hr Hc. unfold spots, column_of. rewrite map_map.
  assert (F : filter (fun j => b || negb (j =? r)) (indices s) =
              filter (fun j => (b || (r <? 0)) || negb (j =? r mod NN s)) (indices s)).
  { apply filter_ext_in'. intros j Hj. unfold indices in Hj; apply in_py_range in Hj.
    rewrite (mod_val r) by auto. destruct b; auto. cbn [orb]. destruct (r <? 0) eqn:E; cbn [orb]; auto.
    b2p. replace (j =? r) with false; auto. symmetry. apply Z.eqb_neq. lia. }
  rewrite F. apply map_ext_in. intros j Hj. apply filter_In in Hj. destruct Hj as [Hj _].
  unfold indices in Hj; apply in_py_range in Hj. unfold spot; simpl. rewrite (Z.mod_small j) by lia. reflexivity.
Qed.

Lemma in_grid : forall i j, In (i, j) (list_prod (py_range (box_height s)) (py_range (box_width s))) ->
  0 <= i < box_height s /\ 0 <= j < box_width s.
Proof. intros i j H. apply in_prod_iff in H. rewrite !in_py_range in H. auto. Qed.

Lemma spots_quad : forall r c, valid_index s r -> valid_index s c ->
  spots s (quad_without_row_and_column_of s r c) = quad_without_row_and_column_of s (r mod NN s) (c mod NN s).
Proof.
  intros r c Hr Hc. unfold spots, quad_without_row_and_column_of. rewrite map_map.
  match goal with |- map _ (filter ?f ?l) = map _ (filter ?g ?l) => assert (F : filter f l = filter g l) end.
  { apply filter_ext_in'. intros [i j] H. apply in_grid in H. cbn [fst snd].
    rewrite mod_h, mod_w by auto.
    f_equal; f_equal; apply eq_true_iff_eq; rewrite !Z.eqb_eq; lia. }
  rewrite F. apply map_ext_in. intros [i j] H. apply filter_In in H. destruct H as [H _]. apply in_grid in H.
  unfold spot; cbn [fst snd]. destruct H as [Hi Hj].
  rewrite (proj2 (block_r r i Hr Hi)), (proj2 (block_c c j Hc Hj)). reflexivity.
Qed.

Lemma spots_box_true : forall r c, valid_index s r -> valid_index s c ->
  exists l, box_of s r c true = Ok l /\ box_of s (r mod NN s) (c mod NN s) true = Ok (spots s l) /\
    (forall q, In q l -> valid_pair s q) /\ (forall q, In q l -> spot s q = spot s (r, c) -> q = (r, c)) /\ In (r, c) l.
Proof.
  intros r c Hr Hc. unfold box_of; cbn [negb]. eexists; split; [reflexivity|]. split.
  - unfold spots. rewrite map_map. symmetry. apply (f_equal Ok). apply map_ext_in. intros [i j] H. apply in_grid in H.
    unfold spot; cbn [fst snd]. destruct H as [Hi Hj].
    rewrite (proj2 (block_r r i Hr Hi)), (proj2 (block_c c j Hc Hj)). reflexivity.
  - pose proof (wf_h _ W) as WH. pose proof (wf_w _ W) as WW.
    pose proof (Z.mod_pos_bound r (box_height s) ltac:(lia)). pose proof (Z.mod_pos_bound c (box_width s) ltac:(lia)).
    split; [|split].
    + intros q H'. apply in_map_iff in H'. destruct H' as [[i j] [<- H']]. apply in_grid in H'. destruct H' as [Hi Hj].
      split; cbn [fst snd]; [apply (block_r r i Hr Hi)|apply (block_c c j Hc Hj)].
    + intros q H' E. apply in_map_iff in H'. destruct H' as [[i j] [<- H']]. apply in_grid in H'. destruct H' as [Hi Hj].
      unfold spot in E. cbn [fst snd] in *. injection E as E1 E2.
      rewrite (proj2 (block_r r i Hr Hi)) in E1. rewrite (proj2 (block_c c j Hc Hj)) in E2.
      rewrite mod_h in E1 by auto. rewrite mod_w in E2 by auto. f_equal; lia.
    + apply in_map_iff. exists (r mod box_height s, c mod box_width s). cbn [fst snd]. split; [f_equal; lia|].
      apply in_prod_iff. rewrite !in_py_range. lia.
Qed.

Lemma list_remove_map : forall (f : coord -> coord) x l, (forall q, In q l -> f q = f x -> q = x) ->
  list_remove coord_eqb (f x) (map f l) = (let* t := list_remove coord_eqb x l in Ok (map f t)).
Proof.
  intros f x l; induction l as [|y l IH]; intros H; simpl; auto.
  destruct (coord_eqb x y) eqn:E.
  - apply (proj1 (coord_eqb_eq _ _)) in E. subst y. rewrite coord_eqb_refl. reflexivity.
  - destruct (coord_eqb (f x) (f y)) eqn:E'.
    + apply (proj1 (coord_eqb_eq _ _)) in E'. symmetry in E'. apply H in E'; [|left; auto]. subst.
      rewrite coord_eqb_refl in E. discriminate.
    + rewrite IH by (intros; apply H; [right|]; auto). destruct (list_remove coord_eqb x l); reflexivity.
Qed.

Lemma spots_box_false : forall r c, valid_index s r -> valid_index s c ->
  exists l, box_of s r c false = Ok l /\ box_of s (r mod NN s) (c mod NN s) false = Ok (spots s l).
Proof.
  intros r c Hr Hc. destruct (spots_box_true r c Hr Hc) as [l [E1 [E2 [_ [E3 E4]]]]].
  unfold box_of in *. cbn [negb] in *. injection E1 as E1. injection E2 as E2. rewrite E1, E2.
  change (r mod NN s, c mod NN s) with (spot s (r, c)). unfold spots. rewrite list_remove_map by auto.
  destruct (list_remove_perm (r, c) l E4) as [t [Et _]]. rewrite Et. cbn [rbind]. eauto.
Qed.

(** * The surrounding *)
Lemma valid_indices : forall j, In j (indices s) -> valid_index s j.
Proof. intros j H. unfold indices in H; apply in_py_range in H. unfold valid_index. lia. Qed.

Lemma sur_valid : forall r c b q, valid_index s r -> valid_index s c ->
  In q (row_of s r c b ++ column_of s r c b ++ quad_without_row_and_column_of s r c) -> valid_pair s q.
Proof.
  intros r c b q Hr Hc H. rewrite !in_app_iff in H. destruct H as [H|[H|H]].
  - apply in_map_iff in H. destruct H as [j [<- H]]. apply filter_In in H. destruct H as [H _].
    split; cbn [fst snd]; auto. apply valid_indices; auto.
  - apply in_map_iff in H. destruct H as [j [<- H]]. apply filter_In in H. destruct H as [H _].
    split; cbn [fst snd]; auto. apply valid_indices; auto.
  - apply in_map_iff in H. destruct H as [[i j] [<- H]]. apply filter_In in H. destruct H as [H _].
    apply in_grid in H. destruct H as [Hi Hj]. split; cbn [fst snd]; [apply (block_r r i Hr Hi)|apply (block_c c j Hc Hj)].
Qed.

Lemma row_of_true : forall p q, field s p ->
  (In q (row_of s (fst p) (snd p) true) <-> In q (row_of s (fst p) (snd p) false) \/ q = p).
Proof.
  intros [r c] [x y] [Fr Fc]; cbn [fst snd] in *. unfold row_of. rewrite !in_map_iff. split.
  - intros [j [E H]]. apply filter_In in H. destruct H as [H _]. destruct (Z.eq_dec j c) as [->|N]; [right; congruence|].
    left. exists j. split; auto. apply filter_In. split; auto. cbn [orb]. apply negb_true_iff, Z.eqb_neq; auto.
  - intros [[j [E H]]|E].
    + exists j. apply filter_In in H. split; auto. apply filter_In; tauto.
    + exists c. split; auto. apply filter_In. split; auto. unfold indices. apply in_py_range. lia.
Qed.
Lemma column_of_true : forall p q, field s p ->
  (In q (column_of s (fst p) (snd p) true) <-> In q (column_of s (fst p) (snd p) false) \/ q = p).
Proof.
  intros [r c] [x y] [Fr Fc]; cbn [fst snd] in *. unfold column_of. rewrite !in_map_iff. split.
  - intros [j [E H]]. apply filter_In in H. destruct H as [H _]. destruct (Z.eq_dec j r) as [->|N]; [right; congruence|].
    left. exists j. split; auto. apply filter_In. split; auto. cbn [orb]. apply negb_true_iff, Z.eqb_neq; auto.
  - intros [[j [E H]]|E].
    + exists j. apply filter_In in H. split; auto. apply filter_In; tauto.
    + exists r. split; auto. apply filter_In. split; auto. unfold indices. apply in_py_range. lia.
Qed.

Definition around (p : coord) : list coord :=
  row_of s (fst p) (snd p) false ++ column_of s (fst p) (snd p) false ++ quad_without_row_and_column_of s (fst p) (snd p).

Lemma around_sur : forall p q, field s p -> (In q (around p) <-> field s q /\ peers (box_width s) (box_height s) p q).
Proof. intros p q F. rewrite <- in_sur by auto. reflexivity. Qed.

Lemma in_around : forall p q, valid_pair s p ->
  (In q (spots s (around p)) <->
   field s q /\ (peers (box_width s) (box_height s) (spot s p) q \/ (q = spot s p /\ from_end p))).
Proof.
  intros [r c] q V. pose proof (spot_field _ V) as F. destruct V as [Hr Hc]; cbn [fst snd] in *.
  unfold around, spots. rewrite !map_app. cbn [fst snd].
  change (map (spot s)) with (spots s). rewrite spots_row, spots_column, spots_quad by auto. cbn [orb].
  pose proof (around_sur (spot s (r, c)) q F) as A. unfold around in A. cbn [spot fst snd] in A.
  rewrite !in_app_iff in *. pose proof (row_of_true _ q F) as R. pose proof (column_of_true _ q F) as C.
  cbn [spot fst snd] in R, C. unfold from_end; cbn [fst snd].
  assert (Q : q = (r mod NN s, c mod NN s) -> field s q) by (intros ->; exact F).
  change (spot s (r, c)) with (r mod NN s, c mod NN s) in *.
  destruct (r <? 0) eqn:E1; destruct (c <? 0) eqn:E2; b2p; try rewrite R; try rewrite C; split; intros; 
    assert (r < 0 \/ 0 <= r) by lia; assert (c < 0 \/ 0 <= c) by lia; intuition (try lia).
Qed.

Lemma surrounding_false_any : forall r c, surrounding_of s r c false = Ok (around (r, c)).
Proof. reflexivity. Qed.

Lemma in_around_true : forall p q, valid_pair s p ->
  (In q (spots s (row_of s (fst p) (snd p) true ++ column_of s (fst p) (snd p) true ++
                  quad_without_row_and_column_of s (fst p) (snd p))) <->
   field s q /\ (q = spot s p \/ peers (box_width s) (box_height s) (spot s p) q)).
Proof.
  intros [r c] q V. pose proof (spot_field _ V) as F. destruct V as [Hr Hc]; cbn [fst snd] in *.
  unfold spots. rewrite !map_app. change (map (spot s)) with (spots s).
  rewrite spots_row, spots_column, spots_quad by auto. cbn [orb].
  pose proof (around_sur (spot s (r, c)) q F) as A. unfold around in A. cbn [spot fst snd] in A.
  rewrite !in_app_iff in *. pose proof (row_of_true _ q F) as R. pose proof (column_of_true _ q F) as C.
  cbn [spot fst snd] in R, C. change (spot s (r, c)) with (r mod NN s, c mod NN s) in *.
  assert (Q : q = (r mod NN s, c mod NN s) -> field s q) by (intros ->; exact F). tauto.
Qed.

Lemma surrounding_both : forall r c, r < 0 -> c < 0 -> surrounding_of s r c true = Err ValueError.
Proof.
  intros r c Hr Hc. unfold surrounding_of. apply list_remove_not_in. intros H. rewrite !in_app_iff in H.
  destruct H as [H|[H|H]]; apply in_map_iff in H.
  - destruct H as [j [E H]]. apply filter_In in H. destruct H as [H _]. unfold indices in H. apply in_py_range in H.
    injection E as E. lia.
  - destruct H as [j [E H]]. apply filter_In in H. destruct H as [H _]. unfold indices in H. apply in_py_range in H.
    injection E as E. lia.
  - destruct H as [[i j] [E H]]. apply filter_In in H. destruct H as [_ H]. cbn [fst snd] in *. injection E as E1 E2.
    rewrite E1, Z.eqb_refl in H. discriminate.
Qed.

Lemma surrounding_one : forall r c, valid_pair s (r, c) -> (r < 0 /\ 0 <= c) \/ (0 <= r /\ c < 0) ->
  exists l, surrounding_of s r c true = Ok l /\ (forall q, In q l -> valid_pair s q) /\
    forall q, In q (spots s l) <-> field s q /\ (q = spot s (r, c) \/ peers (box_width s) (box_height s) (spot s (r, c)) q).
Proof.
  intros r c V D. pose proof (in_around_true (r, c)) as A. cbn [fst snd] in A.
  pose proof (spot_field _ V) as F. pose proof V as [Hr Hc]; cbn [fst snd] in *.
  unfold surrounding_of.
  set (L := row_of s r c true ++ column_of s r c true ++ quad_without_row_and_column_of s r c) in *.
  assert (IR : forall j, 0 <= j < NN s -> In (r, j) L).
  { intros j Hj. unfold L. rewrite !in_app_iff. left. apply in_map_iff. exists j. split; auto.
    apply filter_In. split; auto. unfold indices. apply in_py_range. auto. }
  assert (IC : forall j, 0 <= j < NN s -> In (j, c) L).
  { intros j Hj. unfold L. rewrite !in_app_iff. right; left. apply in_map_iff. exists j. split; auto.
    apply filter_In. split; auto. unfold indices. apply in_py_range. auto. }
  unfold valid_index in Hr, Hc.
  assert (I : In (r, c) L) by (destruct D; [apply IR|apply IC]; lia).
  destruct (list_remove_perm (r, c) L I) as [t [Et P]]. rewrite Et. exists t. split; auto.
  assert (X : forall x, In x L <-> x = (r, c) \/ In x t).
  { intros x. split; intros H.
    - apply (Permutation_in _ P) in H || apply (Permutation_in _ (Permutation_sym P)) in H. destruct H; auto.
    - apply (Permutation_in _ P) || apply (Permutation_in _ (Permutation_sym P)). destruct H; [left|right]; auto. }
  split.
  - intros q Hq. apply (sur_valid r c true q); [apply V|apply V|]. apply X; auto.
  - intros q. rewrite <- A by auto. unfold spots. rewrite !in_map_iff. split.
    + intros [x [E H]]. exists x. split; auto. apply X; auto.
    + intros [x [E H]]. apply X in H. destruct H as [->|H]; [|eauto].
      destruct F as [F1 F2]. cbn [spot fst snd] in F1, F2.
      destruct D as [[D1 D2]|[D1 D2]].
      * exists (r mod NN s, c). split.
        { rewrite <- E. unfold spot; cbn [fst snd]. rewrite Z.mod_mod by lia. reflexivity. }
        destruct (proj1 (X (r mod NN s, c))) as [E'|H']; auto. exfalso. injection E' as E'. lia.
      * exists (r, c mod NN s). split.
        { rewrite <- E. unfold spot; cbn [fst snd]. rewrite Z.mod_mod by lia. reflexivity. }
        destruct (proj1 (X (r, c mod NN s))) as [E'|H']; auto. exfalso. injection E' as E'. lia.
Qed.

Lemma box_at_mod : forall r c, valid_index s r -> valid_index s c ->
  box_at s r c = box_at s (r mod NN s) (c mod NN s) - (if r <? 0 then NN s else 0) - (if c <? 0 then box_height s else 0).
Proof.
  intros r c Hr Hc. unfold box_at. rewrite mod_h by auto. rewrite (mod_val r), (mod_val c) by auto.
  pose proof (wf_w _ W). destruct (c <? 0).
  - rewrite (Z.mul_comm (box_width s)), Z_div_plus_full by lia. destruct (r <? 0); lia.
  - destruct (r <? 0); lia.
Qed.

(** * calc_candidates *)
Lemma calc_mod : forall r c, valid_index s r -> valid_index s c ->
  calc_candidates s r c = calc_candidates s (r mod NN s) (c mod NN s).
Proof.
  intros r c Hr Hc. assert (V : valid_pair s (r, c)) by (split; auto). pose proof (spot_field _ V) as F.
  rewrite (calc_candidates_ok s (r mod NN s) (c mod NN s)) by auto.
  unfold calc_candidates, pcalc. pose proof (getitem_spot _ V) as G. cbn [fst snd] in G. rewrite G. cbn [rbind].
  change (spot s (r, c)) with (r mod NN s, c mod NN s) in *. set (p := (r mod NN s, c mod NN s)) in *.
  destruct (num s p =? 0) eqn:E; cbn [negb]; auto.
  rewrite surrounding_false_any. cbn [rbind].
  rewrite (sof_list_id _ zcmp_good) by apply numbers_sorted.
  match goal with |- foldM ?f ?l ?a = _ =>
    destruct (foldM_pure f (fun c q => sdiscard zcmp (num s (spot s q)) c) (fun _ => True) l a) as [G' _]; auto end.
  { intros acc q Hin _. apply sur_valid in Hin; auto. rewrite getitem_spot by auto. cbn [rbind]. auto. }
  rewrite G'. clear G'. rewrite (fold_sdiscard (fun q => num s (spot s q))).
  apply (f_equal Ok). apply filter_ext_in'. intros n Hn. rewrite in_numbers in Hn. f_equal.
  apply eq_true_iff_eq. rewrite !existsb_exists. split.
  - intros [q [Hq E']]. b2p. assert (X : In (spot s q) (spots s (around (r, c)))) by (apply in_map; auto).
    apply in_around in X; auto. destruct X as [Fq [X|[X _]]].
    + exists (spot s q). split; [apply in_sur; auto|]. apply Z.eqb_eq; auto.
    + exfalso. change (spot s (r, c)) with p in X. rewrite X in E'. lia.
  - intros [q [Hq E']]. apply in_sur in Hq; auto.
    assert (X : In q (spots s (around (r, c)))) by (apply in_around; auto; tauto).
    apply in_map_iff in X. destruct X as [x [<- X]]. eauto.
Qed.

Lemma getitem_invalid : forall r c, ~ valid_pair s (r, c) -> getitem s r c = Err IndexError.
Proof.
  intros r c V. unfold getitem. pose proof (NN_pos s W) as NP.
  destruct (Z_le_dec (- NN s) r), (Z_lt_dec r (NN s)).
  1:{ assert (Hr : valid_index s r) by (unfold valid_index; lia).
      assert (Hc : ~ valid_index s c) by (intros Hc; apply V; split; auto).
      destruct (row_get (s_numbers s) r 0 (wf_nrows _ W) (wf_nrow _ W) Hr) as [x [E1 [_ E3]]]; [unfold valid_index; lia|].
      rewrite E1. cbn [rbind]. apply list_get_err. rewrite E3. exact Hc. }
  all: rewrite list_get_err; auto; unfold py_len; rewrite (wf_nrows _ W); lia.
Qed.

Lemma calc_invalid : forall r c, ~ valid_pair s (r, c) -> calc_candidates s r c = Err IndexError.
Proof. intros r c V. unfold calc_candidates. rewrite getitem_invalid by auto. reflexivity. Qed.

(** * find_conflicts *)
Definition wconf (p : coord) : list (coord * coord * Z) :=
  if num s (spot s p) =? 0 then []
  else map (fun q => (p, q, num s (spot s p))) (filter (fun q => num s (spot s q) =? num s (spot s p)) (around p)).

Definition conflicts_body (st : sudoku) (rc : coord) : gen sudoku (coord * coord * Z) sudoku :=
  do* value := lift (getitem st (fst rc) (snd rc)) in
  if value =? 0 then Ret st
  else
    do* sur := lift (surrounding_of st (fst rc) (snd rc) false) in
    gfor (fun st ij =>
            do* v := lift (getitem st (fst ij) (snd ij)) in
            if v =? value then yield (rc, ij, value) else Ret st)
         sur st.

Lemma conflicts_one : forall p, valid_pair s p ->
  gresult (conflicts_body s p) s = Ok s /\ gyields (conflicts_body s p) s = wconf p.
Proof.
  intros p V. unfold conflicts_body, wconf. rewrite getitem_spot by auto. cbn [lift gbind].
  destruct (num s (spot s p) =? 0) eqn:E; [auto|].
  rewrite surrounding_false_any. cbn [lift gbind]. replace (fst p, snd p) with p by (destruct p; auto).
  rewrite <- flat_map_filter_map. apply gfor_yields. intros q Hq.
  apply (sur_valid (fst p) (snd p) false) in Hq; [|apply V|apply V].
  rewrite getitem_spot by auto. cbn [lift gbind]. destruct (num s (spot s q) =? num s (spot s p)); auto.
Qed.

Lemma conflicts_valid : forall cs, cs <> [] -> (forall p, In p cs -> valid_pair s p) ->
  gresult (find_conflicts s cs) s = Ok s /\ gyields (find_conflicts s cs) s = flat_map wconf cs.
Proof.
  intros cs N V. unfold find_conflicts. destruct cs as [|p cs]; [congruence|].
  apply (gfor_yields conflicts_body). intros q Hq. apply conflicts_one; auto.
Qed.

Lemma in_wconf : forall p v x, valid_pair s p ->
  ((exists q, spot s q = x /\ valid_pair s q /\ In (p, q, v) (wconf p)) <->
   field s x /\ v <> 0 /\ num s (spot s p) = v /\ num s x = v /\
   (peers (box_width s) (box_height s) (spot s p) x \/ (x = spot s p /\ from_end p))).
Proof.
  intros p v x V. unfold wconf. destruct (num s (spot s p) =? 0) eqn:E; b2p.
  - split; [intros [q [_ [_ []]]]|]. intros; lia.
  - split.
    + intros [q [Ex [Vq H]]]. apply in_map_iff in H. destruct H as [y [Ey H]]. injection Ey as -> <-.
      apply filter_In in H. destruct H as [H1 H2]. b2p.
      assert (X : In x (spots s (around p))) by (subst x; apply in_map; auto). apply in_around in X; auto.
      rewrite Ex in H2. splits; auto; tauto.
    + intros [Fx [Hv [E1 [E2 D]]]]. assert (X : In x (spots s (around p))) by (apply in_around; auto).
      apply in_map_iff in X. destruct X as [q [Eq X]]. exists q. splits; auto.
      * apply (sur_valid (fst p) (snd p) false); [apply V|apply V|exact X].
      * apply in_map_iff. exists q. rewrite E1. split; auto. apply filter_In. split; auto.
        rewrite Eq. apply Z.eqb_eq. congruence.
Qed.

Lemma wconf_first : forall p a b v, In (a, b, v) (wconf p) -> a = p.
Proof.
  intros p a b v H. unfold wconf in H. destruct (num s (spot s p) =? 0); [destruct H|].
  apply in_map_iff in H. destruct H as [q [E _]]. congruence.
Qed.

Lemma gfor_raise : forall {I A S B} (f : S -> B -> gen I A S) (i : I) (ys : B -> list A) st l1 x l2 e,
  (forall y, In y l1 -> gresult (f st y) i = Ok st /\ gyields (f st y) i = ys y) ->
  gresult (f st x) i = Err e -> gyields (f st x) i = [] ->
  gresult (gfor f (l1 ++ x :: l2) st) i = Err e /\ gyields (gfor f (l1 ++ x :: l2) st) i = flat_map ys l1.
Proof.
  intros I A S B f i ys st l1 x l2 e; induction l1 as [|y l1 IH]; intros H1 H2 H3; simpl.
  - rewrite gresult_gbind, gyields_gbind, H2, H3. auto.
  - destruct (H1 y) as [E1 E2]; [left; auto|]. rewrite gresult_gbind, gyields_gbind, E1, E2. simpl.
    destruct IH as [IH1 IH2]; auto. { intros; apply H1; right; auto. } rewrite IH1, IH2. auto.
Qed.

Lemma conflicts_invalid : forall l1 p l2, (forall q, In q l1 -> valid_pair s q) -> ~ valid_pair s p ->
  gresult (find_conflicts s (l1 ++ p :: l2)) s = Err IndexError /\
  gyields (find_conflicts s (l1 ++ p :: l2)) s = flat_map wconf l1.
Proof.
  intros l1 p l2 V I. unfold find_conflicts.
  assert (gresult (conflicts_body s p) s = Err IndexError /\ gyields (conflicts_body s p) s = []) as [R Y].
  { assert (G : getitem s (fst p) (snd p) = Err IndexError) by (destruct p; apply getitem_invalid; auto).
    unfold conflicts_body. rewrite G. auto. }
  destruct (gfor_raise conflicts_body s wconf s l1 p l2 IndexError) as [A B]; auto.
  { intros q Hq. apply conflicts_one; auto. }
  destruct l1; split; auto.
Qed.

End S.
