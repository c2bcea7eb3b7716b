(** Proofs about coordinates (C09-C12). *)
From Verif Require Export LSudoku.
From Verif Require Import MCoord.

(** The methods of Sudoku are the functions of coordinates.py. *)
Lemma method_row_of : forall s r c i,
  MSudoku.row_of s r c i = MCoord.row_of r c (box_width s) (box_height s) i.
Proof. reflexivity. Qed.
Lemma method_column_of : forall s r c i,
  MSudoku.column_of s r c i = MCoord.column_of r c (box_width s) (box_height s) i.
Proof. reflexivity. Qed.
Lemma method_box_of : forall s r c i,
  MSudoku.box_of s r c i = MCoord.box_of r c (box_width s) (box_height s) i.
Proof. reflexivity. Qed.
Lemma method_surrounding_of : forall s r c i,
  MSudoku.surrounding_of s r c i = MCoord.surrounding_of r c (box_width s) (box_height s) i.
Proof. reflexivity. Qed.
Lemma method_box_at : forall s r c,
  MSudoku.box_at s r c = MCoord.box_at r c (box_width s) (box_height s).
Proof. reflexivity. Qed.

(** * Arithmetic *)
Lemma div_block : forall a h q, 0 < h -> (h * q <= a < h * q + h <-> a / h = q).
Proof.
  intros a h q Hh; split; intros H.
  - symmetry; apply (Z.div_unique _ _ _ (a - h * q)); lia.
  - subst. pose proof (Z.div_mod a h ltac:(lia)). pose proof (Z.mod_pos_bound a h ltac:(lia)). lia.
Qed.

Lemma sub_mod : forall a h, 0 < h -> a - a mod h = h * (a / h).
Proof. intros a h Hh; pose proof (Z.div_mod a h ltac:(lia)); lia. Qed.

Lemma div_bound : forall a w h, 0 < h -> 0 <= a < w * h -> 0 <= a / h < w.
Proof.
  intros a w h Hh H; split; [apply Z.div_pos; lia | apply Z.div_lt_upper_bound; lia].
Qed.

Lemma block_end : forall a w h, 0 < h -> 0 <= a < w * h ->
  0 <= h * (a / h) /\ h * (a / h) + h <= w * h.
Proof. intros a w h Hh H; pose proof (div_bound a w h Hh H); nia. Qed.

(** * Lists *)
Lemma length_filter_neq : forall (l : list Z) x, NoDup l -> In x l ->
  S (length (filter (fun y => negb (y =? x)) l)) = length l.
Proof.
  intros l x; induction l as [|y l IH]; intros Hn Hx; [destruct Hx|].
  inv Hn. simpl. destruct (y =? x) eqn:E; simpl; b2p.
  - subst. f_equal. clear IH Hx H2. induction l as [|z l IHl]; simpl; auto.
    destruct (z =? x) eqn:E; b2p; simpl in H1; [tauto|]. simpl; f_equal; tauto.
  - f_equal. apply IH; auto. destruct Hx; congruence.
Qed.

Lemma filter_list_prod : forall (f g : Z -> bool) l m,
  filter (fun ij => f (fst ij) && g (snd ij)) (list_prod l m) = list_prod (filter f l) (filter g m).
Proof.
  intros f g l m; induction l as [|x l IH]; simpl; auto.
  rewrite filter_app, IH.
  assert (G : filter (fun ij : Z * Z => f (fst ij) && g (snd ij)) (map (fun y : Z => (x, y)) m)
              = if f x then map (fun y : Z => (x, y)) (filter g m) else []).
  { clear IH. induction m as [|y m IHm]; simpl.
    - destruct (f x); auto.
    - rewrite IHm. destruct (f x); simpl; auto. destruct (g y); auto. }
  rewrite G. destruct (f x); simpl; auto.
Qed.

Lemma in_block : forall y x w h p,
  In p (block y x w h) <-> y <= fst p < y + h /\ x <= snd p < x + w.
Proof.
  intros y x w h [a b]; unfold block; rewrite in_map_iff; simpl; split.
  - intros [[i j] [E H]]; simpl in E; inv E. apply in_prod_iff in H.
    rewrite !in_py_range in H. lia.
  - intros H. exists (a - y, b - x); simpl; split; [f_equal; lia|].
    apply in_prod_iff; rewrite !in_py_range; lia.
Qed.

Lemma NoDup_block : forall y x w h, NoDup (block y x w h).
Proof.
  intros; unfold block; apply NoDup_map_inj.
  - intros [a b] [a' b'] _ _ E; simpl in E; inv E. f_equal; lia.
  - apply NoDup_list_prod; apply NoDup_py_range.
Qed.

Lemma length_block : forall y x w h, 0 <= w -> 0 <= h -> Z.of_nat (length (block y x w h)) = w * h.
Proof.
  intros; unfold block; rewrite map_length, length_list_prod, !length_py_range. nia.
Qed.

Section Dims.
Variables w h : Z.
Hypothesis Hw : 1 <= w.
Hypothesis Hh : 1 <= h.

Lemma in_box_block : forall r c p, cell w h (r, c) ->
  In p (block (r - r mod h) (c - c mod w) w h) <-> cell w h p /\ same_box w h p (r, c).
Proof.
  intros r c [a b] [Hr Hc]; simpl in *. rewrite in_block; unfold cell, same_box; simpl.
  rewrite !sub_mod by lia. rewrite (div_block a h), (div_block b w) by lia.
  split; [|tauto]. intros [E1 E2]; split; auto.
  pose proof (block_end r w h ltac:(lia) Hr). rewrite Z.mul_comm in Hc.
  pose proof (block_end c h w ltac:(lia) Hc).
  assert (h * (r / h) <= a < h * (r / h) + h) by (apply div_block; lia).
  assert (w * (c / w) <= b < w * (c / w) + w) by (apply div_block; lia).
  lia.
Qed.

Lemma row_of_spec : forall r c i, cell w h (r, c) ->
  NoDup (row_of r c w h i) /\
  (forall p, In p (row_of r c w h i) <->
     cell w h p /\ same_row p (r, c) /\ (i = true \/ p <> (r, c))) /\
  Z.of_nat (length (row_of r c w h i)) = w * h - (if i then 0 else 1).
Proof.
  intros r c i [Hr Hc]; simpl in *; unfold row_of. splits.
  - apply NoDup_map_inj; [intros x y _ _ E; inv E; auto|]. apply NoDup_filter, NoDup_py_range.
  - intros [a b]; rewrite in_map_iff; unfold cell, same_row; simpl; split.
    + intros [j [E H]]; inv E. apply filter_In in H; destruct H as [H1 H2].
      apply in_py_range in H1. split; [lia|]. split; auto. destruct i; auto. simpl in H2.
      b2p. right; congruence.
    + intros [[H1 H2] [H3 H4]]. subst. exists b; split; auto. apply filter_In; rewrite in_py_range.
      split; auto. destruct i; auto. simpl. apply negb_true_iff, Z.eqb_neq.
      destruct H4 as [H4|H4]; congruence.
  - rewrite map_length. destruct i; simpl.
    + replace (filter (fun _ : Z => true) (py_range (w * h))) with (py_range (w * h)).
      * rewrite length_py_range; lia.
      * clear; induction (py_range (w*h)); simpl; congruence.
    + assert (S (length (filter (fun j => negb (j =? c)) (py_range (w * h)))) = length (py_range (w*h))).
      { apply length_filter_neq; [apply NoDup_py_range | apply in_py_range; auto]. }
      rewrite length_py_range in H. lia.
Qed.

Lemma column_of_spec : forall r c i, cell w h (r, c) ->
  NoDup (column_of r c w h i) /\
  (forall p, In p (column_of r c w h i) <->
     cell w h p /\ same_col p (r, c) /\ (i = true \/ p <> (r, c))) /\
  Z.of_nat (length (column_of r c w h i)) = w * h - (if i then 0 else 1).
Proof.
  intros r c i [Hr Hc]; simpl in *; unfold column_of. splits.
  - apply NoDup_map_inj; [intros x y _ _ E; inv E; auto|]. apply NoDup_filter, NoDup_py_range.
  - intros [a b]; rewrite in_map_iff; unfold cell, same_col; simpl; split.
    + intros [j [E H]]; inv E. apply filter_In in H; destruct H as [H1 H2].
      apply in_py_range in H1. split; [lia|]. split; auto. destruct i; auto. simpl in H2.
      b2p. right; congruence.
    + intros [[H1 H2] [H3 H4]]. subst. exists a; split; auto. apply filter_In; rewrite in_py_range.
      split; auto. destruct i; auto. simpl. apply negb_true_iff, Z.eqb_neq.
      destruct H4 as [H4|H4]; congruence.
  - rewrite map_length. destruct i; simpl.
    + replace (filter (fun _ : Z => true) (py_range (w * h))) with (py_range (w * h)).
      * rewrite length_py_range; lia.
      * clear; induction (py_range (w*h)); simpl; congruence.
    + assert (S (length (filter (fun j => negb (j =? r)) (py_range (w * h)))) = length (py_range (w*h))).
      { apply length_filter_neq; [apply NoDup_py_range | apply in_py_range; auto]. }
      rewrite length_py_range in H. lia.
Qed.

Lemma box_of_spec : forall r c i, cell w h (r, c) ->
  exists l, box_of r c w h i = Ok l /\ NoDup l /\
  (forall p, In p l <-> cell w h p /\ same_box w h p (r, c) /\ (i = true \/ p <> (r, c))) /\
  Z.of_nat (length l) = w * h - (if i then 0 else 1).
Proof.
  intros r c i F; unfold box_of; cbv zeta.
  pose proof (NoDup_block (r - r mod h) (c - c mod w) w h) as Hn.
  pose proof (length_block (r - r mod h) (c - c mod w) w h ltac:(lia) ltac:(lia)) as Hl.
  pose proof (fun p => in_box_block r c p F) as Hi.
  set (l := block (r - r mod h) (c - c mod w) w h) in *.
  destruct i; simpl.
  - exists l; splits; auto; [|lia]. intros p; rewrite Hi; tauto.
  - assert (Hin : In (r, c) l) by (apply Hi; split; auto; split; auto).
    destruct (list_remove_perm (r, c) l Hin) as [t' [E' P]].
    destruct (list_remove_nodup (r, c) l Hin Hn) as [t [E [Hnt Ht]]].
    assert (t' = t) by congruence; subst t'.
    exists t; splits; auto.
    + intros p; rewrite Ht, Hi. intuition congruence.
    + apply Permutation_length in P; simpl in P. lia.
Qed.

Lemma box_without_spec : forall r c, cell w h (r, c) ->
  NoDup (box_without_row_and_column_of r c w h) /\
  (forall p, In p (box_without_row_and_column_of r c w h) <->
     cell w h p /\ same_box w h p (r, c) /\ fst p <> r /\ snd p <> c) /\
  Z.of_nat (length (box_without_row_and_column_of r c w h)) = (w - 1) * (h - 1).
Proof.
  intros r c F; unfold box_without_row_and_column_of; cbv zeta.
  assert (Hi : forall p, In p (map (fun ij => (r - r mod h + fst ij, c - c mod w + snd ij))
    (filter (fun ij => negb (r - r mod h + fst ij =? r) && negb (c - c mod w + snd ij =? c))
       (list_prod (py_range h) (py_range w)))) <->
    In p (block (r - r mod h) (c - c mod w) w h) /\ fst p <> r /\ snd p <> c).
  { intros [a b]. unfold block. rewrite !in_map_iff. split.
    - intros [[i j] [E H]]; simpl in *; inv E. apply filter_In in H; destruct H as [H1 H2].
      simpl in H2; b2p. split; [exists (i, j); auto|]. auto.
    - intros [[[i j] [E H]] [H1 H2]]; simpl in *; inv E. exists (i, j); simpl; split; auto.
      apply filter_In; simpl; split; auto. rewrite andb_true_iff, !negb_true_iff, !Z.eqb_neq; auto. }
  splits.
  - apply NoDup_map_inj.
    + intros [a b] [a' b'] _ _ E; simpl in E; inv E. f_equal; lia.
    + apply NoDup_filter, NoDup_list_prod; apply NoDup_py_range.
  - intros p; rewrite Hi, in_box_block by auto. tauto.
  - rewrite map_length.
    rewrite (filter_list_prod (fun i => negb (r - r mod h + i =? r)) (fun j => negb (c - c mod w + j =? c))).
    rewrite length_list_prod.
    destruct F as [Hr Hc]; simpl in *.
    pose proof (Z.mod_pos_bound r h ltac:(lia)). pose proof (Z.mod_pos_bound c w ltac:(lia)).
    assert (G1 : S (length (filter (fun i => negb (r - r mod h + i =? r)) (py_range h))) = Z.to_nat h).
    { rewrite (filter_ext_in' _ (fun i => negb (i =? r mod h))).
      - rewrite length_filter_neq, length_py_range; auto; [apply NoDup_py_range|apply in_py_range; auto].
      - intros x _. f_equal. destruct (x =? r mod h) eqn:E; b2p; [apply Z.eqb_eq|apply Z.eqb_neq]; lia. }
    assert (G2 : S (length (filter (fun j => negb (c - c mod w + j =? c)) (py_range w))) = Z.to_nat w).
    { rewrite (filter_ext_in' _ (fun i => negb (i =? c mod w))).
      - rewrite length_filter_neq, length_py_range; auto; [apply NoDup_py_range|apply in_py_range; auto].
      - intros x _. f_equal. destruct (x =? c mod w) eqn:E; b2p; [apply Z.eqb_eq|apply Z.eqb_neq]; lia. }
    nia.
Qed.

Lemma surrounding_false_spec : forall r c, cell w h (r, c) ->
  exists l, surrounding_of r c w h false = Ok l /\ NoDup l /\
  (forall p, In p l <-> cell w h p /\ peers w h (r, c) p) /\
  Z.of_nat (length l) = 3 * (w * h) - w - h - 1.
Proof.
  intros r c F; unfold surrounding_of; cbv beta zeta iota.
  destruct (row_of_spec r c false F) as [Rn [Ri Rl]].
  destruct (column_of_spec r c false F) as [Cn [Ci Cl]].
  destruct (box_without_spec r c F) as [Bn [Bi Bl]].
  eexists; split; [reflexivity|]. splits.
  - apply NoDup_app_iff; splits; auto.
    + apply NoDup_app_iff; splits; auto. intros p Hp; rewrite Ci in Hp; rewrite Bi.
      unfold same_col in Hp; simpl in Hp; tauto.
    + intros p Hp; rewrite Ri in Hp. rewrite in_app_iff, Ci, Bi. unfold same_row, same_col in *.
      destruct p as [a b]; simpl in *. intros [H|H]; [|tauto].
      destruct Hp as [_ [-> [E|Hp]]]; [congruence|]. destruct H as [_ [-> _]]; congruence.
  - intros p. rewrite !in_app_iff, Ri, Ci, Bi. unfold peers, same_row, same_col, same_box.
    destruct p as [a b]; simpl. split.
    + intros [[H1 [H2 H3]]|[[H1 [H2 H3]]|[H1 [H2 [H3 H4]]]]]; split; auto.
      * destruct H3; [discriminate|]. split; [congruence|]. left; congruence.
      * destruct H3; [discriminate|]. split; [congruence|]. right; left; congruence.
      * split; [congruence|]. right; right; destruct H2; split; congruence.
    + intros [H1 [H2 H3]].
      destruct (Z.eq_dec a r) as [->|na].
      { left; split; auto; split; auto; right; congruence. }
      destruct (Z.eq_dec b c) as [->|nb].
      { right; left; split; auto; split; auto; right; congruence. }
      right; right; split; auto. destruct H3 as [H3|[H3|[H3 H4]]]; [congruence|congruence|].
      splits; auto; congruence.
  - rewrite !app_length, !Nat2Z.inj_add, Rl, Cl, Bl. cbv iota. ring.
Qed.

Lemma surrounding_true_spec : forall r c, cell w h (r, c) ->
  exists l, surrounding_of r c w h true = Ok l /\ NoDup l /\
  (forall p, In p l <-> cell w h p /\ (p = (r, c) \/ peers w h (r, c) p)) /\
  Z.of_nat (length l) = 3 * (w * h) - w - h.
Proof.
  intros r c F; unfold surrounding_of; cbv beta zeta iota.
  destruct (row_of_spec r c true F) as [Rn [Ri Rl]].
  destruct (column_of_spec r c true F) as [Cn [Ci Cl]].
  destruct (box_without_spec r c F) as [Bn [Bi Bl]].
  assert (HR : In (r, c) (row_of r c w h true)) by (apply Ri; split; auto; split; auto; reflexivity).
  assert (HC : In (r, c) (column_of r c w h true)) by (apply Ci; split; auto; split; auto; reflexivity).
  destruct (in_split_first _ _ HR) as [l1 [l2 [E Hn1]]].
  assert (Hl12 : forall p, In p (l1 ++ l2) <-> In p (row_of r c w h true) /\ p <> (r, c)).
  { rewrite E in Rn. apply NoDup_remove in Rn; destruct Rn as [Rn Rx].
    intros p; rewrite E, !in_app_iff; simpl. rewrite in_app_iff in Rx. split.
    - intros [H|H]; (split; [tauto | intros ->; tauto]).
    - intros [[H|[H|H]] Hne]; auto; congruence. }
  rewrite E. rewrite <- app_assoc. cbn [app]. rewrite list_remove_split by auto.
  eexists; split; [reflexivity|].
  assert (N12 : NoDup (l1 ++ l2)) by (rewrite E in Rn; apply NoDup_remove in Rn; tauto).
  rewrite app_assoc. splits.
  - apply NoDup_app_iff; splits; auto.
    + apply NoDup_app_iff; splits; auto. intros p Hp; rewrite Ci in Hp; rewrite Bi.
      unfold same_col in Hp; simpl in Hp; tauto.
    + intros p Hp; rewrite Hl12, Ri in Hp. rewrite in_app_iff, Ci, Bi. unfold same_row, same_col in *.
      destruct p as [a b]; simpl in *. intros [H|H]; [|tauto].
      destruct Hp as [[_ [-> _]] Hne]. destruct H as [_ [-> _]]; congruence.
  - intros p. rewrite in_app_iff, Hl12, in_app_iff, Ri, Ci, Bi. unfold peers, same_row, same_col, same_box.
    destruct p as [a b]; simpl. split.
    + intros [[[H1 [H2 _]] H3]|[[H1 [H2 _]]|[H1 [H2 [H3 H4]]]]]; (split; [assumption|]).
      * right. split; [intros E'; apply H3; symmetry; exact E'|]. left; congruence.
      * destruct (Z.eq_dec a r) as [->|na]; [left; congruence|].
        right. split; [congruence|]. right; left; congruence.
      * right. split; [congruence|]. right; right; destruct H2; split; congruence.
    + intros [H1 H]. destruct (Z.eq_dec b c) as [->|nb].
      { right; left; auto. }
      destruct (Z.eq_dec a r) as [->|na].
      { left; splits; auto; congruence. }
      right; right; split; auto. destruct H as [H|[H2 H3]]; [congruence|].
      destruct H3 as [H3|[H3|[H3 H4]]]; [congruence|congruence|].
      splits; auto; congruence.
  - assert (length (row_of r c w h true) = S (length (l1 ++ l2))).
    { rewrite E, !app_length; simpl; lia. }
    rewrite H, !Nat2Z.inj_succ in Rl. rewrite !app_length, !Nat2Z.inj_add in *. rewrite Cl, Bl.
    replace ((w - 1) * (h - 1)) with (w * h - w - h + 1) by ring. lia.
Qed.

(** * Boxes, parts *)
Lemma the_box_ok : forall b, 0 <= b < w * h ->
  the_box b w h = Ok (block ((b / h) * h) ((b mod h) * w) w h).
Proof.
  intros b Hb; unfold the_box.
  destruct (0 <=? b) eqn:E1, (b <? w * h) eqn:E2; b2p; simpl; auto; lia.
Qed.

Lemma the_part_ok : forall p, 0 <= p < w * h ->
  the_part p w h = Ok (map (fun ij => (p / w + fst ij * h, p mod w + snd ij * w))
            (list_prod (py_range w) (py_range h))).
Proof.
  intros b Hb; unfold the_part.
  destruct (0 <=? b) eqn:E1, (b <? w * h) eqn:E2; b2p; simpl; auto; lia.
Qed.

Lemma box_pos : forall b, 0 <= b < w * h ->
  0 <= b / h < w /\ 0 <= b mod h < h /\ b = (b / h) * h + b mod h.
Proof.
  intros b Hb. pose proof (div_bound b w h ltac:(lia) Hb).
  pose proof (Z.mod_pos_bound b h ltac:(lia)). pose proof (Z.div_mod b h ltac:(lia)). lia.
Qed.

Lemma part_pos : forall p, 0 <= p < w * h ->
  0 <= p / w < h /\ 0 <= p mod w < w /\ p = (p / w) * w + p mod w.
Proof.
  intros p Hp. rewrite Z.mul_comm in Hp. pose proof (div_bound p h w ltac:(lia) Hp).
  pose proof (Z.mod_pos_bound p w ltac:(lia)). pose proof (Z.div_mod p w ltac:(lia)). lia.
Qed.

Lemma in_the_box : forall b q, 0 <= b < w * h ->
  (In q (block ((b / h) * h) ((b mod h) * w) w h) <->
   cell w h q /\ fst q / h = b / h /\ snd q / w = b mod h).
Proof.
  intros b [r c] Hb. rewrite in_block; simpl. unfold cell; simpl.
  pose proof (box_pos b Hb) as [H1 [H2 H3]].
  rewrite (Z.mul_comm (b / h) h), (Z.mul_comm (b mod h) w).
  rewrite (div_block r h), (div_block c w) by lia.
  split; [|tauto]. intros [E1 E2]; splits; auto.
  - pose proof (proj2 (div_block r h (b / h) ltac:(lia)) E1). nia.
  - pose proof (proj2 (div_block r h (b / h) ltac:(lia)) E1). nia.
  - pose proof (proj2 (div_block c w (b mod h) ltac:(lia)) E2). nia.
  - pose proof (proj2 (div_block c w (b mod h) ltac:(lia)) E2). nia.
Qed.

Lemma in_the_part : forall p q, 0 <= p < w * h ->
  (In q (map (fun ij => (p / w + fst ij * h, p mod w + snd ij * w))
            (list_prod (py_range w) (py_range h))) <->
   cell w h q /\ fst q mod h = p / w /\ snd q mod w = p mod w).
Proof.
  intros p [r c] Hp. rewrite in_map_iff; unfold cell; simpl.
  pose proof (part_pos p Hp) as [H1 [H2 H3]]. split.
  - intros [[i j] [E H]]; simpl in E; inv E. apply in_prod_iff in H. rewrite !in_py_range in H.
    rewrite !Z_mod_plus_full. rewrite (Z.mod_small (p / w)), (Z.mod_small (p mod w)) by lia.
    splits; auto; nia.
  - intros [[Hr Hc] [E1 E2]]. exists (r / h, c / w); simpl. split.
    + pose proof (Z.div_mod r h ltac:(lia)). pose proof (Z.div_mod c w ltac:(lia)).
      f_equal; lia.
    + apply in_prod_iff; rewrite !in_py_range. split; [apply div_bound; lia|].
      apply div_bound; lia.
Qed.

Lemma box_at_range : forall r c, cell w h (r, c) ->
  0 <= box_at r c w h < w * h /\ box_at r c w h / h = r / h /\ box_at r c w h mod h = c / w.
Proof.
  intros r c [Hr Hc]; simpl in *; unfold box_at.
  replace (c / w + r - r mod h) with (c / w + (r / h) * h)
    by (pose proof (sub_mod r h ltac:(lia)); lia).
  pose proof (div_bound r w h ltac:(lia) Hr). rewrite Z.mul_comm in Hc.
  pose proof (div_bound c h w ltac:(lia) Hc).
  rewrite Z_mod_plus_full, Z_div_plus_full by lia.
  rewrite (Z.mod_small (c / w) h), (Z.div_small (c / w) h) by lia. nia.
Qed.

Lemma the_row_ok : forall r, 0 <= r < w * h ->
  the_row r w h = Ok (map (fun c => (r, c)) (py_range (w * h))).
Proof.
  intros b Hb; unfold the_row.
  destruct (0 <=? b) eqn:E1, (b <? w * h) eqn:E2; b2p; simpl; auto; lia.
Qed.
Lemma the_column_ok : forall c, 0 <= c < w * h ->
  the_column c w h = Ok (map (fun r => (r, c)) (py_range (w * h))).
Proof.
  intros b Hb; unfold the_column.
  destruct (0 <=? b) eqn:E1, (b <? w * h) eqn:E2; b2p; simpl; auto; lia.
Qed.

Lemma in_the_row : forall r q, 0 <= r < w * h ->
  (In q (map (fun c => (r, c)) (py_range (w * h))) <-> cell w h q /\ fst q = r).
Proof.
  intros r [a b] Hr; rewrite in_map_iff; unfold cell; simpl; split.
  - intros [c [E H]]; inv E. apply in_py_range in H. auto.
  - intros [[H1 H2] ->]. exists b; split; auto. apply in_py_range; auto.
Qed.
Lemma in_the_column : forall c q, 0 <= c < w * h ->
  (In q (map (fun r => (r, c)) (py_range (w * h))) <-> cell w h q /\ snd q = c).
Proof.
  intros r [a b] Hr; rewrite in_map_iff; unfold cell; simpl; split.
  - intros [c [E H]]; inv E. apply in_py_range in H. auto.
  - intros [[H1 H2] ->]. exists a; split; auto. apply in_py_range; auto.
Qed.
End Dims.

(** * Property proofs *)
Lemma C09_proof : forall w h r c i, 1 <= w -> 1 <= h -> cell w h (r, c) ->
  exists lb, box_of r c w h i = Ok lb /\
  (forall l u, (l = row_of r c w h i /\ u = same_row) \/ (l = column_of r c w h i /\ u = same_col) \/
               (l = lb /\ u = same_box w h) ->
     NoDup l /\ (forall p, In p l <-> cell w h p /\ u p (r, c) /\ (i = true \/ p <> (r, c))) /\
     Z.of_nat (length l) = w * h - (if i then 0 else 1)).
Proof.
  intros w h r c i Hw Hh F.
  destruct (box_of_spec w h Hw Hh r c i F) as [lb [E [Bn [Bi Bl]]]].
  exists lb; split; auto. intros l u [[-> ->]|[[-> ->]|[-> ->]]].
  - apply row_of_spec; auto.
  - apply column_of_spec; auto.
  - auto.
Qed.

Lemma C10_proof : forall w h r c, 1 <= w -> 1 <= h -> cell w h (r, c) ->
  exists l l', surrounding_of r c w h false = Ok l /\ surrounding_of r c w h true = Ok l' /\
    NoDup l /\ NoDup l' /\
    (forall p, In p l <-> cell w h p /\ peers w h (r, c) p) /\
    (forall p, In p l' <-> cell w h p /\ (p = (r, c) \/ peers w h (r, c) p)) /\
    Z.of_nat (length l') = 3 * (w * h) - w - h /\
    Z.of_nat (length l) = 3 * (w * h) - w - h - 1.
Proof.
  intros w h r c Hw Hh F.
  destruct (surrounding_false_spec w h Hw Hh r c F) as [l [E [Ln [Li Ll]]]].
  destruct (surrounding_true_spec w h Hw Hh r c F) as [l' [E' [Ln' [Li' Ll']]]].
  exists l, l'; splits; auto.
Qed.

Lemma the_box_iff : forall w h b q, 1 <= w -> 1 <= h ->
  ((exists l, the_box b w h = Ok l /\ In q l) <->
   0 <= b < w * h /\ cell w h q /\ fst q / h = b / h /\ snd q / w = b mod h).
Proof.
  intros w h b q Hw Hh; split.
  - intros [l [E H]]. assert (Hb : 0 <= b < w * h).
    { unfold the_box in E. destruct (0 <=? b) eqn:E1, (b <? w * h) eqn:E2; b2p; simpl in E;
      try discriminate; lia. }
    rewrite the_box_ok in E by auto. inv E. split; auto. apply in_the_box; auto.
  - intros [Hb H]. rewrite the_box_ok by auto. eexists; split; eauto. apply in_the_box; auto.
Qed.

Lemma the_part_iff : forall w h b q, 1 <= w -> 1 <= h ->
  ((exists l, the_part b w h = Ok l /\ In q l) <->
   0 <= b < w * h /\ cell w h q /\ fst q mod h = b / w /\ snd q mod w = b mod w).
Proof.
  intros w h b q Hw Hh; split.
  - intros [l [E H]]. assert (Hb : 0 <= b < w * h).
    { unfold the_part in E. destruct (0 <=? b) eqn:E1, (b <? w * h) eqn:E2; b2p; simpl in E;
      try discriminate; lia. }
    rewrite the_part_ok in E by auto. inv E. split; auto. apply in_the_part; auto.
  - intros [Hb H]. rewrite the_part_ok by auto. eexists; split; eauto. apply in_the_part; auto.
Qed.

Lemma C11_box_proof : forall w h r c b, 1 <= w -> 1 <= h -> cell w h (r, c) ->
  ((exists l, the_box b w h = Ok l /\ In (r, c) l) <-> b = box_at r c w h).
Proof.
  intros w h r c b Hw Hh F. rewrite the_box_iff by auto. simpl.
  destruct (box_at_range w h Hw Hh r c F) as [H1 [H2 H3]]. split.
  - intros [Hb [_ [E1 E2]]].
    pose proof (Z.div_mod b h ltac:(lia)). pose proof (Z.div_mod (box_at r c w h) h ltac:(lia)).
    nia.
  - intros ->. splits; auto; lia.
Qed.

Lemma C11_part_proof : forall w h r c p, 1 <= w -> 1 <= h -> cell w h (r, c) ->
  ((exists l, the_part p w h = Ok l /\ In (r, c) l) <-> p = c mod w + (r mod h) * w).
Proof.
  intros w h r c p Hw Hh F. rewrite the_part_iff by auto. simpl.
  pose proof (Z.mod_pos_bound r h ltac:(lia)) as Hr. pose proof (Z.mod_pos_bound c w ltac:(lia)) as Hc.
  split.
  - intros [Hb [_ [E1 E2]]]. pose proof (Z.div_mod p w ltac:(lia)). nia.
  - intros ->. rewrite Z_mod_plus_full, Z_div_plus_full by lia.
    rewrite (Z.mod_small (c mod w) w), (Z.div_small (c mod w) w) by lia. splits; auto; nia.
Qed.

Lemma C11_inter_proof : forall w h b p, 1 <= w -> 1 <= h -> 0 <= b < w * h -> 0 <= p < w * h ->
  exists lb lp, the_box b w h = Ok lb /\ the_part p w h = Ok lp /\
    exists q, (In q lb /\ In q lp) /\ forall q', In q' lb /\ In q' lp -> q' = q.
Proof.
  intros w h b p Hw Hh Hb Hp. rewrite the_box_ok, the_part_ok by auto.
  eexists; eexists; split; [reflexivity|]. split; [reflexivity|].
  destruct (box_pos w h Hh b Hb) as [B1 [B2 B3]].
  destruct (part_pos w h Hw p Hp) as [P1 [P2 P3]].
  exists ((b / h) * h + p / w, (b mod h) * w + p mod w). split.
  - rewrite in_the_box, in_the_part by auto. unfold cell; simpl.
    rewrite (Z.add_comm (b / h * h)), (Z.add_comm (b mod h * w)).
    rewrite !Z_mod_plus_full, !Z_div_plus_full by lia.
    rewrite (Z.div_small (p / w) h), (Z.div_small (p mod w) w), (Z.mod_small (p / w) h), (Z.mod_small (p mod w) w) by lia.
    splits; auto; nia.
  - intros [r c]. rewrite in_the_box, in_the_part by auto. simpl.
    intros [[_ [E1 E2]] [_ [E3 E4]]].
    pose proof (Z.div_mod r h ltac:(lia)). pose proof (Z.div_mod c w ltac:(lia)).
    f_equal; nia.
Qed.

Lemma C11_units_proof : forall w h k, 1 <= w -> 1 <= h -> 0 <= k < w * h ->
  exists lr lc lb lp, the_row k w h = Ok lr /\ the_column k w h = Ok lc /\
    the_box k w h = Ok lb /\ the_part k w h = Ok lp /\
    (forall q, In q lr <-> cell w h q /\ fst q = k) /\
    (forall q, In q lc <-> cell w h q /\ snd q = k) /\
    (forall l, l = lr \/ l = lc \/ l = lb \/ l = lp ->
       NoDup l /\ Z.of_nat (length l) = w * h /\ forall q, In q l -> cell w h q).
Proof.
  intros w h k Hw Hh Hk. do 4 eexists.
  split; [apply the_row_ok; auto|]. split; [apply the_column_ok; auto|].
  split; [apply the_box_ok; auto|]. split; [apply the_part_ok; auto|].
  split; [intros; apply in_the_row; auto|]. split; [intros; apply in_the_column; auto|].
  intros l [->|[->|[->| ->]]]; splits.
  - apply NoDup_map_inj; [intros x y _ _ E; inv E; auto | apply NoDup_py_range].
  - rewrite map_length, length_py_range; lia.
  - intros q H; apply in_the_row in H; tauto.
  - apply NoDup_map_inj; [intros x y _ _ E; inv E; auto | apply NoDup_py_range].
  - rewrite map_length, length_py_range; lia.
  - intros q H; apply in_the_column in H; tauto.
  - apply NoDup_block.
  - apply length_block; lia.
  - intros q H; apply in_the_box in H; tauto.
  - apply NoDup_map_inj.
    + intros [x y] [x' y'] _ _ E; simpl in E; inv E. f_equal; nia.
    + apply NoDup_list_prod; apply NoDup_py_range.
  - rewrite map_length, length_list_prod, !length_py_range; nia.
  - intros q H; apply in_the_part in H; tauto.
Qed.

Lemma C12_proof : forall w h k,
  (the_row k w h = Err ValueError <-> k < 0 \/ w * h <= k) /\
  (the_column k w h = Err ValueError <-> k < 0 \/ w * h <= k) /\
  (the_box k w h = Err ValueError <-> k < 0 \/ w * h <= k) /\
  (the_part k w h = Err ValueError <-> k < 0 \/ w * h <= k).
Proof.
  intros w h k. unfold the_row, the_column, the_box, the_part; cbv zeta.
  assert (G : forall (l : list coord),
    (if negb ((0 <=? k) && (k <? w * h)) then Err ValueError else Ok l) = Err ValueError
    <-> k < 0 \/ w * h <= k).
  { intros l. destruct (0 <=? k) eqn:E1, (k <? w * h) eqn:E2; b2p; simpl; split; intros H;
    try discriminate; try lia; auto. }
  splits; apply G.
Qed.

Lemma methods_proof : forall s r c i,
  MSudoku.row_of s r c i = MCoord.row_of r c (box_width s) (box_height s) i /\
  MSudoku.column_of s r c i = MCoord.column_of r c (box_width s) (box_height s) i /\
  MSudoku.box_of s r c i = MCoord.box_of r c (box_width s) (box_height s) i /\
  MSudoku.surrounding_of s r c i = MCoord.surrounding_of r c (box_width s) (box_height s) i /\
  MSudoku.box_at s r c = MCoord.box_at r c (box_width s) (box_height s).
Proof. intros; splits; reflexivity. Qed.
