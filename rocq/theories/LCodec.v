(** Lemmas about MCodec: encode and decode. *)
From Verif Require Export LSudoku LSudoku2 LStr MCodec.

(** * Positions in row-major order *)
Lemma nth_list_prod : forall {A B} (l : list A) (m : list B) i j da db,
  (i < length l)%nat -> (j < length m)%nat ->
  nth (i * length m + j) (list_prod l m) (da, db) = (nth i l da, nth j m db).
Proof.
  intros A B l m; induction l as [|x l IH]; intros i j da db Hi Hj; [simpl in Hi; lia|].
  cbn [list_prod]. destruct i as [|i].
  - rewrite app_nth1 by (rewrite map_length; lia). cbn [Nat.mul Nat.add nth].
    rewrite nth_indep with (d' := (x, db)) by (rewrite map_length; lia).
    apply (map_nth (fun y => (x, y))).
  - cbn [length] in Hi. rewrite app_nth2 by (rewrite map_length; lia). rewrite map_length.
    replace (S i * length m + j - length m)%nat with (i * length m + j)%nat by lia.
    rewrite IH by lia. reflexivity.
Qed.

(** The position of a field in row-major order. *)
Definition pos (n : Z) (p : coord) : Z := fst p * n + snd p.

Lemma fieldD : forall s p, field s p -> (0 <= fst p < NN s /\ 0 <= snd p < NN s).
Proof. intros s p H; exact H. Qed.

Lemma pos_bound : forall s p, field s p -> 0 <= pos (NN s) p < NN s * NN s.
Proof. intros s p H. apply fieldD in H. unfold pos. revert H. generalize (NN s). destruct p as [r c]; cbn [fst snd]. intros n H.
  assert (r * n <= (n - 1) * n) by (apply Z.mul_le_mono_nonneg_r; lia).
  assert (0 <= r * n) by (apply Z.mul_nonneg_nonneg; lia). lia. Qed.

Lemma pos_div : forall s p, field s p -> pos (NN s) p / NN s = fst p /\ pos (NN s) p mod NN s = snd p.
Proof.
  intros s p H. apply fieldD in H. unfold pos. split.
  - rewrite Z.div_add_l by lia. rewrite Z.div_small by lia. lia.
  - rewrite Z.add_comm, Z.mod_add by lia. apply Z.mod_small; lia.
Qed.

Lemma div_field : forall s i, 0 <= i < NN s * NN s -> 0 < NN s -> field s (i / NN s, i mod NN s).
Proof.
  intros s i H Hp. apply field_cell. cbn [fst snd]. split.
  - split; [apply Z.div_pos; lia|apply Z.div_lt_upper_bound; lia].
  - apply Z.mod_pos_bound; lia.
Qed.

Lemma nth_coords : forall s p d, field s p -> nth (Z.to_nat (pos (NN s) p)) (coords s) d = p.
Proof.
  intros s p d H. pose proof H as H0. apply fieldD in H0. destruct p as [r c], d as [d1 d2]; cbn [fst snd] in *.
  unfold coords, indices. replace (Z.to_nat (pos (NN s) (r, c)))
    with (Z.to_nat r * length (py_range (NN s)) + Z.to_nat c)%nat
    by (rewrite length_py_range; unfold pos; cbn [fst snd]; nia).
  etransitivity; [apply (nth_list_prod (py_range (NN s)) (py_range (NN s))); rewrite length_py_range; lia|].
  rewrite !nth_py_range by lia. f_equal; lia.
Qed.

Lemma step_div : forall n i, 0 < n -> 0 <= i ->
  (if n <=? i mod n + 1 then (i / n + 1, 0) else (i / n, i mod n + 1)) = ((i + 1) / n, (i + 1) mod n).
Proof.
  intros n i Hn Hi. pose proof (Z.mod_pos_bound i n Hn) as H. pose proof (Z.div_mod i n ltac:(lia)) as D.
  destruct (n <=? i mod n + 1) eqn:E; b2p.
  - assert (i mod n = n - 1) by lia. assert (X : i + 1 = (i / n + 1) * n) by (rewrite D at 1; lia).
    rewrite X, Z.div_mul, Z.mod_mul by lia. reflexivity.
  - assert (X : i + 1 = (i / n) * n + (i mod n + 1)) by lia.
    rewrite X at 1 2. rewrite Z.div_add_l by lia. rewrite (Z.div_small (i mod n + 1)) by lia.
    rewrite (Z.add_comm (i / n * n)), Z.mod_add, (Z.mod_small (i mod n + 1)) by lia. f_equal; lia.
Qed.

(** * The loop reading the fields *)
Definition read_item (empty item : pystr) : res Z :=
  if str_is item empty then Ok 0 else int_of_str item.

Lemma read_fields_ok : forall empty items vs s i, wf s -> 0 <= i ->
  Forall2 (fun it v => read_item empty it = Ok v) items vs ->
  (items <> [] -> i + py_len items <= NN s * NN s) ->
  exists t, read_fields empty items s (i / NN s) (i mod NN s) = Ok t /\ wf t /\
    box_width t = box_width s /\ box_height t = box_height s /\
    forall p, field s p ->
      cand t p = cand s p /\
      num t p = (let k := pos (NN s) p in
                 if (i <=? k) && (k <? i + py_len items) then nth (Z.to_nat (k - i)) vs 0 else num s p).
Proof.
  intros empty items; induction items as [|item items IH]; intros vs s i Hw Hi F L.
  - exists s. cbn [read_fields]. splits; auto. intros p Hp. split; auto. cbv zeta.
    destruct (_ && _) eqn:E; auto. b2p. unfold py_len in *. cbn in *. lia.
  - inversion F as [|? v ? vs' F1 F2]; subst. clear F.
    assert (Lb : i + 1 + py_len items <= NN s * NN s)
      by (specialize (L ltac:(discriminate)); unfold py_len in *; cbn [length] in L; lia).
    assert (Lp : 0 <= py_len items) by (unfold py_len; lia).
    assert (Ln : py_len (item :: items) = 1 + py_len items) by (unfold py_len; cbn [length]; lia).
    pose proof (NN_pos s Hw) as Np.
    assert (Hf : field s (i / NN s, i mod NN s)) by (apply div_field; lia).
    cbn [read_fields]. change (if str_is item empty then Ok 0 else int_of_str item) with (read_item empty item).
    rewrite F1; cbn [rbind]. rewrite setitem_ok by auto. cbn [rbind].
    set (s1 := pset s (i / NN s, i mod NN s) v).
    change (box_width s1 * box_height s1) with (NN s).
    rewrite step_div by lia. cbv beta iota.
    assert (W1 : wf s1) by (apply pset_wf; auto).
    assert (V1 : forall p, field s p -> num s1 p = if pos (NN s) p =? i then v else num s p).
    { intros p Hp. unfold s1. rewrite num_pset by auto. destruct (pos_div s p Hp) as [D1 D2].
      destruct (pos (NN s) p =? i) eqn:E; b2p.
      - subst i. rewrite D1, D2. rewrite <- surjective_pairing, coord_eqb_refl; auto.
      - match goal with |- context [coord_eqb ?a ?b] => destruct (coord_eqb a b) eqn:E2 end; auto. apply coord_eqb_eq in E2.
        exfalso; apply E. subst p. unfold pos; cbn [fst snd]. pose proof (Z.div_mod i (NN s) ltac:(lia)). lia. }
    destruct (NN s <=? (i + 1) / NN s) eqn:E; b2p.
    + exists s1. splits; auto. intros p Hp. split; [apply cand_pset|]. cbv zeta. rewrite V1 by auto.
      pose proof (pos_bound s p Hp).
      assert (NN s * NN s <= i + 1).
      { pose proof (Z.mul_div_le (i + 1) (NN s)). nia. }
      assert (py_len items = 0) by lia. rewrite Ln.
      destruct (pos (NN s) p =? i) eqn:E2; b2p.
      * rewrite E2. replace (i <=? i) with true by (symmetry; apply Z.leb_le; lia).
        replace (i <? i + (1 + py_len items)) with true by (symmetry; apply Z.ltb_lt; lia).
        cbn [andb]. replace (Z.to_nat (i - i)) with 0%nat by lia. reflexivity.
      * destruct (_ && _) eqn:E3; auto; b2p. lia.
    + assert (i + 1 < NN s * NN s).
      { assert (i + 1 < NN s * ((i + 1) / NN s + 1)).
        { pose proof (Z.div_mod (i + 1) (NN s) ltac:(lia)). pose proof (Z.mod_pos_bound (i + 1) (NN s)). nia. } nia. }
      destruct (IH vs' s1 (i + 1) W1 ltac:(lia) F2) as [t [T1 [T2 [T3 [T4 T5]]]]].
      { intros _. change (NN s1) with (NN s). lia. }
      change (NN s1) with (NN s) in *. exists t. splits; auto. intros p Hp.
      destruct (T5 p ltac:(apply pset_field; auto)) as [T6 T7]. split; [rewrite T6; apply cand_pset|].
      rewrite T7. cbv zeta. rewrite V1 by auto. rewrite Ln.
      destruct (pos (NN s) p =? i) eqn:E2; b2p.
      * rewrite E2. replace (i + 1 <=? i) with false by (symmetry; apply Z.leb_gt; lia). cbn [andb].
        replace (i <=? i) with true by (symmetry; apply Z.leb_le; lia).
        replace (i <? i + (1 + py_len items)) with true by (symmetry; apply Z.ltb_lt; lia).
        cbn [andb]. replace (Z.to_nat (i - i)) with 0%nat by lia. reflexivity.
      * replace (i + 1 + py_len items) with (i + (1 + py_len items)) by lia.
        destruct (i + 1 <=? pos (NN s) p) eqn:E3; b2p.
        -- replace (i <=? pos (NN s) p) with true by (symmetry; apply Z.leb_le; lia).
           destruct (pos (NN s) p <? i + (1 + py_len items)); cbn [andb]; auto.
           replace (Z.to_nat (pos (NN s) p - i)) with (S (Z.to_nat (pos (NN s) p - (i + 1)))) by lia. reflexivity.
        -- replace (i <=? pos (NN s) p) with false by (symmetry; apply Z.leb_gt; lia). reflexivity.
Qed.

(** * The loop reading the candidates *)
Definition read_cands (number_sep c : pystr) : res (list Z) :=
  let* items := match number_sep with
                | [] => Ok (map (fun x => [x]) (strip c))
                | _ => split number_sep (strip c)
                end in
  mapM int_of_str items.

Lemma read_candidates_eq : forall number_sep c t s row col,
  read_candidates number_sep (c :: t) s row col =
  let* candidates := read_cands number_sep c in
  let* s := set_candidates s row col candidates in
  let n := box_width s * box_height s in
  let '(row, col) := if col + 1 =? n then (row + 1, 0) else (row, col + 1) in
  if row =? n then Ok s else read_candidates number_sep t s row col.
Proof.
  intros. cbn [read_candidates]. cbv zeta. unfold read_cands.
  destruct (match number_sep with [] => Ok (map (fun x => [x]) (strip c)) | _ => split number_sep (strip c) end); auto.
Qed.

Lemma step_div_eq : forall n i, 0 < n -> 0 <= i ->
  (if i mod n + 1 =? n then (i / n + 1, 0) else (i / n, i mod n + 1)) = ((i + 1) / n, (i + 1) mod n).
Proof.
  intros n i Hn Hi. rewrite <- step_div by lia. pose proof (Z.mod_pos_bound i n Hn).
  destruct (i mod n + 1 =? n) eqn:E, (n <=? i mod n + 1) eqn:E2; auto; b2p; lia.
Qed.

Lemma read_candidates_ok : forall number_sep items vs s i, wf s -> 0 <= i ->
  Forall2 (fun it v => read_cands number_sep it = Ok v) items vs ->
  (items <> [] -> i + py_len items <= NN s * NN s) ->
  exists t, read_candidates number_sep items s (i / NN s) (i mod NN s) = Ok t /\ wf t /\
    box_width t = box_width s /\ box_height t = box_height s /\
    forall p, field s p ->
      num t p = num s p /\
      cand t p = (let k := pos (NN s) p in
                 if (i <=? k) && (k <? i + py_len items) then sof_list zcmp (nth (Z.to_nat (k - i)) vs [])
                 else cand s p).
Proof.
  intros number_sep items; induction items as [|item items IH]; intros vs s i Hw Hi F L.
  - exists s. cbn [read_candidates]. splits; auto. intros p Hp. split; auto. cbv zeta.
    destruct (_ && _) eqn:E; auto. b2p. unfold py_len in *. cbn in *. lia.
  - inversion F as [|? v ? vs' F1 F2]; subst. clear F.
    assert (Lb : i + 1 + py_len items <= NN s * NN s)
      by (specialize (L ltac:(discriminate)); unfold py_len in *; cbn [length] in L; lia).
    assert (Lp : 0 <= py_len items) by (unfold py_len; lia).
    assert (Ln : py_len (item :: items) = 1 + py_len items) by (unfold py_len; cbn [length]; lia).
    pose proof (NN_pos s Hw) as Np.
    assert (Hf : field s (i / NN s, i mod NN s)) by (apply div_field; lia).
    rewrite read_candidates_eq, F1; cbn [rbind]. rewrite set_candidates_ok by auto. cbn [rbind]. cbv zeta.
    set (s1 := pcset s (i / NN s, i mod NN s) (sof_list zcmp v)).
    change (box_width s1 * box_height s1) with (NN s).
    rewrite step_div_eq by lia. cbv beta iota.
    assert (Sv : zsset (sof_list zcmp v)) by apply (sof_list_sset zcmp zcmp_good).
    assert (W1 : wf s1) by (apply pcset_wf; auto).
    assert (V1 : forall p, field s p -> cand s1 p = if pos (NN s) p =? i then sof_list zcmp v else cand s p).
    { intros p Hp. unfold s1. rewrite cand_pcset by auto. destruct (pos_div s p Hp) as [D1 D2].
      destruct (pos (NN s) p =? i) eqn:E; b2p.
      - subst i. rewrite D1, D2. rewrite <- surjective_pairing, coord_eqb_refl; auto.
      - match goal with |- context [coord_eqb ?a ?b] => destruct (coord_eqb a b) eqn:E2 end; auto. apply coord_eqb_eq in E2.
        exfalso; apply E. subst p. unfold pos; cbn [fst snd]. pose proof (Z.div_mod i (NN s) ltac:(lia)). lia. }
    assert (Q : NN s * ((i + 1) / NN s) <= i + 1 < NN s * ((i + 1) / NN s + 1)).
    { pose proof (Z.div_mod (i + 1) (NN s) ltac:(lia)). pose proof (Z.mod_pos_bound (i + 1) (NN s)). nia. }
    destruct ((i + 1) / NN s =? NN s) eqn:E; b2p.
    + exists s1. splits; auto. intros p Hp. split; [apply num_pcset|]. cbv zeta. rewrite V1 by auto.
      pose proof (pos_bound s p Hp).
      assert (py_len items = 0) by nia. rewrite Ln.
      destruct (pos (NN s) p =? i) eqn:E2; b2p.
      * rewrite E2. replace (i <=? i) with true by (symmetry; apply Z.leb_le; lia).
        replace (i <? i + (1 + py_len items)) with true by (symmetry; apply Z.ltb_lt; lia).
        cbn [andb]. replace (Z.to_nat (i - i)) with 0%nat by lia. reflexivity.
      * destruct (_ && _) eqn:E3; auto; b2p. lia.
    + destruct (IH vs' s1 (i + 1) W1 ltac:(lia) F2) as [t [T1 [T2 [T3 [T4 T5]]]]].
      { intros _. change (NN s1) with (NN s). lia. }
      change (NN s1) with (NN s) in *. exists t. splits; auto. intros p Hp.
      destruct (T5 p ltac:(apply pcset_field; auto)) as [T6 T7]. split; [rewrite T6; apply num_pcset|].
      rewrite T7. cbv zeta. rewrite V1 by auto. rewrite Ln.
      destruct (pos (NN s) p =? i) eqn:E2; b2p.
      * rewrite E2. replace (i + 1 <=? i) with false by (symmetry; apply Z.leb_gt; lia). cbn [andb].
        replace (i <=? i) with true by (symmetry; apply Z.leb_le; lia).
        replace (i <? i + (1 + py_len items)) with true by (symmetry; apply Z.ltb_lt; lia).
        cbn [andb]. replace (Z.to_nat (i - i)) with 0%nat by lia. reflexivity.
      * replace (i + 1 + py_len items) with (i + (1 + py_len items)) by lia.
        destruct (i + 1 <=? pos (NN s) p) eqn:E3; b2p.
        -- replace (i <=? pos (NN s) p) with true by (symmetry; apply Z.leb_le; lia).
           destruct (pos (NN s) p <? i + (1 + py_len items)); cbn [andb]; auto.
           replace (Z.to_nat (pos (NN s) p - i)) with (S (Z.to_nat (pos (NN s) p - (i + 1)))) by lia. reflexivity.
        -- replace (i <=? pos (NN s) p) with false by (symmetry; apply Z.leb_gt; lia). reflexivity.
Qed.

(** * encode *)
Lemma map_list_prod : forall {A B C} (f : A * B -> C) (l : list A) (m : list B),
  map f (list_prod l m) = concat (map (fun a => map (fun b => f (a, b)) m) l).
Proof.
  intros A B C f l m; induction l as [|x l IH]; auto. cbn [list_prod map concat].
  rewrite map_app, map_map, IH. reflexivity.
Qed.

Lemma in_indices : forall s i, In i (indices s) <-> 0 <= i < NN s.
Proof. intros s i; unfold indices. apply in_py_range. Qed.

Lemma encode_rows : forall s cs, wf s ->
  mapM (fun row =>
       let* nums := mapM (fun col => let* v := getitem s row col in Ok (str_of_int v)) (indices s) in
       Ok (join cs nums)) (indices s)
  = Ok (map (fun r => join cs (map (fun c => str_of_int (num s (r, c))) (indices s))) (indices s)).
Proof.
  intros s cs Hw. apply mapM_ok. intros r Hr.
  rewrite (mapM_ok _ (fun c => str_of_int (num s (r, c)))).
  - reflexivity.
  - intros c Hc. rewrite getitem_ok; auto. apply in_indices in Hr, Hc. apply field_cell; auto.
Qed.

Lemma indices_nonempty : forall s, wf s -> indices s <> [].
Proof.
  intros s Hw E. pose proof (NN_pos s Hw). assert (In 0 (indices s)) by (apply in_indices; lia).
  rewrite E in *; auto.
Qed.

Lemma coords_nonempty : forall s, wf s -> coords s <> [].
Proof.
  intros s Hw E. pose proof (NN_pos s Hw).
  assert (In (0, 0) (coords s)) by (apply in_coords, field_cell; cbn; lia). rewrite E in *; auto.
Qed.

Lemma encode_same_sep : forall s x, wf s ->
  encode s x x false = Ok (join x (map (fun p => str_of_int (num s p)) (coords s))).
Proof.
  intros s x Hw. unfold encode. rewrite (encode_rows s x Hw). cbn [rbind]. f_equal.
  rewrite <- (map_map (fun r => map (fun c => str_of_int (num s (r, c))) (indices s)) (join x)).
  rewrite join_join.
  - unfold coords. rewrite (map_list_prod (fun p => str_of_int (num s p))). reflexivity.
  - intros l Hl. apply in_map_iff in Hl. destruct Hl as [r [<- _]].
    pose proof (indices_nonempty s Hw). destruct (indices s); [congruence|discriminate].
Qed.

Lemma encode_cands : forall s x, wf s ->
  encode s x x true = Ok (join x (map (fun p => str_of_int (num s p)) (coords s)) ++ lit "|" ++
                          join (lit ",") (map (fun p => concat (map str_of_int (cand s p))) (coords s))).
Proof.
  intros s x Hw. pose proof (encode_same_sep s x Hw) as E. unfold encode in *.
  rewrite (encode_rows s x Hw) in *. cbn [rbind] in *. injection E as E. rewrite E.
  rewrite (mapM_ok _ (fun p => concat (map str_of_int (cand s p)))); [reflexivity|].
  intros [r c] Hp. apply in_coords in Hp. cbn [fst snd]. rewrite get_candidates_ok; auto.
Qed.
