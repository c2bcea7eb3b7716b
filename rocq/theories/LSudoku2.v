(** Proofs of the properties of the Sudoku class (C01-C08). *)
From Verif Require Export LSudoku.

(** * Negative indices *)
Lemma py_idx_mod : forall n i, - Z.of_nat n <= i < Z.of_nat n ->
  py_idx n i = Ok (Z.to_nat (i mod Z.of_nat n)).
Proof.
  intros n i H; unfold py_idx.
  destruct (0 <=? i) eqn:E1; b2p.
  - replace (i <? Z.of_nat n) with true by (symmetry; apply Z.ltb_lt; lia). simpl.
    rewrite Z.mod_small by lia; auto.
  - simpl. replace (- Z.of_nat n <=? i) with true by (symmetry; apply Z.leb_le; lia).
    replace (i <? 0) with true by (symmetry; apply Z.ltb_lt; lia). simpl.
    rewrite <- (Z.mod_small (i + Z.of_nat n) (Z.of_nat n)) by lia.
    rewrite <- (Z_mod_plus_full i 1 (Z.of_nat n)). do 3 f_equal; lia.
Qed.

Lemma list_get_mod : forall {A} (l : list A) i, - py_len l <= i < py_len l ->
  list_get l i = list_get l (i mod py_len l).
Proof.
  intros A l i H; unfold list_get, py_len in *. rewrite py_idx_mod by lia.
  rewrite py_idx_ok; auto. apply Z.mod_pos_bound; lia.
Qed.

Lemma list_set_mod : forall {A} (l : list A) i v, - py_len l <= i < py_len l ->
  list_set l i v = list_set l (i mod py_len l) v.
Proof.
  intros A l i v H; unfold list_set, py_len in *. rewrite py_idx_mod by lia.
  rewrite py_idx_ok; auto. apply Z.mod_pos_bound; lia.
Qed.

Section Access.
Variable s : sudoku.
Hypothesis W : wf s.
Let N := NN s.

Lemma Npos : 1 <= N. Proof. apply NN_pos; auto. Qed.
Lemma len_nums : py_len (s_numbers s) = N.
Proof. unfold py_len; rewrite (wf_nrows _ W). pose proof Npos; lia. Qed.
Lemma len_cands : py_len (s_candidates s) = N.
Proof. unfold py_len; rewrite (wf_crows _ W). pose proof Npos; lia. Qed.

Lemma place_field : forall r c, field s (r mod N, c mod N).
Proof. intros; pose proof Npos; split; simpl; apply Z.mod_pos_bound; lia. Qed.

Lemma field_valid : forall r c, field s (r, c) ->
  valid_index s r /\ valid_index s c /\ r mod N = r /\ c mod N = c.
Proof.
  intros r c [H1 H2]; unfold valid_index; simpl in *; fold N in H1, H2 |- *.
  rewrite !Z.mod_small by lia. lia.
Qed.

Lemma row_get : forall {A} (m : list (list A)) r, py_len m = N ->
  (forall row, In row m -> length row = Z.to_nat N) -> valid_index s r ->
  exists row, list_get m r = Ok row /\ list_get m (r mod N) = Ok row /\ py_len row = N.
Proof.
  intros A m r L R V. unfold valid_index in V; fold N in V.
  pose proof Npos. pose proof (Z.mod_pos_bound r N ltac:(lia)).
  rewrite (list_get_mod m r) by lia. rewrite L.
  rewrite (list_get_ok m (r mod N) []) by lia.
  eexists; splits; auto. unfold py_len. rewrite R; [lia|]. apply nth_In. unfold py_len in L; lia.
Qed.

Lemma getitem_mod : forall r c, valid_index s r -> valid_index s c ->
  getitem s r c = Ok (num s (r mod N, c mod N)).
Proof.
  intros r c Vr Vc. rewrite <- getitem_ok by (auto using place_field).
  unfold getitem. destruct (row_get _ r len_nums (wf_nrow _ W) Vr) as [row [E1 [E2 L]]].
  rewrite E1, E2; simpl. rewrite list_get_mod, L; auto. rewrite L; exact Vc.
Qed.

Lemma getitem_err : forall r c, ~ (valid_index s r /\ valid_index s c) ->
  getitem s r c = Err IndexError.
Proof.
  intros r c H. unfold getitem.
  assert (D : valid_index s r \/ ~ valid_index s r) by (unfold valid_index; lia).
  destruct D as [Vr|Vr].
  - destruct (row_get _ r len_nums (wf_nrow _ W) Vr) as [row [E1 [E2 L]]].
    rewrite E1; simpl. apply list_get_err. rewrite L; intros V; apply H; split; auto.
  - rewrite list_get_err; auto. rewrite len_nums; auto.
Qed.

Lemma get_candidates_mod : forall r c, valid_index s r -> valid_index s c ->
  get_candidates s r c = Ok (cand s (r mod N, c mod N)).
Proof.
  intros r c Vr Vc. rewrite <- get_candidates_ok by (auto using place_field).
  unfold get_candidates. destruct (row_get _ r len_cands (wf_crow _ W) Vr) as [row [E1 [E2 L]]].
  rewrite E1, E2; simpl. rewrite list_get_mod, L; auto. rewrite L; exact Vc.
Qed.

Lemma get_candidates_err : forall r c, ~ (valid_index s r /\ valid_index s c) ->
  get_candidates s r c = Err IndexError.
Proof.
  intros r c H. unfold get_candidates.
  assert (D : valid_index s r \/ ~ valid_index s r) by (unfold valid_index; lia).
  destruct D as [Vr|Vr].
  - destruct (row_get _ r len_cands (wf_crow _ W) Vr) as [row [E1 [E2 L]]].
    rewrite E1; simpl. apply list_get_err. rewrite L; intros V; apply H; split; auto.
  - rewrite list_get_err; auto. rewrite len_cands; auto.
Qed.

Lemma setitem_mod : forall r c v, valid_index s r -> valid_index s c ->
  setitem s r c v = Ok (pset s (r mod N, c mod N) v).
Proof.
  intros r c v Vr Vc. rewrite <- setitem_ok by (auto using place_field).
  unfold setitem. destruct (row_get _ r len_nums (wf_nrow _ W) Vr) as [row [E1 [E2 L]]].
  rewrite E1, E2; simpl. rewrite (list_set_mod row), L; [|rewrite L; exact Vc].
  destruct (list_set row (c mod N) v); simpl; auto.
  rewrite (list_set_mod (s_numbers s)), len_nums; [auto|rewrite len_nums; exact Vr].
Qed.

Lemma list_set_err : forall {A} (l : list A) i v, ~ (- py_len l <= i < py_len l) ->
  list_set l i v = Err IndexError.
Proof. intros A l i v H; unfold list_set; rewrite py_idx_err; auto. Qed.

Lemma setitem_err : forall r c v, ~ (valid_index s r /\ valid_index s c) ->
  setitem s r c v = Err IndexError.
Proof.
  intros r c v H. unfold setitem.
  assert (D : valid_index s r \/ ~ valid_index s r) by (unfold valid_index; lia).
  destruct D as [Vr|Vr].
  - destruct (row_get _ r len_nums (wf_nrow _ W) Vr) as [row [E1 [E2 L]]].
    rewrite E1; simpl. rewrite list_set_err; auto. rewrite L; intros V; apply H; split; auto.
  - rewrite list_get_err; auto. rewrite len_nums; auto.
Qed.

Lemma set_candidates_mod : forall r c v, valid_index s r -> valid_index s c ->
  set_candidates s r c v = Ok (pcset s (r mod N, c mod N) (sof_list zcmp v)).
Proof.
  intros r c v Vr Vc. rewrite <- set_candidates_ok by (auto using place_field).
  unfold set_candidates. destruct (row_get _ r len_cands (wf_crow _ W) Vr) as [row [E1 [E2 L]]].
  rewrite E1, E2; simpl. rewrite (list_set_mod row), L; [|rewrite L; exact Vc].
  destruct (list_set row (c mod N) _); simpl; auto.
  rewrite (list_set_mod (s_candidates s)), len_cands; [auto|rewrite len_cands; exact Vr].
Qed.

Lemma set_candidates_err : forall r c v, ~ (valid_index s r /\ valid_index s c) ->
  set_candidates s r c v = Err IndexError.
Proof.
  intros r c v H. unfold set_candidates.
  assert (D : valid_index s r \/ ~ valid_index s r) by (unfold valid_index; lia).
  destruct D as [Vr|Vr].
  - destruct (row_get _ r len_cands (wf_crow _ W) Vr) as [row [E1 [E2 L]]].
    rewrite E1; simpl. rewrite list_set_err; auto. rewrite L; intros V; apply H; split; auto.
  - rewrite list_get_err; auto. rewrite len_cands; auto.
Qed.

Lemma remove_candidates_mod : forall r c v, valid_index s r -> valid_index s c ->
  remove_candidates s r c v =
  Ok (pcset s (r mod N, c mod N)
        (sdiff zcmp (cand s (r mod N, c mod N)) (sof_list zcmp v))).
Proof.
  intros r c v Vr Vc. rewrite <- remove_candidates_ok by (auto using place_field).
  unfold remove_candidates. destruct (row_get _ r len_cands (wf_crow _ W) Vr) as [row [E1 [E2 L]]].
  rewrite E1, E2; simpl. rewrite (list_get_mod row), L; [|rewrite L; exact Vc].
  destruct (list_get row (c mod N)); simpl; auto.
  rewrite (list_set_mod row), L; [|rewrite L; exact Vc].
  destruct (list_set row (c mod N) _); simpl; auto.
  rewrite (list_set_mod (s_candidates s)), len_cands; [auto|rewrite len_cands; exact Vr].
Qed.

Lemma remove_candidates_err : forall r c v, ~ (valid_index s r /\ valid_index s c) ->
  remove_candidates s r c v = Err IndexError.
Proof.
  intros r c v H. unfold remove_candidates.
  assert (D : valid_index s r \/ ~ valid_index s r) by (unfold valid_index; lia).
  destruct D as [Vr|Vr].
  - destruct (row_get _ r len_cands (wf_crow _ W) Vr) as [row [E1 [E2 L]]].
    rewrite E1; simpl. rewrite list_get_err; auto. rewrite L; intros V; apply H; split; auto.
  - rewrite list_get_err; auto. rewrite len_cands; auto.
Qed.
End Access.

Lemma place_eqb : forall s r c r' c',
  coord_eqb (r' mod NN s, c' mod NN s) (r mod NN s, c mod NN s) = true <-> same_place s r c r' c'.
Proof.
  intros; rewrite coord_eqb_eq; unfold same_place; split; [intros E; inv E; auto | intros [-> ->]; auto].
Qed.

Lemma sdiff_zsset : forall a b, zsset a -> zsset (sdiff zcmp a b).
Proof. intros; apply sdiff_sset; auto. Qed.

Lemma C01_proof : forall s r c v, wf s ->
  (valid_index s r /\ valid_index s c ->
   exists s', setitem s r c v = Ok s' /\
     getitem s' r c = Ok v /\
     box_width s' = box_width s /\ box_height s' = box_height s /\
     (forall r' c', ~ same_place s r c r' c' -> getitem s' r' c' = getitem s r' c') /\
     (forall r' c', get_candidates s' r' c' = get_candidates s r' c')) /\
  (~ (valid_index s r /\ valid_index s c) ->
   setitem s r c v = Err IndexError /\ getitem s r c = Err IndexError).
Proof.
  intros s r c v W; split.
  - intros [Vr Vc]. exists (pset s (r mod NN s, c mod NN s) v).
    pose proof (place_field s W r c) as F.
    pose proof (pset_wf s _ v W F) as W'.
    split; [apply setitem_mod; auto|]. split.
    { rewrite getitem_mod by auto. f_equal. rewrite num_pset by auto.
      cbn [box_width box_height pset]. rewrite coord_eqb_refl; auto. }
    split; auto. split; auto. split; [|reflexivity].
    intros r' c' H.
    assert (D : (valid_index s r' /\ valid_index s c') \/ ~ (valid_index s r' /\ valid_index s c'))
      by (unfold valid_index; lia).
    destruct D as [[V1 V2]|D].
    + rewrite !getitem_mod by auto. cbn [box_width box_height pset]. f_equal.
      rewrite num_pset by (auto using place_field).
      destruct (coord_eqb _ _) eqn:E; auto. apply place_eqb in E; contradiction.
    + rewrite !getitem_err; auto.
  - intros H; split; [apply setitem_err | apply getitem_err]; auto.
Qed.

Lemma C02_proof : forall s r c vs, wf s ->
  (valid_index s r /\ valid_index s c ->
   exists s1 s2 c0 c1 c2,
     get_candidates s r c = Ok c0 /\
     set_candidates s r c vs = Ok s1 /\ get_candidates s1 r c = Ok c1 /\
     (forall x, In x c1 <-> In x vs) /\ StronglySorted Z.lt c1 /\
     remove_candidates s r c vs = Ok s2 /\ get_candidates s2 r c = Ok c2 /\
     (forall x, In x c2 <-> In x c0 /\ ~ In x vs) /\ StronglySorted Z.lt c2 /\
     (forall s', s' = s1 \/ s' = s2 ->
        box_width s' = box_width s /\ box_height s' = box_height s /\
        (forall r' c', ~ same_place s r c r' c' -> get_candidates s' r' c' = get_candidates s r' c') /\
        (forall r' c', getitem s' r' c' = getitem s r' c'))) /\
  (~ (valid_index s r /\ valid_index s c) ->
   set_candidates s r c vs = Err IndexError /\ remove_candidates s r c vs = Err IndexError /\
   get_candidates s r c = Err IndexError).
Proof.
  intros s r c vs W; split.
  - intros [Vr Vc]. pose proof (place_field s W r c) as F.
    set (p := (r mod NN s, c mod NN s)) in *.
    assert (S1 : zsset (sof_list zcmp vs)) by (apply sof_list_sset, zcmp_good).
    assert (S2 : zsset (sdiff zcmp (cand s p) (sof_list zcmp vs)))
      by (apply sdiff_zsset, cand_sset; auto).
    assert (G : forall u, zsset u -> get_candidates (pcset s p u) r c = Ok u).
    { intros u Hu. rewrite get_candidates_mod by (auto using pcset_wf).
      change (NN (pcset s p u)) with (NN s). fold p.
      f_equal. rewrite cand_pcset by auto. rewrite coord_eqb_refl; auto. }
    exists (pcset s p (sof_list zcmp vs)), (pcset s p (sdiff zcmp (cand s p) (sof_list zcmp vs))).
    exists (cand s p), (sof_list zcmp vs), (sdiff zcmp (cand s p) (sof_list zcmp vs)).
    split; [apply get_candidates_mod; auto|].
    split; [apply set_candidates_mod; auto|].
    split; [apply G; auto|].
    split; [intros; apply In_sof_list, zcmp_good|].
    split; [exact S1|].
    split; [apply remove_candidates_mod; auto|].
    split; [apply G; auto|].
    split; [intros; rewrite (In_sdiff _ zcmp_good), (In_sof_list _ zcmp_good); tauto|].
    split; [exact S2|].
    assert (Fr : forall u, zsset u ->
      box_width (pcset s p u) = box_width s /\ box_height (pcset s p u) = box_height s /\
      (forall r' c', ~ same_place s r c r' c' -> get_candidates (pcset s p u) r' c' = get_candidates s r' c') /\
      (forall r' c', getitem (pcset s p u) r' c' = getitem s r' c')).
    { intros u Hu. split; auto. split; auto. split; [|reflexivity].
      intros r' c' H.
      assert (D : (valid_index s r' /\ valid_index s c') \/ ~ (valid_index s r' /\ valid_index s c'))
        by (unfold valid_index; lia).
      destruct D as [[V1 V2]|D].
      + rewrite !get_candidates_mod by (auto using pcset_wf).
        change (NN (pcset s p u)) with (NN s). f_equal.
        rewrite cand_pcset by (auto using place_field).
        destruct (coord_eqb _ _) eqn:E; auto. apply place_eqb in E; contradiction.
      + rewrite !get_candidates_err; auto using pcset_wf. }
    intros s' [->| ->]; apply Fr; auto.
  - intros H. split; [apply set_candidates_err; auto|].
    split; [apply remove_candidates_err | apply get_candidates_err]; auto.
Qed.

Lemma do_write_wf : forall s o, wf s ->
  wf (do_write s o) /\ box_width (do_write s o) = box_width s /\
  box_height (do_write s o) = box_height s.
Proof.
  intros s o W. unfold do_write, write_res.
  assert (D : forall r c, (valid_index s r /\ valid_index s c) \/ ~ (valid_index s r /\ valid_index s c))
      by (unfold valid_index; lia).
  destruct o as [r c v|r c vs|r c vs]; destruct (D r c) as [[V1 V2]|V].
  - rewrite setitem_mod by auto. split; [|auto]. apply pset_wf; auto using place_field.
  - rewrite setitem_err by auto. auto.
  - rewrite set_candidates_mod by auto. split; [|auto].
    apply pcset_wf; auto using place_field. apply sof_list_sset, zcmp_good.
  - rewrite set_candidates_err by auto. auto.
  - rewrite remove_candidates_mod by auto. split; [|auto].
    apply pcset_wf; auto using place_field. apply sdiff_zsset, cand_sset; auto using place_field.
  - rewrite remove_candidates_err by auto. auto.
Qed.

Lemma C03_new_proof : forall w h, 1 <= w -> 1 <= h ->
  wf (new_sudoku (w, h)) /\ box_size (new_sudoku (w, h)) = (w, h) /\
  sudoku_len (new_sudoku (w, h)) = w ^ 2 * h ^ 2 /\
  (forall r c, cell w h (r, c) ->
     getitem (new_sudoku (w, h)) r c = Ok 0 /\ get_candidates (new_sudoku (w, h)) r c = Ok []).
Proof.
  intros w h Hw Hh. pose proof (new_sudoku_wf w h Hw Hh) as W.
  split; auto. split; auto. split; auto.
  intros r c F. rewrite getitem_ok, get_candidates_ok by auto.
  rewrite num_new, cand_new by auto; auto.
Qed.

Lemma C03_history_proof : forall w h (ops : list write), 1 <= w -> 1 <= h ->
  let s := fold_left do_write ops (new_sudoku (w, h)) in
  wf s /\ box_size s = (w, h) /\
  (forall r c, (exists v, getitem s r c = Ok v) <-> valid_index s r /\ valid_index s c).
Proof.
  intros w h ops Hw Hh. cbv zeta.
  assert (G : forall ops s, wf s -> box_size s = (w, h) ->
     wf (fold_left do_write ops s) /\ box_size (fold_left do_write ops s) = (w, h)).
  { clear ops. induction ops as [|o ops IH]; intros s W B; simpl; auto.
    destruct (do_write_wf s o W) as [W' [E1 E2]]. apply IH; auto.
    unfold box_size in *; rewrite E1, E2; auto. }
  destruct (G ops (new_sudoku (w, h))) as [W B]; [apply new_sudoku_wf; auto | auto |].
  split; auto. split; auto. intros r c; split.
  - intros [v H]. destruct (Z_le_dec 0 0); [|lia].
    assert (D : (valid_index (fold_left do_write ops (new_sudoku (w, h))) r /\ valid_index (fold_left do_write ops (new_sudoku (w, h))) c) \/ ~ (valid_index (fold_left do_write ops (new_sudoku (w, h))) r /\ valid_index (fold_left do_write ops (new_sudoku (w, h))) c))
      by (unfold valid_index; lia).
    destruct D as [D|D]; auto. rewrite getitem_err in H; auto. discriminate.
  - intros [V1 V2]. eexists; apply getitem_mod; auto.
Qed.

(** * copy *)
Lemma foldM_copy_nums : forall s t l, wf s -> wf t ->
  box_width t = box_width s -> box_height t = box_height s ->
  (forall p, In p l -> field s p) ->
  exists t', foldM (fun new rc => let* v := getitem s (fst rc) (snd rc) in
                                  setitem new (fst rc) (snd rc) v) l t = Ok t' /\
    wf t' /\ box_width t' = box_width s /\ box_height t' = box_height s /\
    (forall p, cand t' p = cand t p) /\
    (forall p, field s p -> num t' p = if existsb (coord_eqb p) l then num s p else num t p).
Proof.
  intros s t l Ws Wt Ew Eh Hl.
  apply (foldM_ind _ (fun pre t' => wf t' /\ box_width t' = box_width s /\ box_height t' = box_height s /\
    (forall p, cand t' p = cand t p) /\
    (forall p, field s p -> num t' p = if existsb (coord_eqb p) pre then num s p else num t p))).
  - simpl; auto.
  - intros pre x post t' Hx [W' [Ew' [Eh' [Hc Hn]]]].
    assert (Fx : field s x) by (apply Hl; rewrite Hx; apply in_or_app; simpl; auto).
    assert (Fx' : field t' x) by (unfold field; rewrite Ew', Eh'; auto).
    destruct x as [r c]; simpl.
    rewrite getitem_ok by auto. simpl. rewrite setitem_ok by auto.
    eexists; split; eauto. split; [apply pset_wf; auto|].
    do 2 (split; [auto|]). split; [intros; rewrite cand_pset; auto|].
    intros p Fp. rewrite num_pset; auto; [|unfold field; rewrite Ew', Eh'; auto].
    rewrite existsb_app; simpl. destruct (coord_eqb p (r, c)) eqn:E.
    + apply coord_eqb_eq in E; subst. simpl; rewrite orb_true_r; auto.
    + simpl; rewrite orb_false_r. apply Hn; auto.
Qed.

Lemma foldM_copy_cands : forall s t l, wf s -> wf t ->
  box_width t = box_width s -> box_height t = box_height s ->
  (forall p, In p l -> field s p) ->
  exists t', foldM (fun new rc => let* v := get_candidates s (fst rc) (snd rc) in
                                  set_candidates new (fst rc) (snd rc) v) l t = Ok t' /\
    wf t' /\ box_width t' = box_width s /\ box_height t' = box_height s /\
    (forall p, num t' p = num t p) /\
    (forall p, field s p -> cand t' p = if existsb (coord_eqb p) l then cand s p else cand t p).
Proof.
  intros s t l Ws Wt Ew Eh Hl.
  apply (foldM_ind _ (fun pre t' => wf t' /\ box_width t' = box_width s /\ box_height t' = box_height s /\
    (forall p, num t' p = num t p) /\
    (forall p, field s p -> cand t' p = if existsb (coord_eqb p) pre then cand s p else cand t p))).
  - simpl; auto.
  - intros pre x post t' Hx [W' [Ew' [Eh' [Hc Hn]]]].
    assert (Fx : field s x) by (apply Hl; rewrite Hx; apply in_or_app; simpl; auto).
    assert (Fx' : field t' x) by (unfold field; rewrite Ew', Eh'; auto).
    destruct x as [r c]; simpl.
    rewrite get_candidates_ok by auto. simpl. rewrite set_candidates_ok by auto.
    pose proof (cand_sset s (r, c) Ws Fx) as Hs.
    rewrite (sof_list_id _ zcmp_good) by apply Hs.
    eexists; split; eauto. split; [apply pcset_wf; auto|].
    do 2 (split; [auto|]). split; [intros; rewrite num_pcset; auto|].
    intros p Fp. rewrite cand_pcset; auto; [|unfold field; rewrite Ew', Eh'; auto].
    rewrite existsb_app; simpl. destruct (coord_eqb p (r, c)) eqn:E.
    + apply coord_eqb_eq in E; subst. simpl; rewrite orb_true_r; auto.
    + simpl; rewrite orb_false_r. apply Hn; auto.
Qed.

Lemma existsb_coords : forall s p, field s p -> existsb (coord_eqb p) (coords s) = true.
Proof.
  intros s p F; apply existsb_exists; exists p; split; [apply in_coords; auto | apply coord_eqb_refl].
Qed.

(** The result of copy as a fact about observations. *)
Lemma copy_ok : forall s b, wf s ->
  exists t, copy s b = Ok t /\ wf t /\ box_width t = box_width s /\ box_height t = box_height s /\
    (forall p, field s p -> num t p = num s p) /\
    (forall p, field s p -> cand t p = if b then cand s p else []).
Proof.
  intros s b W. unfold copy.
  pose proof (new_sudoku_wf (box_width s) (box_height s) (wf_w _ W) (wf_h _ W)) as Wn.
  destruct (foldM_copy_nums s (new_sudoku (box_size s)) (coords s)) as [t [E [Wt [Ew [Eh [Hc Hn]]]]]]; auto.
  { intros; apply in_coords; auto. }
  cbv zeta. rewrite E; simpl.
  assert (Hn' : forall p, field s p -> num t p = num s p).
  { intros p F; rewrite Hn, existsb_coords; auto. }
  assert (Hc' : forall p, field s p -> cand t p = []).
  { intros p F; rewrite Hc. apply cand_new; auto; apply W. }
  destruct b.
  - destruct (foldM_copy_cands s t (coords s)) as [t' [E' [Wt' [Ew' [Eh' [Hn1 Hc1]]]]]]; auto.
    { intros; apply in_coords; auto. }
    rewrite E'. exists t'; splits; auto.
    + intros p F; rewrite Hn1; auto.
    + intros p F; rewrite Hc1, existsb_coords; auto.
  - exists t; splits; auto.
Qed.

(** copy(include_candidates=True) is structurally the same sudoku. *)
Lemma copy_true : forall s, wf s -> copy s true = Ok s.
Proof.
  intros s W. destruct (copy_ok s true W) as [t [E [Wt [Ew [Eh [Hn Hc]]]]]].
  rewrite E; f_equal. apply sudoku_ext; auto.
  - unfold field; rewrite Ew, Eh; intros; apply Hn; auto.
  - unfold field; rewrite Ew, Eh; intros; apply Hc; auto.
Qed.

Lemma C04_proof : forall s, wf s ->
  exists t t', copy s false = Ok t /\ copy s true = Ok t' /\
    wf t /\ wf t' /\
    box_size t = box_size s /\ box_size t' = box_size s /\
    (forall r c, field s (r, c) ->
       getitem t r c = getitem s r c /\ getitem t' r c = getitem s r c /\
       get_candidates t r c = Ok [] /\ get_candidates t' r c = get_candidates s r c).
Proof.
  intros s W.
  destruct (copy_ok s false W) as [t [E [Wt [Ew [Eh [Hn Hc]]]]]].
  destruct (copy_ok s true W) as [t' [E' [Wt' [Ew' [Eh' [Hn' Hc']]]]]].
  exists t, t'. splits; auto.
  - unfold box_size; congruence.
  - unfold box_size; congruence.
  - intros r c F.
    assert (field t (r, c)) by (unfold field; rewrite Ew, Eh; auto).
    assert (field t' (r, c)) by (unfold field; rewrite Ew', Eh'; auto).
    rewrite !getitem_ok, !get_candidates_ok by auto.
    rewrite Hn, Hn', Hc, Hc' by auto. auto.
Qed.

(** * Traversals *)
Lemma flat_map_filter : forall {A} (f : A -> bool) l,
  flat_map (fun x => if f x then [x] else []) l = filter f l.
Proof. intros A f l; induction l as [|x l IH]; simpl; auto. destruct (f x); simpl; rewrite IH; auto. Qed.

Lemma empty_list : forall s, wf s ->
  gresult (empty s) s = Ok s /\
  gyields (empty s) s = filter (fun p => num s p =? 0) (coords s).
Proof.
  intros s W; unfold empty. rewrite <- flat_map_filter. apply gfor_yields.
  intros [r c] Hin. apply in_coords in Hin. simpl. rewrite getitem_ok by auto. simpl.
  destruct (num s (r, c) =? 0); simpl; auto.
Qed.

Lemma filled_list : forall s, wf s ->
  gresult (filled s) s = Ok s /\
  gyields (filled s) s = filter (fun p => negb (num s p =? 0)) (coords s).
Proof.
  intros s W; unfold filled. rewrite <- flat_map_filter. apply gfor_yields.
  intros [r c] Hin. apply in_coords in Hin. simpl. rewrite getitem_ok by auto. simpl.
  destruct (num s (r, c) =? 0); simpl; auto.
Qed.

Lemma glist_empty : forall s, wf s ->
  glist (empty s) s = Ok (filter (fun p => num s p =? 0) (coords s)).
Proof. intros s W; unfold glist; destruct (empty_list s W) as [-> ->]; auto. Qed.

Lemma glist_filled : forall s, wf s ->
  glist (filled s) s = Ok (filter (fun p => negb (num s p =? 0)) (coords s)).
Proof. intros s W; unfold glist; destruct (filled_list s W) as [-> ->]; auto. Qed.

Lemma glist_diff : forall s t, wf s -> wf t -> (forall p, field s p -> field t p) ->
  glist (diff s t) s = Ok (filter (fun p => negb (num s p =? num t p)) (coords s)).
Proof.
  intros s t W Wt Hf.
  assert (G : gresult (diff s t) s = Ok s /\
    gyields (diff s t) s = filter (fun p => negb (num s p =? num t p)) (coords s)).
  { unfold diff. rewrite <- flat_map_filter. apply gfor_yields.
    intros [r c] Hin. apply in_coords in Hin. simpl. rewrite !getitem_ok by auto. simpl.
    destruct (num s (r, c) =? num t (r, c)); simpl; auto. }
  unfold glist; destruct G as [-> ->]; auto.
Qed.

Lemma lex_sorted_prod : forall n m : list Z, StronglySorted Z.lt n -> StronglySorted Z.lt m ->
  StronglySorted lex_lt (list_prod n m).
Proof.
  intros n m Hn Hm; induction n as [|a n IH]; simpl; [constructor|].
  inv Hn. specialize (IH H1).
  assert (G : forall l, StronglySorted Z.lt l ->
     StronglySorted lex_lt (map (fun y : Z => (a, y)) l ++ list_prod n m)).
  { induction l as [|b l IHl]; intros Hl; simpl; auto. inv Hl. constructor; auto.
    rewrite Forall_forall in *. intros [x y] Hin. apply in_app_iff in Hin; destruct Hin as [Hin|Hin].
    - apply in_map_iff in Hin; destruct Hin as [z [E Hz]]; inv E. right; simpl; split; auto.
    - apply in_prod_iff in Hin; destruct Hin as [Hx Hy]. left; simpl; auto. }
  apply G; auto.
Qed.

Lemma py_range_sorted : forall n, StronglySorted Z.lt (py_range n).
Proof.
  intros n; unfold py_range. generalize 0%nat; induction (Z.to_nat n) as [|k IH]; intros i; simpl;
  constructor; auto.
  rewrite Forall_forall; intros x Hx. apply in_map_iff in Hx; destruct Hx as [j [<- Hj]].
  apply in_seq in Hj; lia.
Qed.

Lemma coords_sorted : forall s, StronglySorted lex_lt (coords s).
Proof. intros; apply lex_sorted_prod; apply py_range_sorted. Qed.

Lemma filter_sorted : forall {A} (R : A -> A -> Prop) f l,
  StronglySorted R l -> StronglySorted R (filter f l).
Proof.
  intros A R f l; induction l as [|x l IH]; intros H; simpl; [constructor|].
  inv H. destruct (f x); auto. constructor; auto.
  rewrite Forall_forall in *; intros y Hy; apply filter_In in Hy; apply H3; tauto.
Qed.

Lemma C08_proof : forall s, wf s ->
  exists e f n, glist (empty s) s = Ok e /\ glist (filled s) s = Ok f /\ count s = Ok n /\
    StronglySorted lex_lt e /\ StronglySorted lex_lt f /\
    (forall p, In p e <-> field s p /\ num s p = 0) /\
    (forall p, In p f <-> field s p /\ num s p <> 0) /\
    n = Z.of_nat (length f) /\
    Z.of_nat (length e) + n = sudoku_len s.
Proof.
  intros s W. exists (filter (fun p => num s p =? 0) (coords s)),
    (filter (fun p => negb (num s p =? 0)) (coords s)).
  eexists. unfold count. rewrite glist_empty, glist_filled by auto. simpl.
  splits; auto; try (apply filter_sorted, coords_sorted).
  - intros p. rewrite filter_In, in_coords, Z.eqb_eq; tauto.
  - intros p. rewrite filter_In, in_coords, negb_true_iff, Z.eqb_neq; tauto.
  - unfold py_len. rewrite <- Nat2Z.inj_add.
    assert (G : forall l, (length (filter (fun p => num s p =? 0)%Z l)
             + length (filter (fun p => negb (num s p =? 0)%Z) l) = length l)%nat).
    { induction l as [|x l IH]; simpl; auto. destruct (num s x =? 0); simpl; lia. }
    rewrite G, length_coords. unfold sudoku_len. pose proof (NN_pos s W). nia.
Qed.

(** * Comparison *)
Lemma eq_loop_ok : forall s t l, wf s -> wf t ->
  (forall p, In p l -> field s p /\ field t p) ->
  eq_loop s (fun r c => let* v := getitem t r c in Ok (Some v)) l = Ok (forallb (fun p => num s p =? num t p) l).
Proof.
  intros s t l Ws Wt; induction l as [|[r c] l IH]; intros H; simpl; auto.
  destruct (H (r, c)) as [F1 F2]; [left; auto|]. rewrite !getitem_ok by auto. simpl.
  destruct (num s (r, c) =? num t (r, c)); simpl; auto. apply IH; intros; apply H; right; auto.
Qed.

Lemma same_N_field : forall s t p, NN s = NN t -> field s p -> field t p.
Proof. intros s t p E; unfold field, cell; rewrite E; auto. Qed.

Lemma sudoku_eq_ok : forall s t, wf s -> wf t -> NN s = NN t ->
  sudoku_eq s t = Ok (forallb (fun p => num s p =? num t p) (coords s)).
Proof.
  intros s t Ws Wt E. unfold sudoku_eq, object_eq. rewrite eq_loop_ok; auto.
  intros p Hp; apply in_coords in Hp; split; auto. eapply same_N_field; eauto.
Qed.

Lemma forallb_coords : forall s (f : coord -> bool),
  forallb f (coords s) = true <-> (forall p, field s p -> f p = true).
Proof.
  intros s f; rewrite forallb_forall; split; intros H p Hp; apply H; apply in_coords; auto.
Qed.

Lemma zset_eqb_eq : forall a b, zset_eqb a b = true <-> a = b.
Proof.
  intros a b; unfold zset_eqb. rewrite <- (gc_eq _ (list_cmp_good _ zcmp_good)).
  destruct (list_cmp zcmp a b); split; congruence.
Qed.

Lemma equals_loop_ok : forall s t b l, wf s -> wf t ->
  (forall p, In p l -> field s p /\ field t p) ->
  equals_loop s t b l =
  Ok (forallb (fun p => (num s p =? num t p) && (negb b || zset_eqb (cand s p) (cand t p))) l).
Proof.
  intros s t b l Ws Wt; induction l as [|[r c] l IH]; intros H; simpl; auto.
  destruct (H (r, c)) as [F1 F2]; [left; auto|]. rewrite !getitem_ok by auto. simpl.
  destruct (num s (r, c) =? num t (r, c)); simpl; auto.
  rewrite IH by (intros; apply H; right; auto).
  destruct b; simpl; auto. rewrite !get_candidates_ok by auto. simpl.
  destruct (zset_eqb _ _); simpl; auto.
Qed.

Lemma forallb_ext' : forall {A} (f g : A -> bool) l, (forall x, f x = g x) -> forallb f l = forallb g l.
Proof. intros A f g l H; induction l; simpl; auto. rewrite H, IHl; auto. Qed.

Lemma C06_proof : forall a b, wf a -> wf b -> NN a = NN b ->
  exists d e q qn, glist (diff a b) a = Ok d /\ sudoku_eq a b = Ok e /\
    equals a b true = Ok q /\ equals a b false = Ok qn /\
    StronglySorted lex_lt d /\
    (forall p, In p d <-> field a p /\ num a p <> num b p) /\
    (e = true <-> d = []) /\
    (e = true <-> forall p, field a p -> num a p = num b p) /\
    (q = true <-> forall p, field a p -> num a p = num b p /\ cand a p = cand b p) /\
    qn = e.
Proof.
  intros a b Wa Wb E.
  exists (filter (fun p => negb (num a p =? num b p)) (coords a)).
  do 3 eexists.
  split; [apply glist_diff; auto; intros; eapply same_N_field; eauto|].
  split; [apply sudoku_eq_ok; auto|].
  assert (Hf : forall p, In p (coords a) -> field a p /\ field b p).
  { intros p Hp; apply in_coords in Hp; split; auto; eapply same_N_field; eauto. }
  split; [unfold equals; apply equals_loop_ok; auto|].
  split; [unfold equals; apply equals_loop_ok; auto|].
  assert (He : forallb (fun p => num a p =? num b p) (coords a) = true <->
               (forall p, field a p -> num a p = num b p)).
  { rewrite forallb_coords; split; intros H p Fp; apply Z.eqb_eq, H; auto. }
  split; [apply filter_sorted, coords_sorted|].
  split; [intros p; rewrite filter_In, in_coords, negb_true_iff, Z.eqb_neq; tauto|].
  split.
  - rewrite He. split.
    + intros H. destruct (filter _ _) as [|x l] eqn:Ef; auto.
      assert (Hx : In x (x :: l)) by (left; auto). rewrite <- Ef in Hx.
      apply filter_In in Hx; destruct Hx as [H1 H2]; apply in_coords in H1; b2p.
      exfalso; apply H2, H; auto.
    + intros Ef p Fp. destruct (Z.eq_dec (num a p) (num b p)); auto.
      assert (Hx : In p (filter (fun p => negb (num a p =? num b p)) (coords a))).
      { apply filter_In; split; [apply in_coords; auto|]. apply negb_true_iff, Z.eqb_neq; auto. }
      rewrite Ef in Hx; destruct Hx.
  - split; [exact He|]. split.
    + rewrite forallb_coords; split; intros H p Fp.
      * specialize (H p Fp). simpl in H. apply andb_prop in H; destruct H as [H1 H2].
        apply Z.eqb_eq in H1. apply zset_eqb_eq in H2; auto.
      * destruct (H p Fp) as [-> ->]. rewrite Z.eqb_refl; simpl. apply zset_eqb_eq; auto.
    + apply forallb_ext'. intros p; simpl. apply andb_true_r.
Qed.

Lemma C07_partial_proof : forall a b, wf a -> wf b -> NN a = NN b -> sudoku_eq a b = sudoku_eq b a.
Proof.
  intros a b Wa Wb E. rewrite !sudoku_eq_ok by auto.
  replace (coords b) with (coords a) by (unfold coords, indices; rewrite E; auto).
  f_equal. apply forallb_ext'. intros; apply Z.eqb_sym.
Qed.

Lemma C07_refuted_proof : exists a b, wf a /\ wf b /\ sudoku_eq a b = Ok true /\ sudoku_eq b a = Ok false.
Proof.
  exists (new_sudoku (1, 1)), (new_sudoku (2, 2)).
  splits; try (apply new_sudoku_wf; lia); reflexivity.
Qed.
