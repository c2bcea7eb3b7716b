(** Lemmas about the Sudoku class: pure versions of the accessors for
    well-formed sudokus. *)
From Verif Require Export LBase LSet LDict LGen Spec.

Notation NN s := (box_width s * box_height s).

Lemma NN_pos : forall s, wf s -> 1 <= NN s.
Proof. intros s H; pose proof (wf_w _ H); pose proof (wf_h _ H); nia. Qed.

Lemma field_cell : forall s p, field s p <-> (0 <= fst p < NN s /\ 0 <= snd p < NN s).
Proof. reflexivity. Qed.

Lemma in_coords : forall s p, In p (coords s) <-> field s p.
Proof.
  intros s [r c]; unfold coords, indices, field, cell, coord; simpl.
  rewrite in_prod_iff, !in_py_range; reflexivity.
Qed.

Lemma NoDup_coords : forall s, NoDup (coords s).
Proof. intros; apply NoDup_list_prod; apply NoDup_py_range. Qed.

Lemma length_coords : forall s, length (coords s) = (Z.to_nat (NN s) * Z.to_nat (NN s))%nat.
Proof. intros; unfold coords, indices, coord; rewrite length_list_prod, length_py_range; auto. Qed.

(** * Reading *)
Lemma row_nth_len : forall {A} (m : list (list A)) n k,
  length m = n -> (forall row, In row m -> length row = n) -> (k < n)%nat ->
  length (nth k m []) = n.
Proof. intros A m n k H1 H2 H3; apply H2, nth_In; lia. Qed.

Lemma num_nth : forall s p, wf s -> field s p ->
  num s p = nth (Z.to_nat (snd p)) (nth (Z.to_nat (fst p)) (s_numbers s) []) 0.
Proof.
  intros s [r c] W [Hr Hc]; simpl in *; unfold num, getitem; simpl.
  pose proof (wf_nrows _ W) as L1. pose proof (wf_nrow _ W) as L2.
  rewrite (list_get_ok _ _ []) by (unfold py_len; lia). simpl.
  rewrite (list_get_ok _ _ 0); auto.
  unfold py_len. rewrite (row_nth_len _ (Z.to_nat (NN s))); auto; lia.
Qed.

Lemma getitem_ok : forall s r c, wf s -> field s (r, c) -> getitem s r c = Ok (num s (r, c)).
Proof.
  intros s r c W [Hr Hc]; simpl in *; unfold num, getitem; simpl.
  pose proof (wf_nrows _ W) as L1. pose proof (wf_nrow _ W) as L2.
  rewrite (list_get_ok _ _ []) by (unfold py_len; lia). simpl.
  rewrite (list_get_ok _ _ 0); auto.
  unfold py_len. rewrite (row_nth_len _ (Z.to_nat (NN s))); auto; lia.
Qed.

Lemma cand_nth : forall s p, wf s -> field s p ->
  cand s p = nth (Z.to_nat (snd p)) (nth (Z.to_nat (fst p)) (s_candidates s) []) [].
Proof.
  intros s [r c] W [Hr Hc]; simpl in *; unfold cand, get_candidates; simpl.
  pose proof (wf_crows _ W) as L1. pose proof (wf_crow _ W) as L2.
  rewrite (list_get_ok _ _ []) by (unfold py_len; lia). simpl.
  rewrite (@list_get_ok zset _ _ []); auto.
  unfold py_len. rewrite (row_nth_len _ (Z.to_nat (NN s))); auto; lia.
Qed.

Lemma get_candidates_ok : forall s r c, wf s -> field s (r, c) ->
  get_candidates s r c = Ok (cand s (r, c)).
Proof.
  intros s r c W [Hr Hc]; simpl in *; unfold cand, get_candidates; simpl.
  pose proof (wf_crows _ W) as L1. pose proof (wf_crow _ W) as L2.
  rewrite (list_get_ok _ _ []) by (unfold py_len; lia). simpl.
  rewrite (@list_get_ok zset _ _ []); auto.
  unfold py_len. rewrite (row_nth_len _ (Z.to_nat (NN s))); auto; lia.
Qed.

Lemma cand_sset : forall s p, wf s -> field s p -> zsset (cand s p).
Proof.
  intros s p W F. rewrite cand_nth by auto. destruct F as [Hr Hc].
  pose proof (wf_crows _ W) as L1. pose proof (wf_crow _ W) as L2.
  eapply (wf_cand _ W); [eapply nth_In | eapply nth_In].
  - rewrite L1; lia.
  - rewrite (row_nth_len _ (Z.to_nat (NN s))); auto; lia.
Qed.

(** * Writing *)
Definition pset (s : sudoku) (p : coord) (v : Z) : sudoku :=
  {| box_width := box_width s; box_height := box_height s;
     s_numbers := list_upd (Z.to_nat (fst p))
                    (list_upd (Z.to_nat (snd p)) v (nth (Z.to_nat (fst p)) (s_numbers s) []))
                    (s_numbers s);
     s_candidates := s_candidates s |}.

Definition pcset (s : sudoku) (p : coord) (v : zset) : sudoku :=
  {| box_width := box_width s; box_height := box_height s;
     s_numbers := s_numbers s;
     s_candidates := list_upd (Z.to_nat (fst p))
                    (list_upd (Z.to_nat (snd p)) v (nth (Z.to_nat (fst p)) (s_candidates s) []))
                    (s_candidates s) |}.

Lemma setitem_ok : forall s r c v, wf s -> field s (r, c) ->
  setitem s r c v = Ok (pset s (r, c) v).
Proof.
  intros s r c v W [Hr Hc]; simpl in *; unfold setitem, pset; simpl.
  pose proof (wf_nrows _ W) as L1. pose proof (wf_nrow _ W) as L2.
  rewrite (list_get_ok _ _ []) by (unfold py_len; lia). simpl.
  unfold list_set. rewrite py_idx_ok; simpl.
  - rewrite py_idx_ok by lia. reflexivity.
  - rewrite (row_nth_len _ (Z.to_nat (NN s))); auto; lia.
Qed.

Lemma set_candidates_ok : forall s r c v, wf s -> field s (r, c) ->
  set_candidates s r c v = Ok (pcset s (r, c) (sof_list zcmp v)).
Proof.
  intros s r c v W [Hr Hc]; simpl in *; unfold set_candidates, pcset; simpl.
  pose proof (wf_crows _ W) as L1. pose proof (wf_crow _ W) as L2.
  rewrite (list_get_ok _ _ []) by (unfold py_len; lia). simpl.
  unfold list_set. rewrite py_idx_ok; simpl.
  - rewrite py_idx_ok by lia. reflexivity.
  - rewrite (row_nth_len _ (Z.to_nat (NN s))); auto; lia.
Qed.

Lemma remove_candidates_ok : forall s r c v, wf s -> field s (r, c) ->
  remove_candidates s r c v
  = Ok (pcset s (r, c) (sdiff zcmp (cand s (r, c)) (sof_list zcmp v))).
Proof.
  intros s r c v W F. pose proof (get_candidates_ok s r c W F) as G.
  destruct F as [Hr Hc]; simpl in *; unfold remove_candidates, pcset, get_candidates in *; simpl.
  pose proof (wf_crows _ W) as L1. pose proof (wf_crow _ W) as L2.
  rewrite (list_get_ok _ _ []) in G |- * by (unfold py_len; lia). simpl in *.
  rewrite G; simpl.
  unfold list_set. rewrite py_idx_ok; simpl.
  - rewrite py_idx_ok by lia. reflexivity.
  - rewrite (row_nth_len _ (Z.to_nat (NN s))); auto; lia.
Qed.

Lemma pset_dims : forall s p v, box_width (pset s p v) = box_width s /\ box_height (pset s p v) = box_height s.
Proof. auto. Qed.

Lemma pset_field : forall s p v q, field (pset s p v) q <-> field s q.
Proof. reflexivity. Qed.
Lemma pcset_field : forall s p v q, field (pcset s p v) q <-> field s q.
Proof. reflexivity. Qed.
Lemma pset_coords : forall s p v, coords (pset s p v) = coords s.
Proof. reflexivity. Qed.
Lemma pcset_coords : forall s p v, coords (pcset s p v) = coords s.
Proof. reflexivity. Qed.

Lemma list_upd_rows_len : forall {A} (m : list (list A)) n i j v,
  (forall row, In row m -> length row = n) -> (i < length m)%nat ->
  forall row, In row (list_upd i (list_upd j v (nth i m [])) m) -> length row = n.
Proof.
  intros A m n i j v H Hi row Hin. apply In_list_upd in Hin; destruct Hin as [->|Hin]; auto.
  rewrite length_list_upd; apply H, nth_In; auto.
Qed.

Lemma pset_wf : forall s p v, wf s -> field s p -> wf (pset s p v).
Proof.
  intros s p v W [Hr Hc]; destruct W as [w1 w2 w3 w4 w5 w6 w7]; constructor; simpl; auto.
  - rewrite length_list_upd; auto.
  - intros row; apply list_upd_rows_len; auto. rewrite w3; lia.
Qed.

Lemma pcset_wf : forall s p v, wf s -> field s p -> zsset v -> wf (pcset s p v).
Proof.
  intros s p v W [Hr Hc] Hv; destruct W as [w1 w2 w3 w4 w5 w6 w7]; constructor; simpl; auto.
  - rewrite length_list_upd; auto.
  - intros row; apply list_upd_rows_len; auto. rewrite w5; lia.
  - intros row c Hrow Hin. apply In_list_upd in Hrow; destruct Hrow as [->|Hrow]; [|eauto].
    apply In_list_upd in Hin; destruct Hin as [->|Hin]; [apply Hv|].
    eapply w7; [|eauto]. apply nth_In; rewrite w5; lia.
Qed.

Lemma nat_idx_eqb : forall a b, 0 <= a -> 0 <= b -> (Z.to_nat a =? Z.to_nat b)%nat = (a =? b).
Proof.
  intros a b Ha Hb. destruct (a =? b) eqn:E; b2p.
  - subst; apply Nat.eqb_refl.
  - apply Nat.eqb_neq; lia.
Qed.

Lemma num_pset : forall s p v q, wf s -> field s p -> field s q ->
  num (pset s p v) q = if coord_eqb q p then v else num s q.
Proof.
  intros s p v q W Fp Fq. rewrite num_nth by (auto using pset_wf).
  rewrite (num_nth s) by auto. unfold pset; simpl.
  pose proof (wf_nrows _ W) as L1. pose proof (wf_nrow _ W) as L2.
  destruct p as [pr pc], q as [qr qc], Fp as [Hpr Hpc], Fq as [Hqr Hqc]; simpl in *.
  rewrite nth_list_upd, L1, nat_idx_eqb by lia.
  replace (Z.to_nat pr <? Z.to_nat (NN s))%nat with true by (symmetry; apply Nat.ltb_lt; lia).
  rewrite andb_true_r. unfold coord_eqb; simpl. destruct (qr =? pr) eqn:E; simpl; auto.
  b2p; subst. rewrite nth_list_upd, nat_idx_eqb by lia.
  rewrite (row_nth_len _ (Z.to_nat (NN s))) by (auto; lia).
  replace (Z.to_nat pc <? Z.to_nat (NN s))%nat with true by (symmetry; apply Nat.ltb_lt; lia).
  rewrite andb_true_r. reflexivity.
Qed.

Lemma cand_pcset : forall s p v q, wf s -> field s p -> field s q -> zsset v ->
  cand (pcset s p v) q = if coord_eqb q p then v else cand s q.
Proof.
  intros s p v q W Fp Fq Hv. rewrite cand_nth by (auto using pcset_wf).
  rewrite (cand_nth s) by auto. unfold pcset; simpl.
  pose proof (wf_crows _ W) as L1. pose proof (wf_crow _ W) as L2.
  destruct p as [pr pc], q as [qr qc], Fp as [Hpr Hpc], Fq as [Hqr Hqc]; simpl in *.
  rewrite nth_list_upd, L1, nat_idx_eqb by lia.
  replace (Z.to_nat pr <? Z.to_nat (NN s))%nat with true by (symmetry; apply Nat.ltb_lt; lia).
  rewrite andb_true_r. unfold coord_eqb; simpl. destruct (qr =? pr) eqn:E; simpl; auto.
  b2p; subst. rewrite nth_list_upd, nat_idx_eqb by lia.
  rewrite (row_nth_len _ (Z.to_nat (NN s))) by (auto; lia).
  replace (Z.to_nat pc <? Z.to_nat (NN s))%nat with true by (symmetry; apply Nat.ltb_lt; lia).
  rewrite andb_true_r. reflexivity.
Qed.

Lemma num_pcset : forall s p v q, num (pcset s p v) q = num s q.
Proof. reflexivity. Qed.
Lemma cand_pset : forall s p v q, cand (pset s p v) q = cand s q.
Proof. reflexivity. Qed.

(** * Extensionality *)
Lemma matrix_ext : forall {A} (m m' : list (list A)) n d,
  length m = n -> length m' = n ->
  (forall row, In row m -> length row = n) -> (forall row, In row m' -> length row = n) ->
  (forall i j, (i < n)%nat -> (j < n)%nat -> nth j (nth i m []) d = nth j (nth i m' []) d) ->
  m = m'.
Proof.
  intros A m m' n d L L' R R' H.
  apply (nth_ext _ _ [] []); [congruence|]. intros i Hi. rewrite L in Hi.
  apply (nth_ext _ _ d d).
  - rewrite !(row_nth_len _ n); auto.
  - rewrite (row_nth_len _ n) by auto. intros; apply H; auto.
Qed.

Lemma sudoku_ext : forall s t, wf s -> wf t ->
  box_width s = box_width t -> box_height s = box_height t ->
  (forall p, field s p -> num s p = num t p) ->
  (forall p, field s p -> cand s p = cand t p) -> s = t.
Proof.
  intros s t Ws Wt Ew Eh Hn Hc.
  assert (Ft : forall p, field s p -> field t p) by (unfold field; rewrite Ew, Eh; auto).
  assert (s_numbers s = s_numbers t).
  { apply (matrix_ext _ _ (Z.to_nat (NN s)) 0).
    - apply (wf_nrows _ Ws).
    - rewrite Ew, Eh; apply (wf_nrows _ Wt).
    - apply (wf_nrow _ Ws).
    - rewrite Ew, Eh; apply (wf_nrow _ Wt).
    - intros i j Hi Hj. assert (F : field s (Z.of_nat i, Z.of_nat j)) by (split; simpl; lia).
      specialize (Hn _ F). rewrite !num_nth in Hn by auto. simpl in Hn.
      rewrite !Nat2Z.id in Hn; auto. }
  assert (s_candidates s = s_candidates t).
  { apply (matrix_ext _ _ (Z.to_nat (NN s)) []).
    - apply (wf_crows _ Ws).
    - rewrite Ew, Eh; apply (wf_crows _ Wt).
    - apply (wf_crow _ Ws).
    - rewrite Ew, Eh; apply (wf_crow _ Wt).
    - intros i j Hi Hj. assert (F : field s (Z.of_nat i, Z.of_nat j)) by (split; simpl; lia).
      specialize (Hc _ F). rewrite !cand_nth in Hc by auto. simpl in Hc.
      rewrite !Nat2Z.id in Hc; auto. }
  destruct s, t; simpl in *; congruence.
Qed.

(** * New sudokus *)
Lemma new_sudoku_wf : forall w h, 1 <= w -> 1 <= h -> wf (new_sudoku (w, h)).
Proof.
  intros w h Hw Hh; unfold new_sudoku; constructor; simpl; auto.
  - rewrite map_length, length_py_range; auto.
  - intros row Hin. apply in_map_iff in Hin; destruct Hin as [i [<- _]].
    rewrite repeat_length, length_py_range; auto.
  - rewrite map_length, length_py_range; auto.
  - intros row Hin. apply in_map_iff in Hin; destruct Hin as [i [<- _]].
    rewrite repeat_length, length_py_range; auto.
  - intros row c Hin Hc. apply in_map_iff in Hin; destruct Hin as [i [<- _]].
    apply repeat_spec in Hc; subst; constructor.
Qed.

Lemma nth_const_matrix : forall {A B} (l : list B) (v : A) i j,
  (i < length l)%nat ->
  nth j (nth i (map (fun _ => repeat v (length l)) l) []) v = v.
Proof.
  intros A B l v i j Hi.
  assert (G : forall n m, (i < length m)%nat -> nth j (nth i (map (fun _ : B => repeat v n) m) []) v = v).
  { intros n m Hm. assert (Hin : In (nth i (map (fun _ : B => repeat v n) m) []) (map (fun _ => repeat v n) m)).
    { apply nth_In; rewrite map_length; auto. }
    apply in_map_iff in Hin; destruct Hin as [x [<- _]].
    destruct (Nat.lt_ge_cases j n).
    - apply (repeat_spec n v), nth_In; rewrite repeat_length; auto.
    - apply nth_overflow; rewrite repeat_length; auto. }
  apply G; auto.
Qed.

Lemma num_new : forall w h p, 1 <= w -> 1 <= h -> cell w h p -> num (new_sudoku (w, h)) p = 0.
Proof.
  intros w h p Hw Hh F. rewrite num_nth; [|apply new_sudoku_wf; auto|apply F].
  simpl. apply nth_const_matrix. rewrite length_py_range. destruct F; lia.
Qed.

Lemma cand_new : forall w h p, 1 <= w -> 1 <= h -> cell w h p -> cand (new_sudoku (w, h)) p = [].
Proof.
  intros w h p Hw Hh F. rewrite cand_nth; [|apply new_sudoku_wf; auto|apply F].
  simpl. apply nth_const_matrix. rewrite length_py_range. destruct F; lia.
Qed.

(** * Generic loops writing fields *)

(** Writing fields one after the other (numbers). *)
Lemma foldM_setitem : forall {A} (l : list A) (pos : A -> coord) (val : A -> Z) s,
  wf s -> (forall x, In x l -> field s (pos x)) ->
  exists s', foldM (fun s x => setitem s (fst (pos x)) (snd (pos x)) (val x)) l s = Ok s' /\
    wf s' /\ box_width s' = box_width s /\ box_height s' = box_height s /\
    s_candidates s' = s_candidates s /\
    (forall q, field s q -> ~ In q (map pos l) -> num s' q = num s q) /\
    (forall q, field s q -> In q (map pos l) -> exists x, In x l /\ pos x = q /\ num s' q = val x).
Proof.
  intros A l pos val; induction l as [|x l IH] using rev_ind; intros s W F.
  - exists s; simpl; splits; auto. intros q _ [].
  - destruct (IH s) as [s' [E [W' [Ew [Eh [Ec [H1 H2]]]]]]]; auto.
    { intros; apply F; apply in_or_app; auto. }
    assert (Fs : forall q, field s q <-> field s' q) by (unfold field; rewrite Ew, Eh; tauto).
    assert (Fx : field s (pos x)) by (apply F; apply in_or_app; simpl; auto).
    exists (pset s' (pos x) (val x)). rewrite foldM_app, E; simpl.
    rewrite setitem_ok; auto; [|rewrite <- surjective_pairing; apply Fs; auto]. simpl.
    rewrite <- surjective_pairing. split; auto.
    split; [apply pset_wf; auto; apply Fs; auto|].
    do 3 (split; [auto|]). split.
    + intros q Fq Hn. rewrite map_app, in_app_iff in Hn. simpl in Hn.
      rewrite num_pset by (try apply Fs; auto).
      destruct (coord_eqb q (pos x)) eqn:Eq; [apply coord_eqb_eq in Eq; subst; tauto|].
      apply H1; tauto.
    + intros q Fq Hin. rewrite num_pset by (try apply Fs; auto).
      destruct (coord_eqb q (pos x)) eqn:Eq.
      * apply coord_eqb_eq in Eq; subst. exists x; rewrite in_app_iff; simpl; auto.
      * apply coord_eqb_neq in Eq. rewrite map_app, in_app_iff in Hin; simpl in Hin.
        destruct (H2 q Fq) as [y [Hy [Hp Hv]]]; [intuition congruence|].
        exists y; rewrite in_app_iff; auto.
Qed.
