(** Hidden tuples: exactly which steps are found. *)
From Verif Require Export LFind2.

Lemma flat_map_const : forall {A B} (x : B) (l : list A), flat_map (fun _ => [x]) l = repeat x (length l).
Proof. intros A B x l; induction l as [|a l IH]; simpl; auto. rewrite IH; auto. Qed.
Lemma in_repeat : forall {A} (x y : A) n, In y (repeat x n) <-> y = x /\ (0 < n)%nat.
Proof.
  intros A x y n; induction n as [|n IH]; simpl; [split; [intros []|lia]|].
  rewrite IH. split; [intros [<-|[-> _]]; split; auto; lia|intros [-> _]; auto].
Qed.
Lemma flat_map_split : forall {A B} (f : A -> list B) l x, In x l -> exists a b, flat_map f l = a ++ f x ++ b.
Proof.
  intros A B f l x H. apply in_split in H. destruct H as [l1 [l2 ->]].
  exists (flat_map f l1), (flat_map f l2). rewrite flat_map_app. auto.
Qed.

Section Hidden.
Variable s : sudoku.
Hypothesis W : wf s.

Definition places (l : list coord) (v : Z) : list coord := sof_list coord_cmp (filter (fun rc => smem zcmp v (cand s rc)) l).
Lemma in_places : forall l v p, In p (places l v) <-> In p l /\ In v (cand s p).
Proof.
  intros l v p. unfold places. rewrite (In_sof_list _ coord_cmp_good), filter_In, (smem_In _ zcmp_good). tauto.
Qed.
Lemma places_lists : forall l v (P : coord -> Prop), (forall p, In p l <-> P p) -> lists (places l v) (fun p => P p /\ In v (cand s p)).
Proof.
  intros l v P H. split.
  - apply sorted_sset. apply (sof_list_sset _ coord_cmp_good).
  - intros p. rewrite in_places, H. tauto.
Qed.
Lemma places_sset : forall l v, sset coord_cmp (places l v).
Proof. intros. apply (sof_list_sset _ coord_cmp_good). Qed.

Definition htable (n : nat) (l : list coord) : list (Z * list coord) :=
  filter (fun e => (1 <? py_len (snd e)) && (py_len (snd e) <=? Z.of_nat n)) (map (fun v => (v, places l v)) (numbers s)).
Lemma in_htable : forall n l e, In e (htable n l) <->
  1 <= fst e <= box_width s * box_height s /\ snd e = places l (fst e) /\ (2 <= length (snd e) <= n)%nat.
Proof.
  intros n l [v c]. unfold htable. rewrite filter_In, in_map_iff. cbn [fst snd]. unfold py_len.
  rewrite andb_true_iff, Z.ltb_lt, Z.leb_le. split.
  - intros [[x [E Hx]] H]. inv E. apply in_numbers in Hx. splits; auto; try apply Hx; try lia.
  - intros [H1 [-> H2]]. split; [exists v; split; auto; apply in_numbers; auto|lia].
Qed.
Lemma htable_nodup : forall n l, NoDup (htable n l).
Proof.
  intros n l. apply NoDup_filter. apply NoDup_map_inj; [intros x y _ _ E; inv E; auto|].
  unfold numbers. apply NoDup_py_range2.
Qed.

Definition mset (entries : list (Z * list coord)) : list coord :=
  fold_left (fun m e => sunion coord_cmp m (snd e)) entries [].
Lemma mset_sset : forall entries, sset coord_cmp (mset entries).
Proof.
  intros entries. unfold mset.
  assert (X : forall es m, sset coord_cmp m -> sset coord_cmp (fold_left (fun m (e : Z * list coord) => sunion coord_cmp m (snd e)) es m)).
  { induction es as [|e es IH]; intros m H; auto. cbn. apply IH. apply (sunion_sset _ coord_cmp_good); auto. }
  apply X. apply sset_nil.
Qed.
Lemma in_mset : forall entries p, In p (mset entries) <-> exists e, In e entries /\ In p (snd e : list coord).
Proof. intros entries p. unfold mset. rewrite fold_union. simpl. tauto. Qed.

Definition haff (entries : list (Z * list coord)) : list coord :=
  filter (fun rc => negb (match sdiff zcmp (cand s rc) (sof_list zcmp (map fst entries)) with [] => true | _ => false end))
         (mset entries).
Lemma in_haff : forall entries p, In p (haff entries) <->
  In p (mset entries) /\ exists v, In v (cand s p) /\ ~ In v (map fst entries).
Proof.
  intros entries p. unfold haff. rewrite filter_In.
  assert (X : negb (match sdiff zcmp (cand s p) (sof_list zcmp (map fst entries)) with [] => true | _ => false end) = true <->
              exists v, In v (cand s p) /\ ~ In v (map fst entries)).
  { assert (Y : forall v, In v (sdiff zcmp (cand s p) (sof_list zcmp (map fst entries))) <->
               In v (cand s p) /\ ~ In v (map fst entries)).
    { intros v. rewrite (In_sdiff _ zcmp_good), (In_sof_list _ zcmp_good). tauto. }
    destruct (sdiff zcmp (cand s p) (sof_list zcmp (map fst entries))) as [|v t].
    - split; [discriminate|]. intros [v Hv]. apply Y in Hv. destruct Hv.
    - split; auto. intros _. exists v. apply Y; left; auto. }
  rewrite X. tauto.
Qed.

Definition hsteps (n : nat) (l : list coord) (entries : list (Z * list coord)) : list step :=
  if py_len (mset entries) <=? Z.of_nat n then
    match haff entries with
    | [] => []
    | aff => repeat (new_step (HiddenTuple n) l aff (map fst entries)) (length (mset entries))
    end
  else [].

Lemma hidden_at_runs : forall n k q l, is_unit s k q l ->
  runs (hidden_find_at n s l) s (flat_map (hsteps n l) (combinations n (htable n l))).
Proof.
  intros n k q l U. unfold hidden_find_at.
  assert (Fl : forall p, In p l -> field s p) by (intros p Hp; eapply is_unit_field; eauto).
  eapply runs_lift.
  { apply (mapM_ok _ (fun v => (v, places l v))). intros v _. unfold cand_coords.
    rewrite (ro_filter s W (fun _ c => smem zcmp v c)) by auto. reflexivity. }
  cbv zeta. fold (htable n l). apply runs_for. intros entries He.
  assert (Fm : forall p, In p (mset entries) -> field s p).
  { intros p Hp. apply in_mset in Hp. destruct Hp as [e [H1 H2]].
    apply (combinations_incl _ _ _ He) in H1. apply in_htable in H1. destruct H1 as [_ [E _]].
    rewrite E in H2. apply in_places in H2. apply Fl; tauto. }
  fold (mset entries). unfold hsteps.
  destruct (py_len (mset entries) <=? Z.of_nat n); [|apply runs_ret].
  set (x := match haff entries with [] => [] | aff => [new_step (HiddenTuple n) l aff (map fst entries)] end).
  assert (E : match haff entries with [] => [] | aff => repeat (new_step (HiddenTuple n) l aff (map fst entries)) (length (mset entries)) end
          = flat_map (fun _ => x) (mset entries)).
  { unfold x. destruct (haff entries).
    - clear. induction (mset entries); auto.
    - symmetry. apply flat_map_const. }
  rewrite E. apply runs_for. intros p _.
  eapply runs_lift.
  { apply (ro_filter s W (fun _ c => negb (match sdiff zcmp c (sof_list zcmp (map fst entries)) with [] => true | _ => false end))); auto. }
  fold (haff entries). unfold x. destruct (haff entries); [apply runs_ret|apply runs_yield].
Qed.

(** The numbers of a selection of entries. *)
Lemma entries_fst : forall n l entries, In entries (combinations n (htable n l)) ->
  NoDup (map fst entries) /\ length entries = n /\
  (forall e, In e entries -> In e (htable n l)).
Proof.
  intros n l entries H. splits.
  - apply NoDup_map_inj; [|eapply combinations_nodup; [apply htable_nodup|exact H]].
    intros x y Hx Hy E. apply (combinations_incl _ _ _ H) in Hx. apply (combinations_incl _ _ _ H) in Hy.
    apply in_htable in Hx. apply in_htable in Hy. destruct x, y; cbn in *. intuition congruence.
  - eapply combinations_length; eauto.
  - intros e He. eapply combinations_incl; eauto.
Qed.

Lemma hidden_at_step : forall n k q l entries, is_unit s k q l -> In entries (combinations n (htable n l)) ->
  hsteps n l entries <> [] ->
  exists pl cl aff vals st, hidden_tuple s n k q pl cl aff vals /\ step_is (HiddenTuple n) cl aff vals st /\
    hsteps n l entries = repeat st (length pl).
Proof.
  intros n k q l entries U He Hne. pose proof U as [Fq [Eq [El [Nl Hl]]]].
  destruct (entries_fst n l entries He) as [N1 [L1 I1]].
  unfold hsteps in *. destruct (py_len (mset entries) <=? Z.of_nat n) eqn:Len; [|congruence]; b2p. unfold py_len in Len.
  destruct (haff entries) as [|a t] eqn:Ea; [congruence|]. rewrite <- Ea in *.
  assert (Hm : forall p, In p (mset entries) <-> unit_at s k q p /\ exists v, In v (map fst entries) /\ In v (cand s p)).
  { intros p. rewrite in_mset. split.
    - intros [e [H1 H2]]. pose proof (I1 e H1) as X. apply in_htable in X. destruct X as [_ [E _]].
      rewrite E in H2. apply in_places in H2. destruct H2. split; [apply Hl; auto|].
      exists (fst e); split; auto. apply in_map; auto.
    - intros [H1 [v [H2 H3]]]. apply in_map_iff in H2. destruct H2 as [e [<- H2]]. exists e; split; auto.
      pose proof (I1 e H2) as X. apply in_htable in X. destruct X as [_ [E _]]. rewrite E. apply in_places.
      split; auto. apply Hl; auto. }
  exists (mset entries), (py_sorted coord_cmp l), (py_sorted coord_cmp (haff entries)), (py_sorted zcmp (map fst entries)),
    (new_step (HiddenTuple n) l (haff entries) (map fst entries)).
  splits; [|apply new_step_is; auto|].
  2:{ rewrite Ea. reflexivity. }
  assert (Iv : forall v, In v (py_sorted zcmp (map fst entries)) <-> In v (map fst entries)) by (intros; apply (in_py_sorted _ zcmp_good)).
  unfold hidden_tuple. splits; auto.
  - apply py_sorted_lists; auto.
  - apply (py_sorted_listsz _ (fun v => In v (map fst entries))); auto; tauto.
  - rewrite py_sorted_length, map_length; auto.
  - intros v Hv. apply Iv in Hv. apply in_map_iff in Hv. destruct Hv as [e [<- H2]].
    pose proof (I1 e H2) as X. apply in_htable in X. destruct X as [X1 [X2 X3]]. split; auto.
    exists (places l (fst e)). rewrite <- X2 at 2 3. split; auto. apply places_lists; auto.
  - split; [apply sorted_sset, mset_sset|]. intros p. rewrite Hm. split; intros [H1 [v [H2 H3]]]; split; auto; exists v; split; auto; apply Iv; auto.
  - lia.
  - apply py_sorted_lists.
    + apply NoDup_filter. apply (sset_NoDup _ coord_cmp_good), mset_sset.
    + intros p. rewrite in_haff. split; intros [H1 [v [H2 H3]]]; split; auto; exists v; split; auto; rewrite ?Iv in *; auto.
  - intros X. pose proof (py_sorted_length coord_cmp (haff entries)) as L. rewrite X, Ea in L. discriminate.
Qed.

Lemma hidden_at_complete : forall n k q l pl cl aff vals st, is_unit s k q l ->
  hidden_tuple s n k q pl cl aff vals -> step_is (HiddenTuple n) cl aff vals st ->
  exists entries, In entries (combinations n (htable n l)) /\ hsteps n l entries = repeat st (length pl).
Proof.
  intros n k q l pl cl aff vals st U H Hst. pose proof U as [Fq [Eq [El [Nl Hl]]]].
  destruct H as [_ [_ [Hcl [Sv [Lv [Hv [Hpl [Lpl [Haff Na]]]]]]]]].
  set (es := map (fun v => (v, places l v)) vals).
  assert (Hes : forall v, In v vals -> In (v, places l v) (htable n l)).
  { intros v X. apply in_htable. cbn [fst snd]. destruct (Hv v X) as [V1 [m [V2 V3]]]. splits; auto; try apply V1.
    - rewrite <- (lists_unique _ _ _ V2 (places_lists l v _ Hl)); lia.
    - rewrite <- (lists_unique _ _ _ V2 (places_lists l v _ Hl)); lia. }
  destruct (combinations_complete (fun e => existsb (Z.eqb (fst e)) vals) es (htable n l)) as [entries [F1 [F2 F3]]].
  - unfold es. apply NoDup_map_inj; [intros x y _ _ E; inv E; auto|]. apply zssorted_nodup; auto.
  - apply htable_nodup.
  - intros e Hin. rewrite existsb_exists. unfold es. rewrite in_map_iff. split.
    + intros [v [V1 V2]]. b2p. subst v. exists (fst e). split; auto. apply in_htable in Hin. destruct e; cbn in *. intuition congruence.
    + intros [v [<- V]]. exists v; cbn. split; auto. apply Z.eqb_refl.
  - intros e Hin. unfold es in Hin. apply in_map_iff in Hin. destruct Hin as [v [<- V]]. auto.
  - replace (length es) with n in F1 by (unfold es; rewrite map_length; auto).
    exists entries. split; auto.
    destruct (entries_fst n l entries F1) as [N1 [L1 I1]].
    assert (Iv : forall v, In v (map fst entries) <-> In v vals).
    { intros v. rewrite in_map_iff. split.
      - intros [e [<- He]]. apply F3 in He. unfold es in He. apply in_map_iff in He. destruct He as [x [<- Hx]]. auto.
      - intros V. exists (v, places l v); split; auto. apply F3. unfold es. apply in_map_iff. exists v; auto. }
    assert (Em : mset entries = pl).
    { eapply lists_unique; [|exact Hpl]. split; [apply sorted_sset, mset_sset|].
      intros p. rewrite in_mset. split.
      - intros [e [H1 H2]]. pose proof (I1 e H1) as X. apply in_htable in X. destruct X as [_ [E _]].
        rewrite E in H2. apply in_places in H2. destruct H2. split; [apply Hl; auto|].
        exists (fst e); split; auto. apply Iv. apply in_map; auto.
      - intros [H1 [v [H2 H3]]]. apply Iv in H2. apply in_map_iff in H2. destruct H2 as [e [<- H2]]. exists e; split; auto.
        pose proof (I1 e H2) as X. apply in_htable in X. destruct X as [_ [E _]]. rewrite E. apply in_places.
        split; auto. apply Hl; auto. }
    assert (Ea : py_sorted coord_cmp (haff entries) = aff).
    { eapply lists_sorted_eq; [| |exact Haff].
      - apply NoDup_filter. apply (sset_NoDup _ coord_cmp_good), mset_sset.
      - intros p. rewrite in_haff, Em. split; intros [H1 [v [H2 H3]]]; split; auto; exists v; split; auto; rewrite ?Iv in *; auto. }
    unfold hsteps. rewrite Em. replace (py_len pl <=? Z.of_nat n) with true.
    2:{ symmetry. apply Z.leb_le. unfold py_len. lia. }
    destruct (haff entries) as [|a t] eqn:En; [cbn in Ea; congruence|].
    f_equal. apply step_is_eq in Hst. rewrite Hst. apply step_is_eq. apply new_step_is.
    + eapply lists_sorted_eq; eauto.
    + exact Ea.
    + eapply listsz_sorted_eq with (P := fun v => In v vals); auto. split; auto; tauto.
Qed.

Lemma hidden_runs : forall n, exists ys, runs (hidden_find n s) s ys /\
  (forall st, In st ys <-> exists k q pl cl aff vals, hidden_tuple s n k q pl cl aff vals /\ step_is (HiddenTuple n) cl aff vals st) /\
  (forall st k q pl cl aff vals, hidden_tuple s n k q pl cl aff vals -> step_is (HiddenTuple n) cl aff vals st ->
     exists a b, ys = a ++ repeat st (length pl) ++ b).
Proof.
  intros n.
  set (cls := fun k => match units_with_empty (kind_func k) s with Ok cl => cl | Err _ => [] end).
  set (yk := fun k => flat_map (fun l => flat_map (hsteps n l) (combinations n (htable n l))) (cls k)).
  assert (E : runs (hidden_find n s) s (flat_map yk [KRow; KCol; KBox])).
  { unfold hidden_find. change [f_row; f_col; f_box] with (map kind_func [KRow; KCol; KBox]).
    assert (X : forall k, runs (do* clist := lift (units_with_empty (kind_func k) s) in gfor (fun s cs => hidden_find_at n s cs) clist s) s (yk k)).
    { intros k. destruct (units_ok s W k) as [cl [E [U1 _]]]. unfold yk, cls. rewrite E. cbn [lift gbind].
      apply runs_for. intros l Hl. destruct (U1 l Hl) as [q U]. eapply hidden_at_runs; eauto. }
    cbn [map gfor flat_map]. apply runs_bind; [apply X|]. apply runs_bind; [apply X|]. apply runs_bind; [apply X|]. apply runs_ret. }
  assert (Hk : forall k, In k [KRow; KCol; KBox]) by (intros []; simpl; auto).
  assert (C : forall st k q pl cl aff vals, hidden_tuple s n k q pl cl aff vals -> step_is (HiddenTuple n) cl aff vals st ->
     exists a b, flat_map yk [KRow; KCol; KBox] = a ++ repeat st (length pl) ++ b).
  { intros st k q pl cl aff vals H Hst. pose proof H as [Fq [Eq _]].
    destruct (units_ok s W k) as [c [Ec [_ U2]]]. destruct (U2 q Fq Eq) as [l [L1 L2]].
    destruct (hidden_at_complete n k q l pl cl aff vals st L2 H Hst) as [entries [E1 E2]].
    destruct (flat_map_split yk _ k (Hk k)) as [a1 [b1 X1]].
    destruct (flat_map_split (fun l => flat_map (hsteps n l) (combinations n (htable n l))) (cls k) l) as [a2 [b2 X2]].
    { unfold cls. rewrite Ec; auto. }
    destruct (flat_map_split (hsteps n l) _ entries E1) as [a3 [b3 X3]].
    rewrite X1. unfold yk. rewrite X2. cbv beta. rewrite X3, E2.
    exists (a1 ++ a2 ++ a3), (b3 ++ b2 ++ b1). rewrite <- !app_assoc. auto. }
  exists (flat_map yk [KRow; KCol; KBox]). splits; auto.
  intros st; split.
  - intros H. apply in_flat_map in H. destruct H as [k [_ H]]. unfold yk in H. apply in_flat_map in H.
    destruct H as [l [Hl H]]. apply in_flat_map in H. destruct H as [entries [He H]].
    destruct (units_ok s W k) as [c [Ec [U1 _]]]. unfold cls in Hl. rewrite Ec in Hl. destruct (U1 l Hl) as [q U].
    destruct (hidden_at_step n k q l entries U He) as [pl [cl [aff [vals [st' [H1 [H2 H3]]]]]]].
    { intros X; rewrite X in H; destruct H. }
    rewrite H3 in H. apply in_repeat in H. destruct H as [-> _]. exists k, q, pl, cl, aff, vals; auto.
  - intros [k [q [pl [cl [aff [vals [H1 H2]]]]]]]. destruct (C st k q pl cl aff vals H1 H2) as [a [b ->]].
    rewrite !in_app_iff. right; left. apply in_repeat. split; auto.
    destruct H1 as [_ [_ [_ [_ [_ [_ [Hpl [_ [Haff Na]]]]]]]]].
    destruct aff as [|p t]; [congruence|]. assert (X : In p pl) by (apply (proj2 Haff); left; auto).
    destruct pl; [destruct X|simpl; lia].
Qed.
End Hidden.
