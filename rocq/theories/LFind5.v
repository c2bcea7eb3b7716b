(** Fish: exactly which steps are found. *)
From Verif Require Export LFind4.

(** * combinations *)
Lemma combinations_cons : forall {A} n (x : A) l,
  combinations (S n) (x :: l) = map (cons x) (combinations n l) ++ combinations (S n) l.
Proof. reflexivity. Qed.
Lemma combinations_0 : forall {A} (l : list A), combinations 0 l = [[]].
Proof. intros A []; reflexivity. Qed.
Lemma combinations_NoDup : forall {A} (l : list A), NoDup l -> forall n, NoDup (combinations n l).
Proof.
  intros A l N; induction N as [|x l Hx N IH]; intros [|n]; try (rewrite combinations_0; repeat constructor; simpl; tauto).
  - simpl. constructor.
  - rewrite combinations_cons. apply NoDup_app_iff. splits; auto.
    + apply NoDup_map_inj; auto. intros a b _ _ E. inv E; auto.
    + intros c H1 H2. apply in_map_iff in H1. destruct H1 as [d [<- _]]. apply combinations_incl in H2.
      apply Hx, H2. left; auto.
Qed.
Lemma combinations_same : forall {A} (l : list A), NoDup l -> forall n c c', In c (combinations n l) -> In c' (combinations n l) ->
  (forall x, In x c <-> In x c') -> c = c'.
Proof.
  intros A l N; induction N as [|x l Hx N IH]; intros [|n] c c' H H' E;
    try (rewrite combinations_0 in H, H'; destruct H as [<-|[]], H' as [<-|[]]; auto; fail).
  - destruct H.
  - rewrite combinations_cons in H, H'. apply in_app_iff in H, H'.
    assert (X : forall m d, In d (combinations m l) -> ~ In x d) by (intros m d Hd Hd'; apply Hx, (combinations_incl _ _ _ Hd); auto).
    destruct H as [H|H], H' as [H'|H'].
    + apply in_map_iff in H, H'. destruct H as [d [<- H]], H' as [d' [<- H']]. f_equal. apply (IH n); auto.
      intros y. specialize (E y). split; intros Hy.
      * assert (Z0 : In y (x :: d')) by (apply E; right; auto). destruct Z0 as [<-|]; auto. exfalso; apply (X _ _ H); auto.
      * assert (Z0 : In y (x :: d)) by (apply E; right; auto). destruct Z0 as [<-|]; auto. exfalso; apply (X _ _ H'); auto.
    + apply in_map_iff in H. destruct H as [d [<- H]]. exfalso. apply (X _ _ H'). apply E. left; auto.
    + apply in_map_iff in H'. destruct H' as [d [<- H']]. exfalso. apply (X _ _ H). apply E. left; auto.
    + apply (IH (S n)); auto.
Qed.

(** * The dict other_counts *)
Lemma py_min_spec : forall l m, py_min l = Ok m -> In m l /\ forall x, In x l -> m <= x.
Proof.
  intros [|x l] m H; inv H.
  assert (X : forall l x, In (fold_left Z.min l x) (x :: l) /\ fold_left Z.min l x <= x /\ forall y, In y l -> fold_left Z.min l x <= y).
  { clear. induction l as [|y l IH]; intros x; simpl; [intuition lia|].
    destruct (IH (Z.min x y)) as [H1 [H2 H3]]. splits.
    - destruct H1 as [H1|H1]; auto. rewrite <- H1. destruct (Z.min_dec x y) as [-> | ->]; auto.
    - lia.
    - intros z [<-|Hz]; [lia|auto]. }
  destruct (X l x) as [H1 [H2 H3]]. split; auto. intros y [<-|Hy]; auto.
Qed.
Lemma count_others_spec : forall (other : coord -> Z) base,
  NoDup (dkeys (count_others other base)) /\
  forall j, dget_default Z.eqb (count_others other base) j 0 = Z.of_nat (length (filter (fun p => other p =? j) base)).
Proof.
  intros other base. unfold count_others.
  assert (X : forall base d, NoDup (dkeys d) ->
     NoDup (dkeys (fold_left (fun d rc => dset Z.eqb d (other rc) (dget_default Z.eqb d (other rc) 0 + 1)) base d)) /\
     forall j, dget_default Z.eqb (fold_left (fun d rc => dset Z.eqb d (other rc) (dget_default Z.eqb d (other rc) 0 + 1)) base d) j 0
       = dget_default Z.eqb d j 0 + Z.of_nat (length (filter (fun p => other p =? j) base))).
  { clear. induction base as [|p base IH]; intros d N; cbn [fold_left filter length]; [split; auto; intros; lia|].
    destruct (IH (dset Z.eqb d (other p) (dget_default Z.eqb d (other p) 0 + 1))) as [H1 H2].
    { apply dset_NoDup; auto. apply zeqb_eq. }
    split; auto. intros j. rewrite H2. unfold dget_default at 1. rewrite (dget_dset _ zeqb_eq).
    destruct (j =? other p) eqn:E; rewrite Z.eqb_sym, E; b2p.
    - subst j. cbn [length]. lia.
    - fold (dget_default Z.eqb d j 0). lia. }
  destruct (X base [] ) as [H1 H2]; [constructor|]. split; auto.
Qed.
Lemma count_others_values : forall (other : coord -> Z) base c,
  In c (dvalues (count_others other base)) <->
  exists j, In j (dkeys (count_others other base)) /\ c = Z.of_nat (length (filter (fun p => other p =? j) base)).
Proof.
  intros other base c. destruct (count_others_spec other base) as [N H].
  unfold dvalues, dkeys. rewrite in_map_iff. split.
  - intros [[j c'] [E Hin]]. cbn in E. subst c'. exists j. split; [apply in_map_iff; exists (j, c); auto|].
    rewrite <- H. unfold dget_default. rewrite (dget_NoDup _ zeqb_eq _ _ _ N Hin). auto.
  - intros [j [Hj ->]]. apply in_map_iff in Hj. destruct Hj as [[j' c'] [E Hin]]. cbn in E. subst j'.
    exists (j, c'). split; auto. cbn. rewrite <- H. unfold dget_default. rewrite (dget_NoDup _ zeqb_eq _ _ _ N Hin). auto.
Qed.
Lemma two_members : forall {A} (f : A -> bool) l, NoDup l ->
  ((2 <= length (filter f l))%nat <-> exists p q, In p l /\ In q l /\ p <> q /\ f p = true /\ f q = true).
Proof.
  intros A f l N. pose proof (NoDup_filter f N) as N'. split.
  - intros H. destruct (filter f l) as [|p [|q t]] eqn:E; cbn [length] in H; try lia.
    assert (Hp : In p (filter f l)) by (rewrite E; simpl; auto). assert (Hq : In q (filter f l)) by (rewrite E; simpl; auto).
    apply filter_In in Hp, Hq. exists p, q. splits; try tauto. inv N'. intros ->. apply H2. left; auto.
  - intros [p [q [Hp [Hq [Npq [Fp Fq]]]]]].
    assert (X : In p (filter f l)) by (apply filter_In; auto). assert (Y : In q (filter f l)) by (apply filter_In; auto).
    destruct (filter f l) as [|a [|b t]]; cbn [length]; try lia.
    + destruct X.
    + destruct X as [<-|[]], Y as [<-|[]]. congruence.
Qed.

Section Fish.
Variable s : sudoku.
Hypothesis W : wf s.
Variables (line other : coord -> Z) (kb kc : kind).
Hypothesis Hline : forall p i, together s kb p (i, i) <-> line p = i.
Hypothesis Hother : forall p i, together s kc p (i, i) <-> other p = i.
Hypothesis Rline : forall p, field s p -> 0 <= line p < box_width s * box_height s.
Hypothesis Rother : forall p, field s p -> 0 <= other p < box_width s * box_height s.

Definition flist (v i : Z) : list coord := pcl s (line_list s kb (i, i)) v.
Definition fvalid (n : nat) (v : Z) : list (Z * list coord) :=
  filter (fun e => (2 <=? py_len (snd e)) && (py_len (snd e) <=? Z.of_nat n)) (map (fun i => (i, flist v i)) (indices s)).
Definition fbase (entries : list (Z * list coord)) : list coord := concat (map snd entries).
Definition fkeys (entries : list (Z * list coord)) : list Z := dkeys (count_others other (fbase entries)).
Definition fcov (keys : list Z) : list coord := concat (map (fun j => line_list s kc (j, j)) keys).
Definition fsteps (n : nat) (v : Z) (entries : list (Z * list coord)) : list step :=
  let base := fbase entries in
  match py_min (dvalues (count_others other base)) with
  | Err _ => []
  | Ok m =>
    if m <? 2 then []
    else if Z.of_nat n <? py_len (count_others other base) then []
    else match paff s (fcov (fkeys entries)) base v with
         | [] => []
         | aff => [new_step (BasicFish n) base aff [v]]
         end
  end.

Lemma in_flist : forall v i p, 0 <= i < box_width s * box_height s ->
  (In p (flist v i) <-> field s p /\ line p = i /\ In v (cand s p)).
Proof.
  intros v i p Hi. unfold flist. rewrite in_pcl. destruct (line_list_ok s W kb (i, i) (diag_field s i Hi)) as [_ [_ H]].
  rewrite H. unfold unit_at. rewrite Hline. tauto.
Qed.
Lemma flist_nodup : forall v i, 0 <= i < box_width s * box_height s -> NoDup (flist v i).
Proof.
  intros v i Hi. apply NoDup_filter. destruct (line_list_ok s W kb (i, i) (diag_field s i Hi)) as [_ [N _]]. auto.
Qed.
Lemma in_fvalid : forall n v e, In e (fvalid n v) <->
  0 <= fst e < box_width s * box_height s /\ snd e = flist v (fst e) /\ (2 <= length (snd e) <= n)%nat.
Proof.
  intros n v [i l]. unfold fvalid. rewrite filter_In, in_map_iff. cbn [fst snd]. unfold py_len.
  rewrite andb_true_iff, !Z.leb_le. split.
  - intros [[x [E Hx]] H]. inv E. apply in_indices_field in Hx. splits; auto; try apply Hx; try lia.
  - intros [H1 [-> H2]]. split; [exists i; split; auto; apply in_indices_field; auto|lia].
Qed.
Lemma fvalid_nodup : forall n v, NoDup (fvalid n v).
Proof.
  intros n v. apply NoDup_filter. apply NoDup_map_inj; [intros x y _ _ E; inv E; auto|]. apply indices_nodup.
Qed.

Section Entries.
Variables (n : nat) (v : Z) (entries : list (Z * list coord)).
Hypothesis He : In entries (combinations n (fvalid n v)).

Lemma fe_in : forall e, In e entries -> In e (fvalid n v).
Proof. intros e H. eapply combinations_incl; eauto. Qed.
Lemma fe_fst : NoDup (map fst entries).
Proof.
  apply NoDup_map_inj; [|eapply combinations_nodup; [apply fvalid_nodup|exact He]].
  intros x y Hx Hy E. apply fe_in in Hx, Hy. apply in_fvalid in Hx, Hy. destruct x, y; cbn in *. intuition congruence.
Qed.
Lemma fe_base : forall p, In p (fbase entries) <-> field s p /\ In (line p) (map fst entries) /\ In v (cand s p).
Proof.
  intros p. unfold fbase. rewrite in_concat_map. split.
  - intros [e [H1 H2]]. pose proof (fe_in e H1) as X. apply in_fvalid in X. destruct X as [R [E _]].
    rewrite E in H2. apply in_flist in H2; auto. destruct H2 as [F [L C]]. splits; auto. rewrite L. apply in_map; auto.
  - intros [F [L C]]. apply in_map_iff in L. destruct L as [e [E H]]. exists e; split; auto.
    pose proof (fe_in e H) as X. apply in_fvalid in X. destruct X as [R [E' _]]. rewrite E'. apply in_flist; auto.
Qed.
Lemma fe_nodup : NoDup (fbase entries).
Proof.
  unfold fbase. rewrite <- flat_map_concat_map.
  assert (Ne : NoDup entries) by (eapply NoDup_map_inv; apply fe_fst).
  apply NoDup_flat_map; auto.
  - intros e H. pose proof (fe_in e H) as X. apply in_fvalid in X. destruct X as [R [E _]]. rewrite E. apply flist_nodup; auto.
  - intros x y p Hx Hy Px Py. pose proof (fe_in x Hx) as X. pose proof (fe_in y Hy) as Y.
    apply in_fvalid in X, Y. destruct X as [R [E _]], Y as [R' [E' _]].
    rewrite E in Px. rewrite E' in Py. apply in_flist in Px, Py; auto. destruct x, y; cbn [fst snd] in *. intuition congruence.
Qed.
Lemma fe_keys : forall j, In j (fkeys entries) <-> exists p, In p (fbase entries) /\ other p = j.
Proof. intros j. unfold fkeys, count_others. rewrite count_others_keys. simpl. tauto. Qed.
Lemma fe_keys_nodup : NoDup (fkeys entries).
Proof. apply count_others_spec. Qed.
Lemma fe_keys_length : py_len (count_others other (fbase entries)) = Z.of_nat (length (fkeys entries)).
Proof. unfold py_len, fkeys, dkeys. rewrite map_length. auto. Qed.
Lemma fe_key_range : forall j, In j (fkeys entries) -> 0 <= j < box_width s * box_height s.
Proof. intros j H. apply fe_keys in H. destruct H as [p [H <-]]. apply fe_base in H. apply Rother; tauto. Qed.
Lemma fe_cov : forall p, In p (fcov (fkeys entries)) <-> field s p /\ In (other p) (fkeys entries).
Proof.
  intros p. unfold fcov. rewrite in_concat_map. split.
  - intros [j [H1 H2]]. destruct (line_list_ok s W kc (j, j) (diag_field s j (fe_key_range j H1))) as [_ [_ H]].
    apply H in H2. destruct H2 as [F T]. apply Hother in T. subst j. auto.
  - intros [F H]. exists (other p). split; auto.
    destruct (line_list_ok s W kc (other p, other p) (diag_field s _ (fe_key_range _ H))) as [_ [_ X]].
    apply X. split; auto. apply Hother; auto.
Qed.
Lemma fe_cov_nodup : NoDup (fcov (fkeys entries)).
Proof.
  unfold fcov. rewrite <- flat_map_concat_map. apply NoDup_flat_map; [apply fe_keys_nodup| |].
  - intros j Hj. destruct (line_list_ok s W kc (j, j) (diag_field s j (fe_key_range j Hj))) as [_ [N _]]. auto.
  - intros i j p Hi Hj Pi Pj.
    destruct (line_list_ok s W kc (i, i) (diag_field s i (fe_key_range i Hi))) as [_ [_ X]].
    destruct (line_list_ok s W kc (j, j) (diag_field s j (fe_key_range j Hj))) as [_ [_ Y]].
    apply X in Pi. apply Y in Pj. destruct Pi as [_ Pi], Pj as [_ Pj]. apply Hother in Pi, Pj. congruence.
Qed.
Lemma fe_twice : forall m, py_min (dvalues (count_others other (fbase entries))) = Ok m ->
  (2 <= m <-> forall j, In j (fkeys entries) -> exists p p', In p (fbase entries) /\ In p' (fbase entries) /\ p <> p' /\ other p = j /\ other p' = j).
Proof.
  intros m Em. apply py_min_spec in Em. destruct Em as [M1 M2].
  assert (X : forall j, (2 <= length (filter (fun p => (other p =? j)%Z) (fbase entries)))%nat <->
    exists p p', In p (fbase entries) /\ In p' (fbase entries) /\ p <> p' /\ other p = j /\ other p' = j).
  { intros j. rewrite (two_members _ _ fe_nodup). split; intros [p [p' [H1 [H2 [H3 [H4 H5]]]]]]; exists p, p'; splits; auto;
      try (apply Z.eqb_eq; auto). }
  split.
  - intros H j Hj. apply X. assert (Y : m <= Z.of_nat (length (filter (fun p => other p =? j) (fbase entries)))).
    { apply M2. apply count_others_values. exists j; auto. }
    lia.
  - intros H. apply count_others_values in M1. destruct M1 as [j [Hj ->]]. apply H in Hj. apply X in Hj. lia.
Qed.
Lemma fe_min : n <> O -> exists m, py_min (dvalues (count_others other (fbase entries))) = Ok m.
Proof.
  intros Nn. pose proof (combinations_length _ _ _ He) as L. destruct entries as [|e t] eqn:Ee; [cbn in L; congruence|].
  rewrite <- Ee in *. assert (X : In e entries) by (rewrite Ee; left; auto).
  pose proof (fe_in e X) as Y. apply in_fvalid in Y. destruct Y as [_ [_ Y]].
  destruct (snd e) as [|p l] eqn:El; [cbn in Y; lia|].
  assert (Hp : In p (fbase entries)) by (unfold fbase; apply in_concat_map; exists e; split; auto; rewrite El; left; auto).
  assert (K : In (other p) (fkeys entries)) by (apply fe_keys; exists p; auto).
  unfold fkeys, dkeys in K. unfold dvalues. destruct (count_others other (fbase entries)) as [|c d]; [destruct K|]. cbn. eauto.
Qed.

Lemma fsteps_sound : forall st, 1 <= v <= box_width s * box_height s -> In st (fsteps n v entries) ->
  exists cov cl aff, fish s n line other v (py_sorted zcmp (map fst entries)) cov cl aff /\ step_is (BasicFish n) cl aff [v] st.
Proof.
  intros st Hv. unfold fsteps. cbv zeta. destruct (py_min _) as [m|] eqn:Em; [|intros []].
  destruct (m <? 2) eqn:E2; [intros []|]; b2p. destruct (Z.of_nat n <? _) eqn:En; [intros []|]; b2p.
  destruct (paff s (fcov (fkeys entries)) (fbase entries) v) as [|a t] eqn:Ea; [intros []|]. rewrite <- Ea. intros [<-|[]].
  exists (py_sorted zcmp (fkeys entries)), (py_sorted coord_cmp (fbase entries)),
    (py_sorted coord_cmp (paff s (fcov (fkeys entries)) (fbase entries) v)).
  assert (Ib : forall p, In p (py_sorted coord_cmp (fbase entries)) <-> In p (fbase entries)) by (intros; apply (in_py_sorted _ coord_cmp_good)).
  assert (Ik : forall j, In j (py_sorted zcmp (fkeys entries)) <-> In j (fkeys entries)) by (intros; apply (in_py_sorted _ zcmp_good)).
  assert (Il : forall j, In j (py_sorted zcmp (map fst entries)) <-> In j (map fst entries)) by (intros; apply (in_py_sorted _ zcmp_good)).
  split; [|apply new_step_is; auto]. unfold fish. splits; auto; try apply Hv.
  - apply zsorted_sset. apply sorted_strict; [apply zcmp_good|apply fe_fst].
  - rewrite py_sorted_length, map_length. eapply combinations_length; eauto.
  - intros i Hi. apply Il in Hi. apply in_map_iff in Hi. destruct Hi as [e [<- Hi]].
    pose proof (fe_in e Hi) as X. apply in_fvalid in X. destruct X as [R [E L]].
    exists (py_sorted coord_cmp (flist v (fst e))). split.
    + apply py_sorted_lists; [apply flist_nodup; auto|]. intros p. apply in_flist; auto.
    + rewrite py_sorted_length, <- E. auto.
  - apply py_sorted_lists; [apply fe_nodup|]. intros p. rewrite fe_base, Il. tauto.
  - apply py_sorted_listsz; [apply fe_keys_nodup|]. intros j. rewrite fe_keys.
    split; intros [p [H1 H2]]; exists p; split; auto; apply Ib; auto.
  - rewrite py_sorted_length. rewrite fe_keys_length in En. lia.
  - intros j Hj. apply Ik in Hj. apply (proj1 (fe_twice m Em)) in Hj; auto.
    destruct Hj as [p [p' [H1 [H2 H3]]]]. exists p, p'. splits; try apply Ib; tauto.
  - apply py_sorted_lists; [apply NoDup_filter, fe_cov_nodup|]. intros p. rewrite in_paff, fe_cov, Ik, Ib. tauto.
  - intros E. apply sorted_nil in E. congruence.
Qed.

Lemma fsteps_complete : forall st lines cov cl aff, n <> O -> fish s n line other v lines cov cl aff ->
  step_is (BasicFish n) cl aff [v] st -> (forall i, In i lines <-> In i (map fst entries)) -> In st (fsteps n v entries).
Proof.
  intros st lines cov cl aff Nn H Hst Hi.
  destruct H as [Hv [Sl [Ll [Hl [Hcl [Hcov [Lc [Ht [Haff Na]]]]]]]]].
  assert (Ecl : py_sorted coord_cmp (fbase entries) = cl).
  { eapply lists_sorted_eq; [apply fe_nodup| |exact Hcl]. intros p. rewrite fe_base, Hi. tauto. }
  assert (Ib : forall p, In p cl <-> In p (fbase entries)) by (intros p; rewrite <- Ecl; apply (in_py_sorted _ coord_cmp_good)).
  assert (Ecov : py_sorted zcmp (fkeys entries) = cov).
  { eapply listsz_sorted_eq; [apply fe_keys_nodup| |exact Hcov]. intros j. rewrite fe_keys.
    split; intros [p [H1 H2]]; exists p; split; auto; apply Ib; auto. }
  assert (Ik : forall j, In j cov <-> In j (fkeys entries)) by (intros j; rewrite <- Ecov; apply (in_py_sorted _ zcmp_good)).
  assert (Eaff : py_sorted coord_cmp (paff s (fcov (fkeys entries)) (fbase entries) v) = aff).
  { eapply lists_sorted_eq; [apply NoDup_filter, fe_cov_nodup| |exact Haff]. intros p. rewrite in_paff, fe_cov, Ik, Ib. tauto. }
  unfold fsteps. cbv zeta. destruct (fe_min Nn) as [m Em]. rewrite Em.
  assert (M : 2 <= m).
  { apply (fe_twice m Em). intros j Hj. apply Ik in Hj. destruct (Ht j Hj) as [p [p' [H1 [H2 H3]]]]. exists p, p'.
    rewrite <- !Ib. auto. }
  replace (m <? 2) with false by (symmetry; apply Z.ltb_ge; auto).
  replace (Z.of_nat n <? py_len (count_others other (fbase entries))) with false.
  2:{ symmetry. apply Z.ltb_ge. rewrite fe_keys_length. rewrite <- Ecov, py_sorted_length in Lc. lia. }
  destruct (paff s (fcov (fkeys entries)) (fbase entries) v) as [|a t] eqn:Ea; [cbn in Eaff; congruence|].
  left. apply step_is_eq in Hst. rewrite Hst. apply step_is_eq. apply new_step_is; auto.
Qed.
Lemma fsteps_length : (length (fsteps n v entries) <= 1)%nat.
Proof.
  unfold fsteps. cbv zeta. destruct (py_min _) as [m|]; [|simpl; lia]. destruct (m <? 2); [simpl; lia|].
  destruct (_ <? _); [simpl; lia|]. destruct (paff _ _ _ _); simpl; lia.
Qed.
End Entries.

Definition fcand (n : nat) (v : Z) : list step := flat_map (fsteps n v) (combinations n (fvalid n v)).

Lemma fcand_runs : forall n v, n <> O -> runs (fish_for_candidate n s v other (kind_func kb) (kind_func kc)) s (fcand n v).
Proof.
  intros n v Nn. unfold fish_for_candidate.
  eapply runs_lift.
  { apply (mapM_ok _ (fun i => (i, flist v i))). intros i Hi. apply in_indices_field in Hi.
    destruct (line_list_ok s W kb (i, i) (diag_field s i Hi)) as [E [_ H]]. cbn [fst snd] in E. rewrite E. cbn [rbind].
    rewrite (fields_with_ok s W) by (intros p Hp; apply H in Hp; apply Hp). reflexivity. }
  cbv zeta. fold (fvalid n v). apply runs_for. intros entries He.
  fold (fbase entries). destruct (fe_min n v entries He Nn) as [m Em].
  eapply runs_lift; [exact Em|]. unfold fsteps. cbv zeta. rewrite Em.
  destruct (m <? 2); [apply runs_ret|]. destruct (_ <? _); [apply runs_ret|].
  eapply runs_lift.
  { apply (mapM_ok _ (fun j => line_list s kc (j, j))). intros j Hj.
    apply (line_list_ok s W kc (j, j)). apply diag_field. apply (fe_key_range n v entries He j Hj). }
  fold (fkeys entries). fold (fcov (fkeys entries)).
  eapply runs_lift; [apply (fields_except_ok s W)|].
  { intros p Hp. apply (fe_cov n v entries He) in Hp. apply Hp. }
  destruct (paff _ _ _ _); [apply runs_ret|apply runs_yield].
Qed.

Lemma in_fcand : forall n v st, n <> O -> 1 <= v <= box_width s * box_height s ->
  (In st (fcand n v) <-> exists lines cov cl aff, fish s n line other v lines cov cl aff /\ step_is (BasicFish n) cl aff [v] st).
Proof.
  intros n v st Nn Hv. unfold fcand. rewrite in_flat_map. split.
  - intros [entries [He H]]. destruct (fsteps_sound n v entries He st Hv H) as [cov [cl [aff X]]].
    exists (py_sorted zcmp (map fst entries)), cov, cl, aff; auto.
  - intros [lines [cov [cl [aff [H Hst]]]]]. pose proof H as [_ [Sl [Ll [Hl _]]]].
    set (es := map (fun i => (i, flist v i)) lines).
    assert (R : forall i, In i lines -> 0 <= i < box_width s * box_height s /\ (2 <= length (flist v i) <= n)%nat).
    { intros i Hi. destruct (Hl i Hi) as [l [L1 L2]].
      assert (Ri : 0 <= i < box_width s * box_height s).
      { destruct l as [|p l']; [cbn in L2; lia|]. assert (X : In p (p :: l')) by (left; auto). apply (proj2 L1) in X.
        destruct X as [F [<- _]]. apply Rline; auto. }
      split; auto. rewrite <- (lists_length l (flist v i) _ L1); auto; [apply flist_nodup; auto|].
      intros p. rewrite in_flist by auto. tauto. }
    destruct (combinations_complete (fun e => existsb (Z.eqb (fst e)) lines) es (fvalid n v)) as [entries [F1 [F2 F3]]].
    + unfold es. apply NoDup_map_inj; [intros x y _ _ E; inv E; auto|]. apply zssorted_nodup; auto.
    + apply fvalid_nodup.
    + intros e Hin. rewrite existsb_exists. unfold es. rewrite in_map_iff. split.
      * intros [i [V1 V2]]. b2p. subst i. exists (fst e). split; auto. apply in_fvalid in Hin. destruct e; cbn in *. intuition congruence.
      * intros [i [<- V]]. exists i; cbn. split; auto. apply Z.eqb_refl.
    + intros e Hin. unfold es in Hin. apply in_map_iff in Hin. destruct Hin as [i [<- V]]. apply in_fvalid. cbn [fst snd].
      destruct (R i V) as [R1 R2]. auto.
    + replace (length es) with n in F1 by (unfold es; rewrite map_length; auto).
      exists entries. split; auto. eapply fsteps_complete; eauto.
      intros i. rewrite in_map_iff. split.
      * intros V. exists (i, flist v i); split; auto. apply F3. unfold es. apply in_map_iff. exists i; auto.
      * intros [e [<- Hin]]. apply F3 in Hin. unfold es in Hin. apply in_map_iff in Hin. destruct Hin as [x [<- Hx]]. auto.
Qed.

(** The clues determine the lines. *)
Lemma fish_lines : forall n v lines cov cl aff, fish s n line other v lines cov cl aff -> listsz lines (fun i => exists p, In p cl /\ line p = i).
Proof.
  intros n v lines cov cl aff [_ [Sl [_ [Hl [Hcl _]]]]]. split; auto. intros i. split.
  - intros Hi. destruct (Hl i Hi) as [l [L1 L2]]. destruct l as [|p l']; [cbn in L2; lia|].
    assert (X : In p (p :: l')) by (left; auto). apply (proj2 L1) in X. destruct X as [F [E C]]. exists p. split; auto.
    apply (proj2 Hcl). rewrite E. auto.
  - intros [p [Hp <-]]. apply (proj2 Hcl) in Hp. tauto.
Qed.
Lemma fcand_nodup : forall n v, n <> O -> 1 <= v <= box_width s * box_height s -> NoDup (fcand n v).
Proof.
  intros n v Nn Hv. unfold fcand. apply NoDup_flat_map.
  - apply combinations_NoDup, fvalid_nodup.
  - intros e _. apply len_one, fsteps_length.
  - intros e e' st He He' H H'.
    destruct (fsteps_sound n v e He st Hv H) as [cov [cl [aff [F S]]]].
    destruct (fsteps_sound n v e' He' st Hv H') as [cov' [cl' [aff' [F' S']]]].
    destruct (step_is_inj _ _ _ _ _ _ _ _ S S') as [E _]. subst cl'.
    apply fish_lines in F, F'. pose proof (listsz_unique _ _ _ F F') as E.
    eapply combinations_same; eauto; [apply fvalid_nodup|].
    assert (X : forall i, In i (map fst e) <-> In i (map fst e')).
    { intros i. rewrite <- (in_py_sorted _ zcmp_good i (map fst e)), E, (in_py_sorted _ zcmp_good). tauto. }
    assert (Y : forall a b, In a (combinations n (fvalid n v)) -> In b (combinations n (fvalid n v)) ->
       (forall i, In i (map fst a) -> In i (map fst b)) -> forall x, In x a -> In x b).
    { intros a b Ha Hb Hab x Hx. pose proof (Hab _ (in_map fst _ _ Hx)) as Z0. apply in_map_iff in Z0.
      destruct Z0 as [y [Ey Hy]]. pose proof (fe_in _ _ _ Ha x Hx) as X1. pose proof (fe_in _ _ _ Hb y Hy) as X2.
      apply in_fvalid in X1, X2. destruct X1 as [_ [X1 _]], X2 as [_ [X2 _]].
      replace x with y; auto. destruct x, y; cbn [fst snd] in *. subst. auto. }
    intros x. split; apply Y; auto; intros i; apply X.
Qed.
End Fish.

Section Fish2.
Variable s : sudoku.
Hypothesis W : wf s.

Definition fish_dir (line other : coord -> Z) : Prop :=
  (line = fst /\ other = snd) \/ (line = snd /\ other = fst).

Lemma line_fst : forall (p : coord) i, together s KRow p (i, i) <-> fst p = i.
Proof. intros p i. cbn. unfold same_row. cbn. tauto. Qed.
Lemma line_snd : forall (p : coord) i, together s KCol p (i, i) <-> snd p = i.
Proof. intros p i. cbn. unfold same_col. cbn. tauto. Qed.
Lemma range_fst : forall p : coord, field s p -> 0 <= fst p < box_width s * box_height s.
Proof. intros p [H _]; auto. Qed.
Lemma range_snd : forall p : coord, field s p -> 0 <= snd p < box_width s * box_height s.
Proof. intros p [_ H]; auto. Qed.

Definition fish_rows n := flat_map (fcand s snd KRow KCol n) (numbers s).
Definition fish_cols n := flat_map (fcand s fst KCol KRow n) (numbers s).

Lemma fish_proof : forall n, n <> O -> exists ys, runs (fish_find n s) s ys /\ NoDup ys /\
  (forall st, In st ys <-> exists line other v lines cov cl aff, fish_dir line other /\
     fish s n line other v lines cov cl aff /\ step_is (BasicFish n) cl aff [v] st).
Proof.
  intros n Nn. exists (fish_rows n ++ fish_cols n).
  assert (I1 : forall st, In st (fish_rows n) <-> exists v lines cov cl aff,
     fish s n fst snd v lines cov cl aff /\ step_is (BasicFish n) cl aff [v] st).
  { intros st. unfold fish_rows. rewrite in_flat_map. split.
    - intros [v [Hv H]]. apply in_numbers' in Hv. exists v. revert H. apply in_fcand; auto using line_fst, line_snd, range_fst, range_snd.
    - intros [v H]. assert (Hv : 1 <= v <= box_width s * box_height s) by (destruct H as [l [c [cl [a [[X _] _]]]]]; exact X).
      exists v. split; [apply in_numbers'; auto|]. revert H. apply in_fcand; auto using line_fst, line_snd, range_fst, range_snd. }
  assert (I2 : forall st, In st (fish_cols n) <-> exists v lines cov cl aff,
     fish s n snd fst v lines cov cl aff /\ step_is (BasicFish n) cl aff [v] st).
  { intros st. unfold fish_cols. rewrite in_flat_map. split.
    - intros [v [Hv H]]. apply in_numbers' in Hv. exists v. revert H. apply in_fcand; auto using line_fst, line_snd, range_fst, range_snd.
    - intros [v H]. assert (Hv : 1 <= v <= box_width s * box_height s) by (destruct H as [l [c [cl [a [[X _] _]]]]]; exact X).
      exists v. split; [apply in_numbers'; auto|]. revert H. apply in_fcand; auto using line_fst, line_snd, range_fst, range_snd. }
  splits.
  - unfold fish_find. cbn [gfor]. rewrite <- (app_nil_r (fish_cols n)).
    apply runs_bind; [|apply runs_bind; [|apply runs_ret]].
    + apply runs_for. intros v _. apply (fcand_runs s W fst snd KRow KCol); auto using line_fst, line_snd, range_fst, range_snd.
    + apply runs_for. intros v _. apply (fcand_runs s W snd fst KCol KRow); auto using line_fst, line_snd, range_fst, range_snd.
  - apply NoDup_app_iff. splits.
    + apply NoDup_flat_map; [apply numbers_nodup| |].
      * intros v Hv. apply in_numbers' in Hv. apply (fcand_nodup s W fst snd KRow KCol); auto using line_fst, line_snd, range_fst, range_snd.
      * intros v v' st Hv Hv' H H'. apply in_numbers' in Hv, Hv'.
        apply (in_fcand s W fst snd KRow KCol) in H; auto using line_fst, line_snd, range_fst, range_snd.
        apply (in_fcand s W fst snd KRow KCol) in H'; auto using line_fst, line_snd, range_fst, range_snd.
        destruct H as [? [? [? [? [_ S]]]]], H' as [? [? [? [? [_ S']]]]].
        destruct (step_is_inj _ _ _ _ _ _ _ _ S S') as [_ [_ E]]. congruence.
    + apply NoDup_flat_map; [apply numbers_nodup| |].
      * intros v Hv. apply in_numbers' in Hv. apply (fcand_nodup s W snd fst KCol KRow); auto using line_fst, line_snd, range_fst, range_snd.
      * intros v v' st Hv Hv' H H'. apply in_numbers' in Hv, Hv'.
        apply (in_fcand s W snd fst KCol KRow) in H; auto using line_fst, line_snd, range_fst, range_snd.
        apply (in_fcand s W snd fst KCol KRow) in H'; auto using line_fst, line_snd, range_fst, range_snd.
        destruct H as [? [? [? [? [_ S]]]]], H' as [? [? [? [? [_ S']]]]].
        destruct (step_is_inj _ _ _ _ _ _ _ _ S S') as [_ [_ E]]. congruence.
    + intros st H H'. apply I1 in H. apply I2 in H'.
      destruct H as [v [lines [cov [cl [aff [F S]]]]]], H' as [v' [lines' [cov' [cl' [aff' [F' S']]]]]].
      destruct (step_is_inj _ _ _ _ _ _ _ _ S S') as [E1 [E2 E3]]. subst cl' aff'. injection E3 as E3. subst v'.
      pose proof F as [_ [_ [_ [_ [_ [Hcov [_ [_ [Haff Na]]]]]]]]].
      pose proof F' as [_ [_ [_ [_ [Hcl' _]]]]].
      destruct aff as [|a t]; [congruence|].
      assert (X : In a (a :: t)) by (left; auto). apply (proj2 Haff) in X. destruct X as [Fa [Oa [Nc Ca]]].
      apply Nc. apply (proj2 Hcl'). splits; auto.
      apply (proj2 Hcov) in Oa. destruct Oa as [p [Hp <-]]. apply (proj2 Hcl') in Hp. tauto.
  - intros st. rewrite in_app_iff, I1, I2. unfold fish_dir. split.
    + intros [H|H]; [exists fst, snd|exists snd, fst]; destruct H as [v [l [c [cl [a H]]]]]; exists v, l, c, cl, a; auto.
    + intros [line [other [v [l [c [cl [a [[[-> ->]|[-> ->]] H]]]]]]]]; [left|right]; exists v, l, c, cl, a; auto.
Qed.
End Fish2.
