(** Lemmas for C133: sudokus with arbitrary objects in the fields. *)
From Verif Require Export SpecObjects LDlx3 LSolve.

Lemma filter_keeps : forall {A} (f : A -> bool) l, (forall x, In x l -> f x = true) -> filter f l = l.
Proof. intros A f l; induction l as [|a l IH]; intros H; simpl; auto. rewrite (H a) by (left; auto). rewrite IH; auto. intros x Hx. apply H. right; auto. Qed.

Section Obj.
Variable O : objects.

(** * Fields *)
Lemma empty_o_list : forall s, wf s ->
  glist (empty_o O s) s = Ok (filter (fun p => negb (truth O (num s p))) (coords s)).
Proof.
  intros s W. assert (G : gresult (empty_o O s) s = Ok s /\
    gyields (empty_o O s) s = filter (fun p => negb (truth O (num s p))) (coords s)).
  { unfold empty_o. rewrite <- flat_map_filter. apply gfor_yields.
    intros [r c] Hin. apply in_coords in Hin. simpl. rewrite getitem_ok by auto. simpl.
    destruct (truth O (num s (r, c))); simpl; auto. }
  unfold glist; destruct G as [-> ->]; auto.
Qed.
Lemma filled_o_list : forall s, wf s ->
  glist (filled_o O s) s = Ok (filter (fun p => truth O (num s p)) (coords s)).
Proof.
  intros s W. assert (G : gresult (filled_o O s) s = Ok s /\
    gyields (filled_o O s) s = filter (fun p => truth O (num s p)) (coords s)).
  { unfold filled_o. rewrite <- flat_map_filter. apply gfor_yields.
    intros [r c] Hin. apply in_coords in Hin. simpl. rewrite getitem_ok by auto. simpl.
    destruct (truth O (num s (r, c))); simpl; auto. }
  unfold glist; destruct G as [-> ->]; auto.
Qed.
Lemma diff_o_list : forall s t, wf s -> wf t -> (forall p, field s p -> field t p) ->
  glist (diff_o O s t) s = Ok (filter (fun p => one O (num s p) (num t p)) (coords s)).
Proof.
  intros s t W Wt Hf.
  assert (G : gresult (diff_o O s t) s = Ok s /\
    gyields (diff_o O s t) s = filter (fun p => one O (num s p) (num t p)) (coords s)).
  { unfold diff_o. rewrite <- flat_map_filter. apply gfor_yields.
    intros [r c] Hin. apply in_coords in Hin. simpl. rewrite !getitem_ok by auto. simpl.
    destruct (one O (num s (r, c)) (num t (r, c))); simpl; auto. }
  unfold glist; destruct G as [-> ->]; auto.
Qed.

Lemma filter_split_length : forall {A} (f : A -> bool) l, (length (filter f l) + length (filter (fun x => negb (f x)) l))%nat = length l.
Proof. intros A f l; induction l as [|a l IH]; simpl; auto. destruct (f a); simpl; lia. Qed.

Lemma C133_fields_proof : forall s, wf s -> exists e f n, glist (empty_o O s) s = Ok e /\ glist (filled_o O s) s = Ok f /\
  NoDup e /\ NoDup f /\
  (forall p, In p e <-> field s p /\ truth O (num s p) = false) /\ (forall p, In p f <-> field s p /\ truth O (num s p) = true) /\
  count_o O s = Ok n /\ n = Z.of_nat (length f) /\ n + Z.of_nat (length e) = (box_width s * box_height s) ^ 2.
Proof.
  intros s W. eexists; eexists; eexists. split; [apply empty_o_list; auto|]. split; [apply filled_o_list; auto|].
  split; [apply NoDup_filter, NoDup_coords|]. split; [apply NoDup_filter, NoDup_coords|].
  split; [intros p; rewrite filter_In, in_coords, negb_true_iff; tauto|].
  split; [intros p; rewrite filter_In, in_coords; tauto|].
  split; [unfold count_o; rewrite filled_o_list by auto; cbn [rbind]; reflexivity|]. split; [reflexivity|].
  unfold py_len. rewrite <- Nat2Z.inj_add, filter_split_length, length_coords. pose proof (NN_pos s W).
  rewrite Z.pow_2_r, Nat2Z.inj_mul, Z2Nat.id; lia.
Qed.

Lemma eq_loop_o_ok : forall s t l, wf s -> wf t -> (forall p, In p l -> field s p /\ field t p) ->
  exists b, eq_loop_o O s t l = Ok b /\ (b = true <-> forall p, In p l -> one O (num s p) (num t p) = false).
Proof.
  intros s t l W Wt; induction l as [|[r c] l IH]; intros H; cbn [eq_loop_o].
  - exists true. split; auto. split; auto. intros _ p [].
  - destruct (H (r, c) (or_introl eq_refl)) as [F1 F2]. cbn [fst snd]. rewrite !getitem_ok by auto. cbn [rbind].
    destruct (one O (num s (r, c)) (num t (r, c))) eqn:E.
    + exists false. split; auto. split; [discriminate|]. intros X. rewrite (X (r, c) (or_introl eq_refl)) in E. discriminate.
    + destruct IH as [b [Eb Hb]]; [intros; apply H; right; auto|]. exists b. split; auto. rewrite Hb. split.
      * intros X p [<-|Hp]; auto.
      * intros X p Hp. apply X. right; auto.
Qed.

Lemma C133_diff_proof : forall s t, wf s -> wf t -> box_size t = box_size s -> exists d b,
  glist (diff_o O s t) s = Ok d /\ NoDup d /\ (forall p, In p d <-> field s p /\ one O (num s p) (num t p) = true) /\
  sudoku_eq_o O s t = Ok b /\ (b = true <-> d = []).
Proof.
  intros s t W Wt B. unfold box_size in B. injection B as B1 B2.
  assert (Ft : forall p, field s p -> field t p) by (intros p; unfold field; rewrite B1, B2; auto).
  destruct (eq_loop_o_ok s t (coords s) W Wt) as [b [Eb Hb]].
  { intros p Hp. apply in_coords in Hp. auto. }
  eexists; exists b. split; [apply diff_o_list; auto|]. split; [apply NoDup_filter, NoDup_coords|].
  split; [intros p; rewrite filter_In, in_coords; tauto|].
  split; [unfold sudoku_eq_o; rewrite Eb; auto|]. rewrite Hb. split.
  - intros H. destruct (filter _ _) as [|p l] eqn:E; auto. exfalso.
    assert (X : In p (p :: l)) by (left; auto). rewrite <- E in X. apply filter_In in X. destruct X as [X1 X2].
    rewrite (H p X1) in X2. discriminate.
  - intros H p Hp. destruct (one O (num s p) (num t p)) eqn:E; auto. exfalso.
    assert (X : In p []) by (rewrite <- H; apply filter_In; auto). destruct X.
Qed.

(** Sudokus of other sizes: a field outside of [t] raises an IndexError, which means False. *)
Lemma eq_loop_o_cases : forall s t l, wf s -> wf t -> (forall p, In p l -> field s p) ->
  (eq_loop_o O s t l = Ok true /\ (forall p, In p l -> field t p /\ one O (num s p) (num t p) = false)) \/
  ((eq_loop_o O s t l = Ok false \/ eq_loop_o O s t l = Err IndexError) /\
   ~ forall p, In p l -> field t p /\ one O (num s p) (num t p) = false).
Proof.
  intros s t l W Wt; induction l as [|[r c] l IH]; intros H; cbn [eq_loop_o].
  - left. split; auto. intros p [].
  - pose proof (H (r, c) (or_introl eq_refl)) as F1. cbn [fst snd]. rewrite getitem_ok by auto. cbn [rbind].
    assert (D : field t (r, c) \/ ~ field t (r, c)) by (unfold field, cell; cbn; lia).
    destruct D as [F2|F2].
    + rewrite getitem_ok by auto. cbn [rbind]. destruct (one O (num s (r, c)) (num t (r, c))) eqn:E.
      * right. split; auto. intros X. destruct (X (r, c) (or_introl eq_refl)). congruence.
      * destruct IH as [[I1 I2]|[I1 I2]]; [intros; apply H; right; auto| |].
        -- left. split; auto. intros p [<-|Hp]; auto.
        -- right. split; auto. intros X. apply I2. intros p Hp. apply X. right; auto.
    + rewrite getitem_err; auto.
      * cbn [rbind]. right. split; auto. intros X. apply F2. apply X. left; auto.
      * intros [V1 V2]. apply F2. unfold valid_index in V1, V2. destruct F1 as [A B]. cbn [fst snd] in *. unfold field, cell. cbn [fst snd].
        unfold NN in *. lia.
Qed.

Lemma C133_sizes_proof : forall s t, wf s -> wf t -> exists b, sudoku_eq_o O s t = Ok b /\
  (b = true <-> forall p, field s p -> field t p /\ one O (num s p) (num t p) = false).
Proof.
  intros s t W Wt. unfold sudoku_eq_o.
  assert (C : forall p, In p (coords s) -> field s p) by (intros p; apply in_coords).
  destruct (eq_loop_o_cases s t (coords s) W Wt C) as [[E H]|[[E|E] H]]; rewrite E.
  - exists true. split; auto. split; auto. intros _ p Fp. apply H. apply in_coords; auto.
  - exists false. split; auto. split; [discriminate|]. intros X. exfalso. apply H. auto.
  - exists false. split; auto. split; [discriminate|]. intros X. exfalso. apply H. auto.
Qed.

Lemma C133_copy_proof : forall s cands, wf s -> exists t, copy s cands = Ok t /\ (forall p, field s p -> num t p = num s p) /\
  exists b, sudoku_eq_o O s t = Ok b /\ (b = true <-> forall p, field s p -> one O (num s p) (num s p) = false).
Proof.
  intros s cands W. destruct (copy_ok s cands W) as [t [E [Wt [Ew [Eh [Hn _]]]]]]. exists t. split; auto. split; auto.
  assert (Ft : forall p, field s p -> field t p) by (intros p; unfold field; rewrite Ew, Eh; auto).
  destruct (eq_loop_o_ok s t (coords s) W Wt) as [b [Eb Hb]].
  { intros p Hp. apply in_coords in Hp. auto. }
  exists b. split; [unfold sudoku_eq_o; rewrite Eb; auto|]. rewrite Hb. split.
  - intros H p Fp. rewrite <- (Hn p Fp) at 2. apply H. apply in_coords; auto.
  - intros H p Hp. apply in_coords in Hp. rewrite Hn by auto. auto.
Qed.

(** * Conflicts *)
Definition oconf (s : sudoku) (p : coord) : list (coord * coord * Z) :=
  if truth O (num s p) then map (fun q => (p, q, num s p)) (filter (fun q => oeq O (num s q) (num s p)) (sur s p)) else [].

Lemma conflicts_o_list : forall s cs, wf s -> (forall p, In p cs -> field s p) ->
  glist (find_conflicts_o O s cs) s = Ok (flat_map (oconf s) (match cs with [] => coords s | _ => cs end)).
Proof.
  intros s cs W Hcs. assert (G : gresult (find_conflicts_o O s cs) s = Ok s /\
    gyields (find_conflicts_o O s cs) s = flat_map (oconf s) (match cs with [] => coords s | _ => cs end)).
  { unfold find_conflicts_o. set (cs' := match cs with [] => coords s | _ => cs end).
    assert (H' : forall p, In p cs' -> field s p).
    { unfold cs'; destruct cs; auto. intros; apply in_coords; auto. }
    apply gfor_yields. intros [r c] Hin. apply H' in Hin. unfold oconf; cbn [fst snd].
    rewrite getitem_ok by auto. cbn [lift gbind negb]. destruct (truth O (num s (r, c))) eqn:E; cbn [negb]; [|simpl; auto].
    rewrite surrounding_ok by auto. simpl. rewrite <- flat_map_filter_map.
    apply gfor_yields. intros [a b] Hab. apply in_sur in Hab; auto. simpl.
    rewrite getitem_ok by tauto. simpl.
    destruct (oeq O (num s (a, b)) (num s (r, c))); simpl; auto. }
  unfold glist; destruct G as [-> ->]; auto.
Qed.

Lemma C133_conflicts_proof : forall s cs, wf s -> (forall p, In p cs -> field s p) ->
  exists l, glist (find_conflicts_o O s cs) s = Ok l /\
    (forall p q v, In (p, q, v) l <->
       (cs = [] \/ In p cs) /\ field s p /\ field s q /\
       peers (box_width s) (box_height s) p q /\ num s p = v /\ truth O v = true /\ oeq O (num s q) v = true).
Proof.
  intros s cs W Hcs. eexists. split; [apply conflicts_o_list; auto|].
  set (cs' := match cs with [] => coords s | _ => cs end).
  assert (H' : forall p, In p cs' <-> (cs = [] \/ In p cs) /\ field s p).
  { unfold cs'; destruct cs; intros p.
    - rewrite in_coords; tauto.
    - split; [intros H; split; auto|]. intros [[H|H] _]; [discriminate|auto]. }
  intros p q v. rewrite in_flat_map. split.
  - intros [x [Hx H]]. apply H' in Hx. destruct Hx as [Hc Fx]. unfold oconf in H.
    destruct (truth O (num s x)) eqn:E; [|destruct H]. apply in_map_iff in H. destruct H as [y [Ey Hy]].
    injection Ey as <- <- <-. apply filter_In in Hy. destruct Hy as [Hy He]. apply in_sur in Hy; auto. tauto.
  - intros [Hc [Fp [Fq [Pq [<- [T E]]]]]]. exists p. split; [apply H'; auto|]. unfold oconf. rewrite T.
    apply in_map_iff. exists q. split; auto. apply filter_In. split; auto. apply in_sur; auto.
Qed.

(** * Objects like ints *)
Lemma stands_dims : forall s t, stands O s t -> box_width t = box_width s /\ box_height t = box_height s.
Proof. intros s t [_ [_ [B _]]]. unfold box_size in B. injection B; auto. Qed.
Lemma stands_field : forall s t p, stands O s t -> (field t p <-> field s p).
Proof. intros s t p H. destruct (stands_dims s t H) as [E1 E2]. unfold field. rewrite E1, E2. tauto. Qed.
Lemma stands_coords : forall s t, stands O s t -> coords t = coords s.
Proof. intros s t H. destruct (stands_dims s t H) as [E1 E2]. unfold coords, indices. rewrite E1, E2. auto. Qed.

Lemma C133_conflicts_ints_proof : forall s t cs, stands O s t -> (forall p, In p cs -> field s p) ->
  exists l l', glist (find_conflicts_o O s cs) s = Ok l /\ glist (find_conflicts t cs) t = Ok l' /\ map fst l = map fst l'.
Proof.
  intros s t cs H Hcs. pose proof H as [W [Wt [_ [T [E _]]]]].
  eexists; eexists. split; [apply conflicts_o_list; auto|]. split.
  { unfold glist. destruct (conflicts_list t cs Wt) as [-> ->]; [intros; apply (stands_field s t); auto|]. reflexivity. }
  rewrite (stands_coords s t H). set (cs' := match cs with [] => coords s | _ => cs end).
  assert (H' : forall p, In p cs' -> field s p).
  { unfold cs'; destruct cs; auto. intros; apply in_coords; auto. }
  clearbody cs'. clear Hcs. induction cs' as [|p l IH]; auto. cbn [flat_map]. rewrite !map_app, IH by (intros; apply H'; right; auto).
  f_equal. assert (Fp : field s p) by (apply H'; left; auto). unfold oconf, pconf. rewrite (T p Fp).
  destruct (num t p =? 0) eqn:Z0; cbn [negb]; auto. rewrite !map_map. cbn [fst].
  destruct (stands_dims s t H) as [E1 E2]. rewrite (sur_dims t s p) by auto.
  f_equal. apply filter_ext_in. intros q Hq. apply in_sur in Hq; auto. apply E; auto; [tauto|].
  rewrite (T p Fp), Z0. auto.
Qed.

Lemma C133_solved_proof : forall s t, stands O s t -> is_solved_o O s = is_solved t.
Proof.
  intros s t H. pose proof H as [W [Wt [_ [T _]]]]. unfold is_solved_o, is_solved.
  rewrite empty_o_list, glist_empty by auto. cbn [rbind]. rewrite (stands_coords s t H).
  replace (filter (fun p => negb (truth O (num s p))) (coords s)) with (filter (fun p => num t p =? 0) (coords s)).
  2: { apply filter_ext_in. intros p Hp. apply in_coords in Hp. rewrite T by auto. rewrite negb_involutive. auto. }
  destruct (filter _ _); auto.
  destruct (C133_conflicts_ints_proof s t [] H) as [l [l' [E1 [E2 E3]]]]; [intros p []|]. rewrite E1, E2. cbn [rbind].
  destruct l, l'; auto; discriminate.
Qed.

Lemma C133_candidates_proof : forall s t r c l, stands O s t -> field s (r, c) -> calc_candidates t r c = Ok l ->
  calc_candidates_o O s r c = Ok (if truth O (num s (r, c)) then inl (num s (r, c)) else inr l).
Proof.
  intros s t r c l H F El. pose proof H as [W [Wt [_ [T [_ K]]]]]. destruct (stands_dims s t H) as [E1 E2].
  assert (Ft : field t (r, c)) by (apply (stands_field s t); auto).
  unfold calc_candidates_o. unfold calc_candidates in El. rewrite getitem_ok in * by auto. cbn [rbind] in *.
  pose proof (T _ F) as T0. destruct (truth O (num s (r, c))) eqn:Tr.
  { destruct (K _ F) as [K0|[K0 _]]; rewrite K0; auto. }
  rewrite <- T0 in El. rewrite surrounding_ok in * by auto. cbn [rbind] in *. rewrite (sur_dims t s) in El by auto.
  replace (numbers t) with (numbers s) in El by (unfold numbers; rewrite E1, E2; auto).
  rewrite (sof_list_id _ zcmp_good) in * by apply numbers_sorted.
  match goal with |- context [foldM ?f ?l0 ?a] =>
    destruct (foldM_pure f (fun c q => sdiscard zcmp (num t q) c) (fun acc => forall n, In n acc -> In n (numbers s)) l0 a) as [G _]; auto end.
  { intros acc [a b] Hin Hacc. apply in_sur in Hin; auto. destruct Hin as [Fq _]. cbn [fst snd]. rewrite getitem_ok by auto. cbn [rbind].
    split.
    - destruct (K _ Fq) as [K0|[K0 Nr]]; rewrite K0; cbn [rbind]; auto. f_equal. symmetry. unfold sdiscard.
      apply filter_keeps. intros n Hn. apply negb_true_iff. apply (cmp_eqb_neq _ zcmp_good).
      intros Heq. subst n. apply Nr. specialize (Hacc _ Hn). unfold numbers in Hacc. apply in_py_range2 in Hacc. lia.
    - intros n Hn. apply Hacc. unfold sdiscard in Hn. apply filter_In in Hn. tauto. }
  rewrite G. cbn [rbind].
  match type of El with foldM ?f ?l0 ?a = _ =>
    destruct (foldM_pure f (fun c q => sdiscard zcmp (num t q) c) (fun _ => True) l0 a) as [G' _]; auto end.
  { intros acc [a b] Hin _. apply in_sur in Hin; auto. cbn [fst snd]. rewrite getitem_ok by (auto; apply (stands_field s t); tauto). auto. }
  rewrite G' in El. injection El as <-. auto.
Qed.

(** * dlx *)
Lemma select_givens_o_eq : forall s t l X, stands O s t -> (forall p, In p l -> field s p) ->
  select_givens_o O s (build_Y (box_height s) (box_width s)) l X =
  select_givens t (build_Y (box_height s) (box_width s)) l X.
Proof.
  intros s t l X H. pose proof H as [W [Wt [_ [T [_ K]]]]]. revert X. induction l as [|[r c] l IH]; intros X Hl; auto.
  assert (F : field s (r, c)) by (apply Hl; left; auto). assert (Ft : field t (r, c)) by (apply (stands_field s t); auto).
  cbn [select_givens_o select_givens fst snd]. rewrite !getitem_ok by auto. cbn [rbind].
  rewrite (T _ F). destruct (num t (r, c) =? 0) eqn:Z0; cbn [negb]; [apply IH; intros; apply Hl; right; auto|].
  destruct (K _ F) as [K0|[K0 Nr]]; rewrite K0; cbn [rbind].
  - destruct (select X _ _) as [[c0 X']|e]; auto. apply IH; intros; apply Hl; right; auto.
  - unfold select. rewrite (Y_get_err _ _); auto.
    intros V. apply in_all_rows in V. lia.
Qed.

Definition kept_o (s y : sudoku) : Prop :=
  wf y /\ box_size y = box_size s /\ forall p, field s p -> truth O (num s p) = true -> num y p = num s p.
Definition rel_o (s t : sudoku) (l : list xrow) (y : sudoku) : Prop :=
  wf y /\ box_size y = box_size s /\
  forall p, field s p -> num y p = if truth O (num s p) then num s p else oint O (gl (givens t (coords t) ++ l) p).

Lemma write_rows_o_ok : forall s t y l, stands O s t -> kept_o s y ->
  Exact (box_height t) (box_width t) [] (givens t (coords t) ++ l) ->
  exists y', write_rows_o O y l = Ok y' /\ rel_o s t l y'.
Proof.
  intros s t y l H [Wy [By Hy]] Ex. pose proof H as [W [Wt [_ [T _]]]].
  destruct (stands_dims s t H) as [E1 E2]. pose proof (gl_spec _ _ _ Ex) as Hg.
  assert (Ft : forall p, field t p <-> field s p) by (intros; apply stands_field; auto).
  assert (Fy : forall p, field y p <-> field s p).
  { unfold box_size in By. injection By as B1 B2. intros p. unfold field. rewrite B1, B2. tauto. }
  assert (Hpos : forall i, In i l -> field t (fst i) /\ snd i = gl (givens t (coords t) ++ l) (fst i)).
  { intros [p m] Hi. apply Hg. apply in_or_app; auto. }
  destruct (foldM_setitem l (fun i : xrow => fst i) (fun i : xrow => oint O (snd i)) y Wy) as
    [y' [E [Wy' [Ew' [Eh' [_ [H1 H2]]]]]]].
  { intros i Hi. apply Fy, Ft, Hpos; auto. }
  exists y'. split.
  { unfold write_rows_o. rewrite <- E. apply foldM_ext. intros acc [[r c] m] _; reflexivity. }
  split; auto. split; [unfold box_size in *; congruence|].
  intros p Fp. assert (Fpt : field t p) by (apply Ft; auto).
  assert (Hin : In (p, gl (givens t (coords t) ++ l) p) (givens t (coords t) ++ l)) by (apply Hg; auto).
  pose proof (T p Fp) as Tp.
  destruct (in_dec coord_eq_dec p (map (fun i : xrow => fst i) l)) as [D|D].
  - destruct (H2 p) as [i [Hi [Ep Ev]]]; auto. { apply Fy; auto. }
    destruct (truth O (num s p)) eqn:Tr.
    + exfalso. assert (Hgi : In (p, num t p) (givens t (coords t))).
      { apply givens_in; auto. splits; auto. intros Z0. rewrite Z0 in Tp. discriminate. }
      assert (ND : NoDup (givens t (coords t) ++ l)) by (eapply Exact_NoDup; eauto).
      apply NoDup_app_iff in ND. destruct ND as [_ [_ ND]]. apply (ND (p, num t p)); auto.
      assert (Hgp : num t p = gl (givens t (coords t) ++ l) p) by (apply (Hg p); apply in_or_app; auto).
      destruct (Hpos i Hi) as [_ Es]. rewrite Hgp, <- Ep, <- Es. destruct i; auto.
    + rewrite Ev. destruct (Hpos i Hi) as [_ Es]. rewrite Es, Ep; auto.
  - rewrite H1; auto; [|apply Fy; auto]. apply in_app_or in Hin. destruct Hin as [Hin|Hin].
    + apply givens_in in Hin; auto. destruct Hin as [_ [Hne _]].
      destruct (truth O (num s p)) eqn:Tr; [apply Hy; auto|]. exfalso. symmetry in Tp. apply negb_false_iff in Tp. apply Z.eqb_eq in Tp. auto.
    + exfalso; apply D. apply in_map_iff. eexists; split; [|apply Hin]; auto.
Qed.

Lemma do_dlx_o_ok : forall ord s t, (forall p l, Permutation (ord p l) l) -> stands O s t ->
  gresult (do_dlx_o O ord s) tt = Ok tt /\
  Forall2 (fills_in O s) (gyields (do_dlx_o O ord s) tt) (gyields (do_dlx ord t) tt) /\
  Forall (fun z => wf z /\ box_size z = box_size t) (gyields (do_dlx ord t) tt).
Proof.
  intros ord s t Ho H. pose proof H as [W [Wt [_ [T _]]]]. destruct (stands_dims s t H) as [Ew Eh].
  unfold do_dlx_o, do_dlx. cbv zeta. pose proof (stands_coords s t H) as Ec. rewrite Ec, <- Eh, <- Ew.
  destruct (exact_cover_ok _ _ (wf_h _ Wt) (wf_w _ Wt)) as [X [E [HX LX]]].
  rewrite E. cbn [lift gbind].
  pose proof (select_givens_o_eq s t (coords s) X H) as Esg. rewrite <- Eh, <- Ew in Esg.
  rewrite Esg by (intros; apply in_coords; auto). clear Esg.
  destruct (select_givens_ok t (coords s) [] X Wt) as [o [Eo Ho']]; auto.
  { intros p Hp. apply (stands_field s t); auto. apply in_coords; auto. }
  rewrite Eo. cbn [lift gbind]. destruct o as [X'|]; [|cbn; auto].
  destruct Ho' as [cov [HX' [LX' Hcov]]].
  destruct (xsolve_ok _ _ (wf_h _ Wt) (wf_w _ Wt) ord Ho (S (length (coords s))) cov [] X' HX')
    as [ls [X2 [E2 [HX2 [Y2 HL]]]]].
  { rewrite all_keys_length in LX by (pose proof (NN_pos t Wt); lia).
    rewrite <- Ec, length_coords, (Z.mul_comm (box_width t)). lia. }
  { lia. }
  assert (Y2' : gyields (xsolve (S (length (coords s))) ord (build_Y (box_height t) (box_width t)) X' []) tt = ls).
  { etransitivity; [exact Y2|]. rewrite <- (map_id ls) at 2. apply map_ext; auto. }
  rewrite <- Ec in Hcov.
  destruct (gforgen_rel (fun '(tt, s) solution =>
                        do* s := lift (write_rows_o O s solution) in
                        do* _ := yield s in
                        Ret (tt, s))
     (xsolve (S (length (coords s))) ord (build_Y (box_height t) (box_width t)) X' [])
     (rel_o s t) (fun l => Exact (box_height t) (box_width t) [] (givens t (coords t) ++ l))
     (kept_o s) s X2) as [HF [st [Est _]]]; auto.
  { intros [[] y] l Hy Hl. simpl in Hy.
    destruct (write_rows_o_ok s t y l H Hy Hl) as [y' [Et Hr]].
    rewrite Et. cbn. exists (tt, y'), y'. splits; auto.
    destruct Hr as [R1 [R2 R3]]. split; auto. split; auto. intros p Fp Tp. rewrite R3, Tp; auto. }
  { unfold kept_o; auto. }
  { rewrite Y2'. intros l Hl. apply Hcov. apply HL; auto. }
  destruct (gforgen_rel (fun '(tt, s) solution =>
                        do* s := lift (write_rows s solution) in
                        do* _ := yield s in
                        Ret (tt, s))
     (xsolve (S (length (coords s))) ord (build_Y (box_height t) (box_width t)) X' [])
     (rel_rows t) (fun l => Exact (box_height t) (box_width t) [] (givens t (coords t) ++ l))
     (same_filled t) t X2) as [HF2 [st2 [Est2 _]]]; auto.
  { intros [[] y] l Hy Hl. simpl in Hy.
    destruct (write_rows_ok t y l Wt Hy Hl) as [t' [Et [Ht' Hn]]].
    rewrite Et. cbn. exists (tt, t'), t'. splits; auto.
    unfold rel_rows; splits; auto; apply Ht'. }
  { unfold same_filled; auto. }
  { rewrite Y2'. intros l Hl. apply Hcov. apply HL; auto. }
  rewrite gresult_gbind, !gyields_gbind, Est, Est2. cbn [gresult gyields]. rewrite !app_nil_r.
  split; auto. clear - HF HF2 H. pose proof H as [_ [_ [_ [T _]]]].
  match goal with |- Forall2 _ ?a ?b /\ _ => set (ys := a) in *; set (zs := b) in * end. clearbody ys zs.
  match type of HF with Forall2 _ ?a _ => set (xs := a) in * end. clearbody xs.
  revert zs HF2. induction HF as [|l y xs0 ys0 Hy HF IH]; intros zs HF2; inv HF2; [auto|].
  destruct (IH _ H4) as [I1 I2]. destruct H2 as [Wz [Z1 [Z2 Z3]]]. destruct Hy as [Wy [By Hy]].
  split; constructor; auto.
  - split; auto. split; auto. intros p Fp. rewrite Hy by auto. rewrite <- Z3 by (apply (stands_field s t); auto). auto.
  - split; auto. unfold box_size. congruence.
Qed.

Lemma stands_copy : forall s t s' t' c c', stands O s t -> copy s c = Ok s' -> copy t c' = Ok t' -> stands O s' t'.
Proof.
  intros s t s' t' c c' H Es Et. pose proof H as [W [Wt [B [T [E K]]]]].
  destruct (copy_ok s c W) as [s2 [Es2 [Ws2 [Ew [Eh [Hn _]]]]]]. rewrite Es in Es2. injection Es2 as <-.
  destruct (copy_ok t c' Wt) as [t2 [Et2 [Wt2 [Ewt [Eht [Hnt _]]]]]]. rewrite Et in Et2. injection Et2 as <-.
  assert (Fs : forall p, field s' p <-> field s p) by (intros; unfold field; rewrite Ew, Eh; tauto).
  assert (Ft : forall p, field s p -> field t p) by (intros; apply (stands_field s t); auto).
  unfold stands. split; auto. split; auto. split; [unfold box_size in *; congruence|]. rewrite Ew, Eh.
  split; [|split].
  - intros p Fp. apply Fs in Fp. rewrite Hn, Hnt by auto. auto.
  - intros p q Fp Fq. apply Fs in Fp, Fq. rewrite !Hn, !Hnt by auto. auto.
  - intros p Fp. apply Fs in Fp. rewrite Hn, Hnt by auto. auto.
Qed.

Lemma C133_dlx_proof : forall ord s t, (forall p l, Permutation (ord p l) l) -> stands O s t ->
  gresult (dlx_o O ord s) tt = Ok tt /\
  Forall2 (fills_in O s) (gyields (dlx_o O ord s) tt) (gyields (dlx ord t) tt).
Proof.
  intros ord s t Ho H. pose proof H as [W [Wt _]]. unfold dlx_o, dlx.
  destruct (copy_ok s false W) as [s' [E [Ws' [Ew [Eh [Hn _]]]]]].
  destruct (copy_ok t false Wt) as [t' [Et [Wt' [Ewt [Eht [Hnt _]]]]]].
  pose proof (stands_copy _ _ _ _ _ _ H E Et) as H'. rewrite E, Et. cbn [lift gbind].
  destruct (do_dlx_o_ok ord s' t' Ho H') as [Er [HF HW]]. destruct (do_dlx_ok ord Ho t' Wt') as [Er' _].
  assert (Fs : forall p, field s p -> field s' p) by (intros p; unfold field; rewrite Ew, Eh; auto).
  set (F := fun b y z : sudoku => wf z /\ box_size z = box_size b /\ (forall p, field b p -> num z p = num y p)).
  assert (HC : forall b (g : gen unit sudoku unit), gresult g tt = Ok tt -> Forall (fun y => wf y /\ box_size y = box_size b) (gyields g tt) ->
    Forall2 (F b) (gyields g tt) (gyields (gforgen (fun (st : unit * unit) solution =>
                      do* c := lift (copy solution false) in
                      do* _ := yield c in
                      Ret st) g (tt, tt)) tt) /\
    exists st, gresult (gforgen (fun (st : unit * unit) solution =>
                      do* c := lift (copy solution false) in
                      do* _ := yield c in
                      Ret st) g (tt, tt)) tt = Ok st).
  { intros b g Hg HWg. rewrite Forall_forall in HWg.
    destruct (gforgen_rel (fun (st : unit * unit) solution =>
                      do* c := lift (copy solution false) in
                      do* _ := yield c in
                      Ret st) g (F b)
       (fun y => wf y /\ box_size y = box_size b) (fun _ => True) tt tt) as [HF' [st [Est _]]]; auto.
    2: { split; auto. exists st. auto. }
    intros st y _ [Wy By]. destruct (copy_ok y false Wy) as [z [Ez [Wz [Ewz [Ehz [Hnz _]]]]]].
    rewrite Ez. cbn. exists st, z; splits; auto. unfold box_size in By. injection By as By1 By2.
    split; auto. split; [unfold box_size; congruence|]. intros p Fp. apply Hnz. unfold field in *. rewrite By1, By2. auto. }
  destruct (HC s' (do_dlx_o O ord s') Er) as [C1 [st1 G1]].
  { apply Forall_forall. intros y Hy. destruct (Forall2_In_l _ _ _ _ HF Hy) as [z [_ [Wy [By _]]]]. auto. }
  destruct (HC t' (do_dlx ord t') Er' HW) as [C2 [st2 G2]].
  rewrite gresult_gbind, !gyields_gbind, G1, G2. cbn [gresult gyields]. rewrite !app_nil_r. split; auto.
  clear G1 G2 HC.
  match goal with |- Forall2 _ ?a ?b => set (ys := a) in *; set (zs := b) in * end. clearbody ys zs.
  set (y0 := gyields (do_dlx_o O ord s') tt) in *. set (z0 := gyields (do_dlx ord t') tt) in *. clearbody y0 z0. clear HW.
  revert ys zs C1 C2. induction HF as [|a b y0 z0 Hab HF IH]; intros ys zs C1 C2; inv C1; inv C2; constructor; auto.
  destruct Hab as [_ [_ Hab]]. destruct H2 as [Wy [By Hy]]. destruct H3 as [Wz [Bz Hz]].
  split; auto. split; [unfold box_size in *; congruence|]. intros p Fp. rewrite Hy, Hab, Hn by auto.
  rewrite <- Hz by (apply (stands_field s' t'); auto). auto.
Qed.

Lemma C133_unique_proof : forall ord s t, (forall p l, Permutation (ord p l) l) -> stands O s t ->
  is_unique_o O ord s = is_unique ord t.
Proof.
  intros ord s t Ho H. pose proof H as [_ [Wt _]]. destruct (C133_dlx_proof ord s t Ho H) as [Er HF].
  destruct (C23_proof ord t Ho Wt) as [Er' _].
  unfold is_unique_o, is_unique. pose proof (gnext_spec (dlx_o O ord s)) as N1. pose proof (gnext_spec (dlx ord t)) as N2.
  destruct HF as [|y z ys zs Hyz HF].
  - rewrite N1, N2, Er, Er'. auto.
  - destruct N1 as [g1 [E1 [Y1 R1]]]. destruct N2 as [g2 [E2 [Y2 R2]]]. rewrite E1, E2.
    pose proof (gnext_spec g1) as N1. pose proof (gnext_spec g2) as N2. rewrite Y1 in N1. rewrite Y2 in N2.
    destruct HF as [|y' z' ys zs Hyz' HF].
    + rewrite N1, N2, R1, R2, Er, Er'. auto.
    + destruct N1 as [? [-> _]]. destruct N2 as [? [-> _]]. auto.
Qed.

(** * Objects that are not hashable *)
Lemma select_givens_o_err : forall s Y l1 p l2 X, wf s -> (forall q, In q (l1 ++ p :: l2) -> field s q) ->
  (forall q, In q l1 -> truth O (num s q) = false) -> truth O (num s p) = true -> okey O (num s p) = Err TypeError ->
  select_givens_o O s Y (l1 ++ p :: l2) X = Err TypeError.
Proof.
  intros s Y l1 [r c] l2 X W. induction l1 as [|[a b] l1 IH]; intros Hf H1 Tp Kp; cbn [app select_givens_o fst snd].
  - rewrite getitem_ok by (auto; apply Hf; left; auto). cbn [rbind]. rewrite Tp, Kp. auto.
  - rewrite getitem_ok by (auto; apply Hf; left; auto). cbn [rbind]. rewrite H1 by (left; auto).
    apply IH; auto; intros; [apply Hf|apply H1]; right; auto.
Qed.

Lemma C133_unhashable_proof : forall ord s l1 p l2, wf s -> coords s = l1 ++ p :: l2 ->
  (forall q, In q l1 -> truth O (num s q) = false) -> truth O (num s p) = true -> okey O (num s p) = Err TypeError ->
  gyields (dlx_o O ord s) tt = [] /\ gresult (dlx_o O ord s) tt = Err TypeError /\ is_unique_o O ord s = Err TypeError.
Proof.
  intros ord s l1 p l2 W Ec H1 Tp Kp.
  assert (D : dlx_o O ord s = Raise TypeError).
  { unfold dlx_o. destruct (copy_ok s false W) as [s' [E [Ws' [Ew [Eh [Hn _]]]]]]. rewrite E. cbn [lift gbind].
    unfold do_dlx_o. cbv zeta. destruct (exact_cover_ok _ _ (wf_h _ Ws') (wf_w _ Ws')) as [X [EX _]]. rewrite EX. cbn [lift gbind].
    assert (Ec' : coords s' = l1 ++ p :: l2) by (rewrite <- Ec; unfold coords, indices; rewrite Ew, Eh; auto).
    assert (Hin : forall q, In q (l1 ++ p :: l2) -> field s q) by (intros q Hq; apply in_coords; rewrite Ec; auto).
    rewrite Ec', select_givens_o_err; auto.
    - intros q Hq. apply in_coords. rewrite Ec'. auto.
    - intros q Hq. rewrite Hn; auto. apply Hin. apply in_or_app; auto.
    - rewrite Hn; auto. apply Hin. apply in_or_app; right; left; auto.
    - rewrite Hn; auto. apply Hin. apply in_or_app; right; left; auto. }
  unfold is_unique_o. rewrite D. auto.
Qed.
End Obj.
