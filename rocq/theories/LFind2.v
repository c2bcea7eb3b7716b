(** Naked and hidden tuples: exactly which steps are found. *)
From Verif Require Export LFind.

Lemma step_is_eq : forall cls cl aff vals st, step_is cls cl aff vals st <-> st = mkStep cls cl aff vals [].
Proof.
  intros cls cl aff vals st; split.
  - destruct st; intros [H1 [H2 [H3 [H4 H5]]]]; cbn in *; congruence.
  - intros ->; repeat split.
Qed.
Lemma new_step_is : forall cls a b c cl aff vals,
  py_sorted coord_cmp a = cl -> py_sorted coord_cmp b = aff -> py_sorted zcmp c = vals ->
  step_is cls cl aff vals (new_step cls a b c).
Proof. intros cls a b c cl aff vals <- <- <-. repeat split. Qed.

(** * combinations *)
Lemma combinations_filter : forall {A} (f : A -> bool) l, In (filter f l) (combinations (length (filter f l)) l).
Proof.
  intros A f l; induction l as [|x l IH]; [left; auto|].
  cbn [filter]. destruct (f x).
  - cbn [length combinations]. apply in_app_iff. left. apply in_map; auto.
  - destruct (filter f l) as [|y t] eqn:E; [left; auto|].
    cbn [length combinations] in *. apply in_app_iff. right; auto.
Qed.

(** The members of [S] in the order of [l]. *)
Lemma combinations_complete : forall {A} (mem : A -> bool) (S l : list A), NoDup S -> NoDup l ->
  (forall x, In x l -> (mem x = true <-> In x S)) -> incl S l ->
  exists c, In c (combinations (length S) l) /\ NoDup c /\ (forall x, In x c <-> In x S).
Proof.
  intros A mem S l NS Nl Hm Hi. exists (filter mem l).
  assert (X : forall x, In x (filter mem l) <-> In x S).
  { intros x. rewrite filter_In. split.
    - intros [H1 H2]. apply Hm; auto.
    - intros H. split; [apply Hi; auto|apply Hm; auto]. }
  splits; auto; [|apply NoDup_filter; auto].
  replace (length S) with (length (filter mem l)).
  - apply combinations_filter.
  - apply Permutation_length. apply NoDup_Permutation; auto. apply NoDup_filter; auto.
Qed.

Lemma coords_eqb_eq : forall a b, coords_eqb a b = true <-> a = b.
Proof.
  intros a b. unfold coords_eqb. pose proof (list_cmp_good coord_cmp coord_cmp_good) as G.
  rewrite <- (cmp_eqb_eq _ G). unfold cmp_eqb. tauto.
Qed.
Lemma list_in_coords : forall x l, list_in coords_eqb x l = true <-> In x l.
Proof.
  intros x l. unfold list_in. rewrite existsb_exists. split.
  - intros [y [H1 H2]]. apply coords_eqb_eq in H2. subst; auto.
  - intros H. exists x; split; auto. apply coords_eqb_eq; auto.
Qed.

Section Tuples.
Variable s : sudoku.
Hypothesis W : wf s.

(** [l] is the list of the unit of kind [k] of the empty field [q]. *)
Definition is_unit (k : kind) (q : coord) (l : list coord) : Prop :=
  field s q /\ num s q = 0 /\ kind_func k s (fst q) (snd q) true = Ok l /\ NoDup l /\ forall p, In p l <-> unit_at s k q p.

Lemma unit_of_empty : forall k q, field s q -> num s q = 0 -> exists l, is_unit k q l.
Proof.
  intros k q F E. destruct (kind_unit_true s W k q F) as [l [H1 [H2 H3]]]. exists l; unfold is_unit; splits; auto.
Qed.

Lemma units_ok : forall k, exists cl, units_with_empty (kind_func k) s = Ok cl /\
  (forall l, In l cl -> exists q, is_unit k q l) /\
  (forall q, field s q -> num s q = 0 -> exists l, In l cl /\ is_unit k q l).
Proof.
  intros k. unfold units_with_empty. rewrite glist_empty by auto. cbn [rbind].
  destruct (foldM_ind (fun clist rc => let* cs := kind_func k s (fst rc) (snd rc) true in
             Ok (if list_in coords_eqb cs clist then clist else clist ++ [cs]))
    (fun pre cl => (forall l, In l cl -> exists q, is_unit k q l) /\
       forall q, In q pre -> exists l, In l cl /\ is_unit k q l)
    (filter (fun p => num s p =? 0) (coords s)) []) as [cl [E [P1 P2]]].
  - split; intros x [].
  - intros pre x post acc E [P1 P2].
    assert (Hx : field s x /\ num s x = 0).
    { apply (in_empty s). rewrite E; apply in_app_iff; simpl; auto. }
    destruct Hx as [Fx Ex]. destruct (unit_of_empty k x Fx Ex) as [l Hl].
    pose proof Hl as [_ [_ [El _]]]. rewrite El. cbn [rbind].
    eexists; split; [reflexivity|]. destruct (list_in coords_eqb l acc) eqn:Hin.
    + split; auto. intros q Hq. apply in_app_iff in Hq. destruct Hq as [Hq|[<-|[]]]; auto.
      apply list_in_coords in Hin. exists l; auto.
    + split.
      * intros l' Hl'. apply in_app_iff in Hl'. destruct Hl' as [|[<-|[]]]; eauto.
      * intros q Hq. apply in_app_iff in Hq. destruct Hq as [Hq|[<-|[]]].
        -- destruct (P2 q Hq) as [l' [H1 H2]]. exists l'; split; auto. apply in_app_iff; auto.
        -- exists l; split; auto. apply in_app_iff; simpl; auto.
  - exists cl; splits; auto. intros q Fq Eq. apply P2. apply in_empty; auto.
Qed.

Lemma is_unit_field : forall k q l p, is_unit k q l -> In p l -> field s p.
Proof. intros k q l p [_ [_ [_ [_ H]]]] Hp. apply H in Hp. apply Hp. Qed.

(** * Naked tuples in one unit *)
Definition ncand (n : nat) (l : list coord) : list coord :=
  filter (fun rc => (1 <? py_len (cand s rc)) && (py_len (cand s rc) <=? Z.of_nat n)) l.
Definition ucand (fields : list coord) : list Z := match union_candidates s fields with Ok cs => cs | Err _ => [] end.
Definition naff (l fields : list coord) (cs : list Z) : list coord :=
  filter (fun rc => negb (list_in coord_eqb rc fields) &&
                    negb (match sinter zcmp cs (cand s rc) with [] => true | _ => false end)) l.
Definition nsteps (n : nat) (l fields : list coord) : list step :=
  if py_len (ucand fields) <=? Z.of_nat n then
    match naff l fields (ucand fields) with
    | [] => []
    | aff => [new_step (NakedTuple n) fields aff (ucand fields)]
    end
  else [].

Lemma ucand_ok : forall l, (forall p, In p l -> field s p) ->
  union_candidates s l = Ok (ucand l) /\ zsset (ucand l) /\ forall v, In v (ucand l) <-> exists p, In p l /\ In v (cand s p).
Proof.
  intros l H. destruct (union_candidates_ok _ _ (wf_w _ W) (wf_h _ W) _ (no_grid s) s l (si0 s W) H) as [cs [E [H1 H2]]].
  unfold ucand. rewrite E. auto.
Qed.

Lemma in_ncand : forall n l p, In p (ncand n l) <-> In p l /\ (2 <= length (cand s p) <= n)%nat.
Proof.
  intros n l p. unfold ncand. rewrite filter_In. unfold py_len.
  rewrite andb_true_iff, Z.ltb_lt, Z.leb_le. split; intros [H1 H2]; split; auto; lia.
Qed.

Lemma naked_at_runs : forall n k q l, is_unit k q l ->
  runs (naked_find_at n s l) s (flat_map (nsteps n l) (combinations n (ncand n l))).
Proof.
  intros n k q l U. unfold naked_find_at.
  eapply runs_lift.
  { apply (ro_filter s W (fun _ c => (1 <? py_len c) && (py_len c <=? Z.of_nat n))). intros p Hp; eapply is_unit_field; eauto. }
  apply runs_for. intros fields Hf.
  assert (Ff : forall p, In p fields -> field s p).
  { intros p Hp. apply (combinations_incl _ _ _ Hf) in Hp. apply in_ncand in Hp. eapply is_unit_field; eauto; tauto. }
  destruct (ucand_ok fields Ff) as [E [_ _]]. eapply runs_lift; [exact E|].
  unfold nsteps. destruct (py_len (ucand fields) <=? Z.of_nat n); [|apply runs_ret].
  eapply runs_lift.
  { apply (ro_filter_except s W (fun _ c => negb (match sinter zcmp (ucand fields) c with [] => true | _ => false end))).
    intros p Hp; eapply is_unit_field; eauto. }
  fold (naff l fields (ucand fields)). destruct (naff l fields (ucand fields)); [apply runs_ret|apply runs_yield].
Qed.

Lemma in_naff : forall l fields cs p, In p (naff l fields cs) <->
  In p l /\ ~ In p fields /\ exists v, In v cs /\ In v (cand s p).
Proof.
  intros l fields cs p. unfold naff. rewrite filter_In, andb_true_iff, negb_true_iff, list_in_coord_not.
  assert (X : negb (match sinter zcmp cs (cand s p) with [] => true | _ => false end) = true <->
              exists v, In v cs /\ In v (cand s p)).
  { split.
    - destruct (sinter zcmp cs (cand s p)) as [|v t] eqn:E; [discriminate|]. intros _.
      exists v. apply (In_sinter _ zcmp_good). rewrite E; left; auto.
    - intros [v H]. apply (In_sinter _ zcmp_good) in H. destruct (sinter zcmp cs (cand s p)); [destruct H|auto]. }
  rewrite X. tauto.
Qed.

Lemma naked_at_iff : forall n k q l st, is_unit k q l ->
  (In st (flat_map (nsteps n l) (combinations n (ncand n l))) <->
   exists cl aff vals, naked_tuple s n k q cl aff vals /\ step_is (NakedTuple n) cl aff vals st).
Proof.
  intros n k q l st U. pose proof U as [Fq [Eq [El [Nl Hl]]]].
  rewrite in_flat_map. split.
  - intros [fields [Hf Hst]].
    assert (Nf : NoDup fields) by (eapply combinations_nodup; [|exact Hf]; apply NoDup_filter; auto).
    assert (If : forall p, In p fields -> In p l /\ (2 <= length (cand s p) <= n)%nat).
    { intros p Hp. apply (combinations_incl _ _ _ Hf) in Hp. apply in_ncand; auto. }
    assert (Ff : forall p, In p fields -> field s p).
    { intros p Hp. eapply is_unit_field; eauto. apply If; auto. }
    destruct (ucand_ok fields Ff) as [_ [Su Hu]].
    unfold nsteps in Hst. destruct (py_len (ucand fields) <=? Z.of_nat n) eqn:Len; [|destruct Hst]; b2p.
    pose proof (in_naff l fields (ucand fields)) as Ha.
    assert (Na : NoDup (naff l fields (ucand fields))) by (apply NoDup_filter; auto).
    destruct (naff l fields (ucand fields)) as [|a aff'] eqn:Ea; [destruct Hst|]. rewrite <- Ea in *.
    destruct Hst as [<-|[]].
    exists (py_sorted coord_cmp fields), (py_sorted coord_cmp (naff l fields (ucand fields))), (py_sorted zcmp (ucand fields)).
    split; [|apply new_step_is; auto].
    unfold naked_tuple. splits; auto.
    + apply (py_sorted_lists fields (fun p => In p fields)); auto; tauto.
    + rewrite py_sorted_length. eapply combinations_length; eauto.
    + intros p Hp. rewrite (in_py_sorted _ coord_cmp_good) in Hp. destruct (If p Hp). split; auto. apply Hl; auto.
    + apply py_sorted_listsz; [apply (sset_NoDup _ zcmp_good); auto|].
      intros v. rewrite Hu. split; intros [p [H1 H2]]; exists p; split; auto; apply (in_py_sorted _ coord_cmp_good); auto.
    + rewrite py_sorted_length. unfold py_len in Len. lia.
    + apply py_sorted_lists; auto. intros p. rewrite Ha, Hl, (in_py_sorted _ coord_cmp_good).
      split; intros [H1 [H2 [v [H3 H4]]]]; splits; auto; exists v; split; auto; apply (in_py_sorted _ zcmp_good); auto.
    + intros X. pose proof (py_sorted_length coord_cmp (naff l fields (ucand fields))) as L. rewrite X, Ea in L. discriminate.
  - intros [cl [aff [vals [[_ [_ [Sc [Lc [Hc [Hv [Lv [Haff Na]]]]]]]] Hst]]]].
    destruct (combinations_complete (fun p => list_in coord_eqb p cl) cl (ncand n l)) as [fields [F1 [F2 F3]]].
    + apply ssorted_nodup; auto.
    + apply NoDup_filter; auto.
    + intros x _. apply list_in_coord.
    + intros p Hp. apply in_ncand. destruct (Hc p Hp) as [H1 H2]. split; auto. apply Hl; auto.
    + rewrite Lc in F1. exists fields. split; auto.
      assert (Ff : forall p, In p fields -> field s p).
      { intros p Hp. apply F3 in Hp. apply Hc in Hp. apply Hp. }
      destruct (ucand_ok fields Ff) as [_ [Su Hu]].
      assert (Eu : py_sorted zcmp (ucand fields) = vals).
      { eapply listsz_sorted_eq; [apply (sset_NoDup _ zcmp_good); auto| |exact Hv].
        intros v. rewrite Hu. split; intros [p [H1 H2]]; exists p; split; auto; apply F3; auto. }
      assert (Hu2 : forall v, In v (ucand fields) <-> In v vals).
      { intros v. rewrite <- Eu, (in_py_sorted _ zcmp_good). tauto. }
      assert (Ea : py_sorted coord_cmp (naff l fields (ucand fields)) = aff).
      { eapply lists_sorted_eq; [apply NoDup_filter; auto| |exact Haff].
        intros p. rewrite in_naff, Hl, F3. split; intros [H1 [H2 [v [H3 H4]]]]; splits; auto; exists v; split; auto; apply Hu2; auto. }
      unfold nsteps.
      replace (py_len (ucand fields) <=? Z.of_nat n) with true.
      2:{ symmetry. apply Z.leb_le. unfold py_len. rewrite <- (py_sorted_length zcmp), Eu. lia. }
      destruct (naff l fields (ucand fields)) as [|a t] eqn:En; [cbn in Ea; congruence|].
      left. apply step_is_eq in Hst. rewrite Hst. apply step_is_eq. apply new_step_is; auto.
      eapply lists_sorted_eq with (P := fun p => In p cl); auto. split; auto; tauto.
Qed.

(** * All units; a set of clues is reported only once *)
Fixpoint dedup (seen : list (list coord)) (l : list step) : list step :=
  match l with
  | [] => []
  | p :: t => if list_in coords_eqb (clues p) seen then dedup seen t else p :: dedup (seen ++ [clues p]) t
  end.
Fixpoint seen_after (seen : list (list coord)) (l : list step) : list (list coord) :=
  match l with
  | [] => seen
  | p :: t => if list_in coords_eqb (clues p) seen then seen_after seen t else seen_after (seen ++ [clues p]) t
  end.
Lemma dedup_app : forall l m seen, dedup seen (l ++ m) = dedup seen l ++ dedup (seen_after seen l) m.
Proof.
  induction l as [|p l IH]; intros m seen; auto. cbn.
  destruct (list_in coords_eqb (clues p) seen); rewrite IH; auto.
Qed.
Lemma seen_app : forall l m seen, seen_after seen (l ++ m) = seen_after (seen_after seen l) m.
Proof.
  induction l as [|p l IH]; intros m seen; auto. cbn.
  destruct (list_in coords_eqb (clues p) seen); rewrite IH; auto.
Qed.

Definition nt_body (st : sudoku * list (list coord)) (p : step) : gen sudoku step (sudoku * list (list coord)) :=
  if list_in coords_eqb (clues p) (snd st) then Ret st
  else do* s := yield p in Ret (s, snd st ++ [clues p]).
Lemma nt_loop : forall l seen,
  gresult (gfor nt_body l (s, seen)) s = Ok (s, seen_after seen l) /\
  gyields (gfor nt_body l (s, seen)) s = dedup seen l.
Proof.
  induction l as [|p l IH]; intros seen; auto. cbn [gfor seen_after dedup].
  rewrite gresult_gbind, gyields_gbind. unfold nt_body at 1 3 4. cbn [snd].
  destruct (list_in coords_eqb (clues p) seen); cbn.
  - destruct (IH seen) as [-> ->]. auto.
  - destruct (IH (seen ++ [clues p])) as [-> ->]. auto.
Qed.
Lemma nt_gen : forall (g : gen sudoku step sudoku) ys seen, runs g s ys ->
  gresult (gforgen nt_body g (s, seen)) s = Ok (s, seen_after seen ys) /\
  gyields (gforgen nt_body g (s, seen)) s = dedup seen ys.
Proof.
  intros g ys seen [H1 H2].
  destruct (gforgen_gfor nt_body g s (s, seen) s H1 eq_refl) as [-> ->].
  - intros [s' y] p E _. cbn in E; subst s'. unfold nt_body. cbn [snd].
    destruct (list_in coords_eqb (clues p) y); eexists; split; reflexivity.
  - rewrite H2. apply nt_loop.
Qed.

(** The loop over units, and over kinds. *)
Lemma nt_units : forall n k cl seen, (forall l, In l cl -> exists q, is_unit k q l) ->
  exists ys, (forall st, In st ys <-> exists l, In l cl /\ In st (flat_map (nsteps n l) (combinations n (ncand n l)))) /\
   gresult (gfor (fun (st : sudoku * list (list coord)) cs => gforgen nt_body (naked_find_at n (fst st) cs) st) cl (s, seen)) s
     = Ok (s, seen_after seen ys) /\
   gyields (gfor (fun (st : sudoku * list (list coord)) cs => gforgen nt_body (naked_find_at n (fst st) cs) st) cl (s, seen)) s
     = dedup seen ys.
Proof.
  intros n k cl; induction cl as [|l cl IH]; intros seen H.
  - exists []; splits; auto. intros st; split; [intros []|intros [l [[] _]]].
  - destruct (H l) as [q U]; [left; auto|].
    set (y1 := flat_map (nsteps n l) (combinations n (ncand n l))).
    destruct (IH (seen_after seen y1)) as [ys [Hys [R1 R2]]]; [intros; apply H; right; auto|].
    exists (y1 ++ ys). splits.
    + intros st. rewrite in_app_iff, Hys. split.
      * intros [X|[l' [X1 X2]]]; [exists l|exists l']; split; simpl; auto.
      * intros [l' [[<-|X1] X2]]; auto. right; exists l'; auto.
    + cbn [gfor]. rewrite gresult_gbind.
      destruct (nt_gen (naked_find_at n s l) y1 seen (naked_at_runs n k q l U)) as [E1 E2].
      cbn [fst]. rewrite E1. cbn [rbind]. rewrite R1, seen_app. auto.
    + cbn [gfor]. rewrite gyields_gbind.
      destruct (nt_gen (naked_find_at n s l) y1 seen (naked_at_runs n k q l U)) as [E1 E2].
      cbn [fst]. rewrite E1, E2, R2, dedup_app. auto.
Qed.

Definition naked_of (n : nat) (k : kind) (st : step) : Prop :=
  exists q cl aff vals, naked_tuple s n k q cl aff vals /\ step_is (NakedTuple n) cl aff vals st.

Definition nt_kind (n : nat) (st : sudoku * list (list coord)) (f : unit_func) : gen sudoku step (sudoku * list (list coord)) :=
  do* clist := lift (units_with_empty f (fst st)) in
  gfor (fun (st : sudoku * list (list coord)) cs => gforgen nt_body (naked_find_at n (fst st) cs) st) clist st.
Lemma nt_kind_ok : forall n k seen, exists ys, (forall st, In st ys <-> naked_of n k st) /\
  gresult (nt_kind n (s, seen) (kind_func k)) s = Ok (s, seen_after seen ys) /\
  gyields (nt_kind n (s, seen) (kind_func k)) s = dedup seen ys.
Proof.
  intros n k seen. destruct (units_ok k) as [cl [E [U1 U2]]].
  destruct (nt_units n k cl seen U1) as [ys [Hys [R1 R2]]].
  exists ys. splits.
  - intros st. rewrite Hys. split.
    + intros [l [H1 H2]]. destruct (U1 l H1) as [q U]. apply (naked_at_iff n k q l st U) in H2. exists q; auto.
    + intros [q [c [a [v [H1 H2]]]]]. pose proof H1 as [Fq [Eq _]].
      destruct (U2 q Fq Eq) as [l [L1 L2]]. exists l; split; auto.
      apply (naked_at_iff n k q l st L2). eauto.
  - unfold nt_kind. cbn [fst]. rewrite E. cbn [lift gbind]. auto.
  - unfold nt_kind. cbn [fst]. rewrite E. cbn [lift gbind]. auto.
Qed.

Lemma naked_runs : forall n, exists y1 y2 y3,
  (forall st, In st y1 <-> naked_of n KRow st) /\ (forall st, In st y2 <-> naked_of n KCol st) /\
  (forall st, In st y3 <-> naked_of n KBox st) /\
  runs (naked_find n s) s (dedup [] (y1 ++ y2 ++ y3)).
Proof.
  intros n.
  destruct (nt_kind_ok n KRow []) as [y1 [H1 [R1a R1b]]].
  destruct (nt_kind_ok n KCol (seen_after [] y1)) as [y2 [H2 [R2a R2b]]].
  destruct (nt_kind_ok n KBox (seen_after (seen_after [] y1) y2)) as [y3 [H3 [R3a R3b]]].
  exists y1, y2, y3. splits; auto.
  assert (E : naked_find n s = do* st := gfor (nt_kind n) (map kind_func [KRow; KCol; KBox]) (s, []) in Ret (fst st)) by reflexivity.
  unfold runs. rewrite E. cbn [map gfor].
  repeat rewrite ?gresult_gbind, ?gyields_gbind. rewrite R1a, R1b. cbn [rbind].
  repeat rewrite ?gresult_gbind, ?gyields_gbind. rewrite R2a, R2b. cbn [rbind].
  repeat rewrite ?gresult_gbind, ?gyields_gbind. rewrite R3a, R3b. cbn.
  split; auto. rewrite !dedup_app, !app_nil_r. auto.
Qed.

(** * Properties of [dedup] *)
Lemma dedup_incl : forall l seen st, In st (dedup seen l) -> In st l /\ ~ In (clues st) seen.
Proof.
  induction l as [|p l IH]; intros seen st H; [destruct H|]. cbn in H.
  destruct (list_in coords_eqb (clues p) seen) eqn:E.
  - apply IH in H. simpl; tauto.
  - destruct H as [<-|H].
    + split; [left; auto|]. intros X. apply list_in_coords in X. congruence.
    + apply IH in H. rewrite in_app_iff in H. simpl; tauto.
Qed.
Lemma dedup_nodup : forall l seen, NoDup (map clues (dedup seen l)).
Proof.
  induction l as [|p l IH]; intros seen; [constructor|]. cbn.
  destruct (list_in coords_eqb (clues p) seen); auto. cbn. constructor; auto.
  intros H. apply in_map_iff in H. destruct H as [q [E H]]. apply dedup_incl in H. destruct H as [_ H].
  apply H. rewrite E. apply in_app_iff; simpl; auto.
Qed.
Lemma dedup_complete : forall l seen st, In st l -> ~ In (clues st) seen ->
  exists st', In st' (dedup seen l) /\ clues st' = clues st.
Proof.
  induction l as [|p l IH]; intros seen st H N; [destruct H|]. cbn.
  destruct (list_in coords_eqb (clues p) seen) eqn:E.
  - destruct H as [<-|H]; [apply list_in_coords in E; contradiction|]. apply IH; auto.
  - destruct H as [<-|H]; [exists p; simpl; auto|].
    destruct (list_eq_dec coord_eq_dec (clues p) (clues st)) as [X|X]; [exists p; simpl; auto|].
    destruct (IH (seen ++ [clues p]) st H) as [st' [H1 H2]]; [rewrite in_app_iff; simpl; tauto|].
    exists st'; simpl; auto.
Qed.
Lemma seen_after_in : forall l seen c, In c (seen_after seen l) <-> In c seen \/ In c (map clues l).
Proof.
  induction l as [|p l IH]; intros seen c; cbn; [tauto|].
  destruct (list_in coords_eqb (clues p) seen) eqn:E; rewrite IH.
  - apply list_in_coords in E. split; [tauto|]. intros [H|[<-|H]]; auto.
  - rewrite in_app_iff. simpl. tauto.
Qed.

Lemma naked_proof : forall n, exists ys, runs (naked_find n s) s ys /\
  NoDup (map clues ys) /\
  (forall st, In st ys -> exists k, naked_of n k st /\
     forall k' st', tried_before_naked k' k -> naked_of n k' st' -> clues st' <> clues st) /\
  (forall k st, naked_of n k st -> exists st', In st' ys /\ clues st' = clues st).
Proof.
  intros n. destruct (naked_runs n) as [y1 [y2 [y3 [H1 [H2 [H3 R]]]]]].
  exists (dedup [] (y1 ++ y2 ++ y3)). splits; auto.
  - apply dedup_nodup.
  - intros st H. rewrite !dedup_app, !in_app_iff in H.
    destruct H as [H|[H|H]]; apply dedup_incl in H; destruct H as [Hin Hn].
    + exists KRow. split; [apply H1; auto|]. intros [] st' []; auto.
    + exists KCol. split; [apply H2; auto|]. intros [] st' T Hst' E; try destruct T.
      apply Hn. apply seen_after_in. right. rewrite <- E. apply in_map. apply H1; auto.
    + exists KBox. split; [apply H3; auto|]. intros [] st' T Hst' E; try destruct T.
      * apply Hn. apply seen_after_in. left. apply seen_after_in. right. rewrite <- E. apply in_map. apply H1; auto.
      * apply Hn. apply seen_after_in. right. rewrite <- E. apply in_map. apply H2; auto.
  - intros k st H. apply dedup_complete; [|intros []]. rewrite !in_app_iff.
    destruct k; [left; apply H1|right; left; apply H2|right; right; apply H3]; auto.
Qed.
End Tuples.
