(** Sudoku objects do not share anything: the heap model refines the value model. *)
From Verif Require Export LBase MHeap LSudoku.

Lemma nth_error_upd : forall {A} k (v : A) l j,
  nth_error (list_upd k v l) j = if Nat.eqb j k then (match nth_error l j with Some _ => Some v | None => None end) else nth_error l j.
Proof.
  induction k as [|k IH]; intros v [|x l] [|j]; cbn; auto; try (destruct (Nat.eqb j k); auto; fail).
Qed.

Lemma upd_map : forall {A B} (f : A -> B) k v l, list_upd k (f v) (map f l) = map f (list_upd k v l).
Proof. induction k as [|k IH]; intros v [|x l]; cbn; auto. f_equal; auto. Qed.

(** The object [ref] with the lists [fp] holds the sudoku [s]. *)
Definition layout (hp : heap) (ref : nat) (fp : list nat) (s : sudoku) : Prop :=
  exists na ca nrs crs, fp = ref :: na :: ca :: nrs ++ crs /\
    nth_error hp ref = Some (CSudoku (box_width s) (box_height s) na ca) /\
    nth_error hp na = Some (CRefs nrs) /\ nth_error hp ca = Some (CRefs crs) /\
    map (nth_error hp) nrs = map (fun r => Some (CNums r)) (s_numbers s) /\
    map (nth_error hp) crs = map (fun r => Some (CCands r)) (s_candidates s).

Lemma layout_frame : forall hp hp' ref fp s, layout hp ref fp s ->
  (forall a, In a fp -> nth_error hp' a = nth_error hp a) -> layout hp' ref fp s.
Proof.
  intros hp hp' ref fp s [na [ca [nrs [crs [-> [H1 [H2 [H3 [H4 H5]]]]]]]]] F.
  exists na, ca, nrs, crs. splits; auto.
  - rewrite F; auto. cbn; auto.
  - rewrite F; auto. cbn; auto.
  - rewrite F; auto. cbn; auto.
  - rewrite <- H4. apply map_ext_in. intros a Ha. apply F. do 3 right. apply in_app_iff; auto.
  - rewrite <- H5. apply map_ext_in. intros a Ha. apply F. do 3 right. apply in_app_iff; auto.
Qed.

Lemma layout_lt : forall hp ref fp s a, layout hp ref fp s -> In a fp -> (a < length hp)%nat.
Proof.
  intros hp ref fp s a [na [ca [nrs [crs [-> [H1 [H2 [H3 [H4 H5]]]]]]]]] Ha.
  apply nth_error_Some. destruct Ha as [<-|[<-|[<-|Ha]]]; try congruence.
  apply in_app_iff in Ha. destruct Ha as [Ha|Ha].
  - apply (in_map (nth_error hp)) in Ha. rewrite H4 in Ha. apply in_map_iff in Ha. destruct Ha as [x [E _]]. congruence.
  - apply (in_map (nth_error hp)) in Ha. rewrite H5 in Ha. apply in_map_iff in Ha. destruct Ha as [x [E _]]. congruence.
Qed.

Lemma map_nth : forall {A B C} (f : A -> C) (g : B -> C) l m k a, map f l = map g m -> nth_error l k = Some a ->
  exists b, nth_error m k = Some b /\ f a = g b.
Proof.
  intros A B C f g l m k a E H. pose proof (map_nth_error f k l H) as X. rewrite E in X.
  rewrite nth_error_map in X. destruct (nth_error m k) as [b|]; [|discriminate]. cbn in X. inv X. eauto.
Qed.

Lemma map_upd : forall (hp : heap) nrs k a x, NoDup nrs -> nth_error nrs k = Some a -> (a < length hp)%nat ->
  map (nth_error (list_upd a x hp)) nrs = list_upd k (Some x) (map (nth_error hp) nrs).
Proof.
  intros hp nrs; induction nrs as [|n nrs IH]; intros k a x N Hk Ha; [destruct k; discriminate|]. inv N.
  destruct k as [|k]; cbn in Hk.
  - injection Hk as ->. cbn [map list_upd]. f_equal.
    + rewrite nth_error_upd, Nat.eqb_refl. apply nth_error_Some in Ha. destruct (nth_error hp a); congruence.
    + apply map_ext_in. intros b Hb. rewrite nth_error_upd. destruct (Nat.eqb_spec b a); auto. subst; contradiction.
  - cbn [map list_upd]. f_equal.
    + rewrite nth_error_upd. destruct (Nat.eqb_spec n a); auto. subst. exfalso. apply H1. eapply nth_error_In; eauto.
    + apply IH; auto.
Qed.

Lemma map_keep : forall (hp : heap) l a x, ~ In a l -> map (nth_error (list_upd a x hp)) l = map (nth_error hp) l.
Proof.
  intros hp l a x H. apply map_ext_in. intros b Hb. rewrite nth_error_upd. destruct (Nat.eqb_spec b a); auto. subst; contradiction.
Qed.

Lemma py_idx_lt : forall n i k, py_idx n i = Ok k -> (k < n)%nat.
Proof.
  intros n i k H. apply py_idx_inv in H. lia.
Qed.

(** Indexing the list of rows. *)
Lemma row_ref : forall {A} (con : A -> cell_obj) hp nrs rows i,
  map (nth_error hp) nrs = map (fun r => Some (con r)) rows ->
  match list_get rows i with
  | Ok row => exists k a, list_get nrs i = Ok a /\ nth_error hp a = Some (con row) /\
                py_idx (length rows) i = Ok k /\ nth_error nrs k = Some a
  | Err e => list_get nrs i = Err e
  end.
Proof.
  intros A con hp nrs rows i E. assert (L : length nrs = length rows).
  { rewrite <- (map_length (nth_error hp) nrs), E, map_length. reflexivity. }
  unfold list_get. rewrite L. destruct (py_idx (length rows) i) as [k|e] eqn:Ek; cbn [rbind]; auto.
  pose proof (py_idx_lt _ _ _ Ek) as Hk. destruct (nth_error nrs k) as [a|] eqn:Ea.
  - destruct (map_nth _ _ _ _ _ _ E Ea) as [row [E1 E2]]. cbv beta in E2. rewrite E1. exists k, a. auto.
  - apply nth_error_None in Ea. lia.
Qed.

(** ** All objects *)
Definition hobj : Type := (nat * list nat * sudoku)%type.
Definition o_ref (o : hobj) : nat := fst (fst o).
Definition o_fp (o : hobj) : list nat := snd (fst o).
Definition o_val (o : hobj) : sudoku := snd o.
Definition hinv (hp : heap) (os : list hobj) : Prop :=
  (forall o, In o os -> layout hp (o_ref o) (o_fp o) (o_val o)) /\ NoDup (concat (map o_fp os)).

Definition with_val (o : hobj) (s : sudoku) : hobj := (fst o, s).

Lemma concat_disjoint : forall (os : list hobj) i j o o' a, NoDup (concat (map o_fp os)) ->
  nth_error os i = Some o -> nth_error os j = Some o' -> In a (o_fp o) -> In a (o_fp o') -> i = j.
Proof.
  induction os as [|x os IH]; intros i j o o' a N Hi Hj Ha Ha'; [destruct i; discriminate|].
  cbn [map concat] in N. apply NoDup_app_iff in N. destruct N as [N1 [N2 N3]].
  assert (X : forall j o', nth_error os j = Some o' -> In a (o_fp o') -> In a (concat (map o_fp os))).
  { intros j' y Hy Hay. apply in_concat. exists (o_fp y). split; auto. apply in_map. eapply nth_error_In; eauto. }
  destruct i as [|i], j as [|j]; cbn in Hi, Hj; auto.
  - inv Hi. exfalso. eapply N3; eauto.
  - inv Hj. exfalso. eapply N3; eauto.
  - f_equal. eapply IH; eauto.
Qed.

Lemma hinv_nodup : forall hp os i o, hinv hp os -> nth_error os i = Some o -> NoDup (o_fp o).
Proof.
  intros hp os i o [_ N] H. apply nth_error_split in H. destruct H as [l1 [l2 [-> _]]].
  rewrite map_app, concat_app in N. cbn [map concat] in N. apply NoDup_app_iff in N. destruct N as [_ [N _]].
  apply NoDup_app_iff in N. tauto.
Qed.

Lemma map_fp_upd : forall os i o s, nth_error os i = Some o -> map o_fp (list_upd i (with_val o s) os) = map o_fp os.
Proof.
  induction os as [|x os IH]; intros [|i] o s H; cbn in *; auto; [inv H; reflexivity|]. f_equal. apply IH; auto.
Qed.

(** Changing a list of object [i]. *)
Lemma hinv_upd : forall hp os i o a x s, hinv hp os -> nth_error os i = Some o -> In a (o_fp o) ->
  layout (list_upd a x hp) (o_ref o) (o_fp o) s -> hinv (list_upd a x hp) (list_upd i (with_val o s) os).
Proof.
  intros hp os i o a x s HI Hi Ha HL. pose proof HI as [I1 I2]. split.
  - intros o' Ho'. apply In_nth_error in Ho'. destruct Ho' as [j Hj]. rewrite nth_error_upd in Hj.
    destruct (Nat.eqb_spec j i) as [Eji|D]; [subst j|].
    + rewrite Hi in Hj. inv Hj. exact HL.
    + apply (layout_frame hp); [apply I1; eapply nth_error_In; eauto|].
      intros b Hb. rewrite nth_error_upd. destruct (Nat.eqb_spec b a) as [->|]; auto.
      exfalso. apply D. eapply concat_disjoint; eauto.
  - rewrite map_fp_upd; auto.
Qed.

Section Step.
Variables (hp : heap) (os : list hobj) (i : nat) (o : hobj).
Hypothesis HI : hinv hp os.
Hypothesis Hi : nth_error os i = Some o.

Lemma o_layout : layout hp (o_ref o) (o_fp o) (o_val o).
Proof. apply HI. eapply nth_error_In; eauto. Qed.

Lemma h_getitem_ok : forall r c, h_getitem hp (o_ref o) r c = getitem (o_val o) r c.
Proof.
  intros r c. destruct o_layout as [na [ca [nrs [crs [F [H1 [H2 [H3 [H4 H5]]]]]]]]].
  unfold h_getitem, getitem, deref_sudoku, deref_refs. rewrite H1. cbn [rbind]. rewrite H2. cbn [rbind].
  pose proof (row_ref CNums hp nrs _ r H4) as R. destruct (list_get (s_numbers (o_val o)) r) as [row|e]; [|rewrite R; auto].
  destruct R as [k [a [R1 [R2 _]]]]. rewrite R1. cbn [rbind]. unfold deref_nums. rewrite R2. reflexivity.
Qed.
Lemma h_get_candidates_ok : forall r c, h_get_candidates hp (o_ref o) r c = get_candidates (o_val o) r c.
Proof.
  intros r c. destruct o_layout as [na [ca [nrs [crs [F [H1 [H2 [H3 [H4 H5]]]]]]]]].
  unfold h_get_candidates, get_candidates, deref_sudoku, deref_refs. rewrite H1. cbn [rbind]. rewrite H3. cbn [rbind].
  pose proof (row_ref CCands hp crs _ r H5) as R. destruct (list_get (s_candidates (o_val o)) r) as [row|e]; [|rewrite R; auto].
  destruct R as [k [a [R1 [R2 _]]]]. rewrite R1. cbn [rbind]. unfold deref_cands. rewrite R2. reflexivity.
Qed.

Definition refines (rh : res heap) (rs : res sudoku) : Prop :=
  match rs with
  | Ok s => exists hp', rh = Ok hp' /\ hinv hp' (list_upd i (with_val o s) os)
  | Err e => rh = Err e
  end.

Lemma write_nums : forall a k rows row', nth_error hp a = Some (CNums rows) ->
  forall na ca nrs crs, o_fp o = o_ref o :: na :: ca :: nrs ++ crs ->
    nth_error hp (o_ref o) = Some (CSudoku (box_width (o_val o)) (box_height (o_val o)) na ca) ->
    nth_error hp na = Some (CRefs nrs) -> nth_error hp ca = Some (CRefs crs) ->
    map (nth_error hp) nrs = map (fun r => Some (CNums r)) (s_numbers (o_val o)) ->
    map (nth_error hp) crs = map (fun r => Some (CCands r)) (s_candidates (o_val o)) ->
    nth_error nrs k = Some a ->
  hinv (list_upd a (CNums row') hp) (list_upd i (with_val o
    (mkSudoku (box_width (o_val o)) (box_height (o_val o)) (list_upd k row' (s_numbers (o_val o))) (s_candidates (o_val o)))) os).
Proof.
  intros a k rows row' Ha na ca nrs crs F H1 H2 H3 H4 H5 Hk.
  pose proof (hinv_nodup hp os i o HI Hi) as N. rewrite F in N.
  assert (Hin : In a nrs) by (eapply nth_error_In; eauto).
  assert (La : (a < length hp)%nat) by (apply nth_error_Some; congruence).
  apply hinv_upd; auto.
  { rewrite F. do 3 right. apply in_app_iff; auto. }
  apply NoDup_cons_iff in N. destruct N as [Q1 N]. apply NoDup_cons_iff in N. destruct N as [Q2 N].
  apply NoDup_cons_iff in N. destruct N as [Q3 N]. apply NoDup_app_iff in N. destruct N as [N1 [N2 N3]].
  assert (K : forall b x, b <> a -> nth_error hp b = x -> nth_error (list_upd a (CNums row') hp) b = x).
  { intros b x D E. rewrite nth_error_upd. destruct (Nat.eqb_spec b a); auto. contradiction. }
  exists na, ca, nrs, crs. cbn [box_width box_height s_numbers s_candidates]. splits; auto.
  - apply K; auto. intros X. apply Q1. rewrite X. do 2 right. apply in_app_iff; auto.
  - apply K; auto. intros ->. apply Q2. right. apply in_app_iff; auto.
  - apply K; auto. intros ->. apply Q3. apply in_app_iff; auto.
  - rewrite (map_upd hp nrs k a); auto. rewrite H4. apply (upd_map (fun r => Some (CNums r))).
  - rewrite map_keep; auto.
Qed.

Lemma write_cands : forall a k rows row', nth_error hp a = Some (CCands rows) ->
  forall na ca nrs crs, o_fp o = o_ref o :: na :: ca :: nrs ++ crs ->
    nth_error hp (o_ref o) = Some (CSudoku (box_width (o_val o)) (box_height (o_val o)) na ca) ->
    nth_error hp na = Some (CRefs nrs) -> nth_error hp ca = Some (CRefs crs) ->
    map (nth_error hp) nrs = map (fun r => Some (CNums r)) (s_numbers (o_val o)) ->
    map (nth_error hp) crs = map (fun r => Some (CCands r)) (s_candidates (o_val o)) ->
    nth_error crs k = Some a ->
  hinv (list_upd a (CCands row') hp) (list_upd i (with_val o
    (mkSudoku (box_width (o_val o)) (box_height (o_val o)) (s_numbers (o_val o)) (list_upd k row' (s_candidates (o_val o))))) os).
Proof.
  intros a k rows row' Ha na ca nrs crs F H1 H2 H3 H4 H5 Hk.
  pose proof (hinv_nodup hp os i o HI Hi) as N. rewrite F in N.
  assert (Hin : In a crs) by (eapply nth_error_In; eauto).
  assert (La : (a < length hp)%nat) by (apply nth_error_Some; congruence).
  apply hinv_upd; auto.
  { rewrite F. do 3 right. apply in_app_iff; auto. }
  apply NoDup_cons_iff in N. destruct N as [Q1 N]. apply NoDup_cons_iff in N. destruct N as [Q2 N].
  apply NoDup_cons_iff in N. destruct N as [Q3 N]. apply NoDup_app_iff in N. destruct N as [N1 [N2 N3]].
  assert (K : forall b x, b <> a -> nth_error hp b = x -> nth_error (list_upd a (CCands row') hp) b = x).
  { intros b x D E. rewrite nth_error_upd. destruct (Nat.eqb_spec b a); auto. contradiction. }
  exists na, ca, nrs, crs. cbn [box_width box_height s_numbers s_candidates]. splits; auto.
  - apply K; auto. intros X. apply Q1. rewrite X. do 2 right. apply in_app_iff; auto.
  - apply K; auto. intros ->. apply Q2. right. apply in_app_iff; auto.
  - apply K; auto. intros ->. apply Q3. apply in_app_iff; auto.
  - rewrite map_keep; auto. intros X. apply (N3 a X Hin).
  - rewrite (map_upd hp crs k a); auto. rewrite H5. apply (upd_map (fun r => Some (CCands r))).
Qed.

Lemma h_setitem_ok : forall r c v, refines (h_setitem hp (o_ref o) r c v) (setitem (o_val o) r c v).
Proof.
  intros r c v. destruct o_layout as [na [ca [nrs [crs [F [H1 [H2 [H3 [H4 H5]]]]]]]]].
  unfold h_setitem, setitem, deref_sudoku, deref_refs. rewrite H1. cbn [rbind]. rewrite H2. cbn [rbind].
  pose proof (row_ref CNums hp nrs _ r H4) as R. destruct (list_get (s_numbers (o_val o)) r) as [row|e]; [|rewrite R; cbn; auto].
  destruct R as [k [a [R1 [R2 [R3 R4]]]]]. rewrite R1. cbn [rbind]. unfold deref_nums. rewrite R2. cbn [rbind].
  destruct (list_set row c v) as [row'|e]; cbn [rbind]; [|cbn; auto].
  unfold list_set. rewrite R3. cbn [rbind refines]. eexists; split; [reflexivity|]. eapply write_nums; eauto.
Qed.
Lemma h_set_candidates_ok : forall r c v, refines (h_set_candidates hp (o_ref o) r c v) (set_candidates (o_val o) r c v).
Proof.
  intros r c v. destruct o_layout as [na [ca [nrs [crs [F [H1 [H2 [H3 [H4 H5]]]]]]]]].
  unfold h_set_candidates, set_candidates, deref_sudoku, deref_refs. rewrite H1. cbn [rbind]. rewrite H3. cbn [rbind].
  pose proof (row_ref CCands hp crs _ r H5) as R. destruct (list_get (s_candidates (o_val o)) r) as [row|e]; [|rewrite R; cbn; auto].
  destruct R as [k [a [R1 [R2 [R3 R4]]]]]. rewrite R1. cbn [rbind]. unfold deref_cands. rewrite R2. cbn [rbind].
  destruct (list_set row c (sof_list zcmp v)) as [row'|e]; cbn [rbind]; [|cbn; auto].
  unfold list_set. rewrite R3. cbn [rbind refines]. eexists; split; [reflexivity|]. eapply write_cands; eauto.
Qed.
Lemma h_remove_candidates_ok : forall r c v, refines (h_remove_candidates hp (o_ref o) r c v) (remove_candidates (o_val o) r c v).
Proof.
  intros r c v. destruct o_layout as [na [ca [nrs [crs [F [H1 [H2 [H3 [H4 H5]]]]]]]]].
  unfold h_remove_candidates, remove_candidates, deref_sudoku, deref_refs. rewrite H1. cbn [rbind]. rewrite H3. cbn [rbind].
  pose proof (row_ref CCands hp crs _ r H5) as R. destruct (list_get (s_candidates (o_val o)) r) as [row|e]; [|rewrite R; cbn; auto].
  destruct R as [k [a [R1 [R2 [R3 R4]]]]]. rewrite R1. cbn [rbind]. unfold deref_cands. rewrite R2. cbn [rbind].
  destruct (list_get row c) as [old|e]; cbn [rbind]; [|cbn; auto].
  destruct (list_set row c _) as [row'|e]; cbn [rbind]; [|cbn; auto].
  unfold list_set. rewrite R3. cbn [rbind refines]. eexists; split; [reflexivity|]. eapply write_cands; eauto.
Qed.
End Step.

(** ** Allocation *)
Lemma alloc_rows_ok : forall c ind hp l hp', alloc_rows hp c ind = (l, hp') ->
  hp' = hp ++ repeat c (length ind) /\ l = seq (length hp) (length ind).
Proof.
  intros c ind; induction ind as [|x ind IH]; intros hp l hp' E; cbn [alloc_rows] in E.
  - inv E. rewrite app_nil_r. auto.
  - unfold alloc in E. destruct (alloc_rows (hp ++ [c]) c ind) as [l0 hp0] eqn:E0. inv E.
    apply IH in E0. destruct E0 as [-> ->]. cbn [length repeat seq]. rewrite <- app_assoc, app_length. cbn [length app].
    split; auto. f_equal. f_equal. lia.
Qed.

Lemma nth_error_snoc : forall {A} (l : list A) x m, nth_error (l ++ x :: m) (length l) = Some x.
Proof. intros. rewrite nth_error_app2 by lia. rewrite Nat.sub_diag. reflexivity. Qed.

Lemma map_nth_rows : forall {A} (pre : list A) c n post, map (nth_error (pre ++ repeat c n ++ post)) (seq (length pre) n) = repeat (Some c) n.
Proof.
  intros A pre c n. revert pre. induction n as [|n IH]; intros pre post; cbn [seq map repeat]; auto. f_equal.
  - cbn [app]. apply nth_error_snoc.
  - specialize (IH (pre ++ [c]) post). rewrite app_length in IH. cbn [length] in IH. rewrite Nat.add_1_r in IH.
    cbn [app]. rewrite <- IH. rewrite <- app_assoc. reflexivity.
Qed.

Lemma map_const : forall {A B} (x : B) (l : list A), map (fun _ => x) l = repeat x (length l).
Proof. induction l as [|y l IH]; cbn; auto. f_equal; auto. Qed.

Lemma map_repeat' : forall {A B} (f : A -> B) x n, map f (repeat x n) = repeat (f x) n.
Proof. induction n as [|n IH]; cbn; auto. f_equal; auto. Qed.

Lemma h_new_ok : forall hp b a hp', h_new hp b = (a, hp') ->
  (exists ext, hp' = hp ++ ext) /\
  exists fp, layout hp' a fp (new_sudoku b) /\ NoDup fp /\ forall x, In x fp -> (length hp <= x)%nat.
Proof.
  intros hp [w h] a hp' E. unfold h_new in E.
  set (c1 := CNums (repeat 0 (length (py_range (w * h))))) in E. set (c2 := CCands (repeat [] (length (py_range (w * h))))) in E.
  destruct (alloc_rows hp c1 (py_range (w * h))) as [rows hp1] eqn:E1. apply alloc_rows_ok in E1. destruct E1 as [E1 R1].
  unfold alloc in E. destruct (alloc_rows (hp1 ++ [CRefs rows]) c2 (py_range (w * h))) as [crows hp2] eqn:E2.
  apply alloc_rows_ok in E2. destruct E2 as [E2 R2]. injection E as Ea Ehp.
  set (n := length (py_range (w * h))) in *. set (L := length hp) in *.
  assert (L1 : length hp1 = (L + n)%nat) by (rewrite E1, app_length, repeat_length; auto).
  assert (L1' : length (hp1 ++ [CRefs rows]) = (L + n + 1)%nat) by (rewrite app_length, L1; auto).
  assert (L2 : length hp2 = (L + n + 1 + n)%nat) by (rewrite E2, app_length, L1', repeat_length; auto).
  assert (L3 : a = (L + n + 1 + n + 1)%nat) by (rewrite <- Ea, app_length, L2; auto).
  set (obj := CSudoku w h (length hp1) (length hp2)) in *.
  split.
  - exists (repeat c1 n ++ [CRefs rows] ++ repeat c2 n ++ [CRefs crows] ++ [obj]). rewrite <- Ehp, E2, E1.
    repeat rewrite <- app_assoc. reflexivity.
  - exists (a :: (L + n)%nat :: (L + n + 1 + n)%nat :: rows ++ crows). splits.
    + exists (L + n)%nat, (L + n + 1 + n)%nat, rows, crows. cbn [new_sudoku box_width box_height s_numbers s_candidates]. splits; auto.
      * rewrite <- Ehp, <- Ea. subst obj. rewrite L1, L2. apply nth_error_snoc.
      * rewrite <- Ehp, E2, <- L1. repeat rewrite <- app_assoc. apply nth_error_snoc.
      * rewrite <- Ehp, <- L2. repeat rewrite <- app_assoc. apply nth_error_snoc.
      * rewrite <- Ehp, E2, E1, R1. repeat rewrite <- app_assoc. unfold L. rewrite map_nth_rows.
        rewrite map_map, map_const. reflexivity.
      * rewrite <- Ehp, E2, R2. rewrite <- !(app_assoc (hp1 ++ [CRefs rows])), <- !(app_assoc (repeat c2 n)). rewrite map_nth_rows.
        rewrite map_map, map_const. reflexivity.
    + rewrite R1, R2, L1'. repeat (apply NoDup_cons; [cbn [In]; rewrite in_app_iff, !in_seq; lia|]).
      apply NoDup_app_iff; splits; try apply seq_NoDup. intros x X Y. apply in_seq in X, Y. lia.
    + intros x X. rewrite R1, R2, L1' in X. cbn [In] in X. rewrite in_app_iff, !in_seq in X. lia.
Qed.

Lemma hinv_new : forall hp os b a hp', hinv hp os -> h_new hp b = (a, hp') ->
  exists fp, hinv hp' (os ++ [(a, fp, new_sudoku b)]).
Proof.
  intros hp os b a hp' [I1 I2] E. apply h_new_ok in E. destruct E as [[ext ->] [fp [HL [N G]]]]. exists fp. split.
  - intros o Ho. apply in_app_iff in Ho. destruct Ho as [Ho|[<-|[]]]; [|exact HL].
    apply (layout_frame hp); auto. intros x Hx. apply nth_error_app1. eapply layout_lt; [apply (I1 o Ho)|]; auto.
  - rewrite map_app, concat_app. apply NoDup_app_iff. splits; auto.
    + cbn. rewrite app_nil_r. exact N.
    + intros x X Y. cbn in Y. rewrite app_nil_r in Y. apply G in Y. apply in_concat in X. destruct X as [f [F X]].
      apply in_map_iff in F. destruct F as [o [<- Ho]]. pose proof (layout_lt _ _ _ _ _ (I1 o Ho) X). lia.
Qed.

(** ** copy *)
Lemma upd_last : forall {A} (l : list A) x y, list_upd (length l) y (l ++ [x]) = l ++ [y].
Proof. induction l as [|z l IH]; intros; cbn; auto. f_equal; auto. Qed.

Section Copy.
Variables (os : list hobj) (i : nat) (o : hobj) (new : nat) (fp : list nat).
Hypothesis Hi : nth_error os i = Some o.

Lemma copy_fold : forall {V} (hget : heap -> nat -> Z -> Z -> res V) (get : sudoku -> Z -> Z -> res V)
    (hset : heap -> nat -> Z -> Z -> V -> res heap) (set : sudoku -> Z -> Z -> V -> res sudoku),
  (forall hp os i o, hinv hp os -> nth_error os i = Some o -> forall r c, hget hp (o_ref o) r c = get (o_val o) r c) ->
  (forall hp os i o, hinv hp os -> nth_error os i = Some o -> forall r c v, refines os i o (hset hp (o_ref o) r c v) (set (o_val o) r c v)) ->
  forall l hp t, hinv hp (os ++ [(new, fp, t)]) ->
  match foldM (fun n (rc : Z * Z) => let* v := get (o_val o) (fst rc) (snd rc) in set n (fst rc) (snd rc) v) l t with
  | Ok t' => exists hp', foldM (fun hp (rc : Z * Z) => let* v := hget hp (o_ref o) (fst rc) (snd rc) in hset hp new (fst rc) (snd rc) v) l hp = Ok hp' /\
               hinv hp' (os ++ [(new, fp, t')])
  | Err e => foldM (fun hp (rc : Z * Z) => let* v := hget hp (o_ref o) (fst rc) (snd rc) in hset hp new (fst rc) (snd rc) v) l hp = Err e
  end.
Proof.
  intros V hget get hset set G S l. induction l as [|[r c] l IH]; intros hp t HI; cbn [foldM]; [eauto|].
  cbn [fst snd]. assert (Hi' : nth_error (os ++ [(new, fp, t)]) i = Some o).
  { rewrite nth_error_app1; auto. apply nth_error_Some. congruence. }
  rewrite (G hp _ i o HI Hi'). destruct (get (o_val o) r c) as [v|e]; cbn [rbind]; auto.
  pose proof (S hp _ (length os) (new, fp, t) HI (nth_error_snoc _ _ _) r c v) as R. cbn [o_ref o_val fst snd] in R.
  destruct (set t r c v) as [t1|e]; cbn [refines] in R; [|rewrite R; cbn [rbind]; auto].
  destruct R as [hp1 [R1 R2]]. rewrite R1. cbn [rbind]. rewrite upd_last in R2. apply IH. exact R2.
Qed.
End Copy.

Lemma h_copy_ok : forall hp os i o inc, hinv hp os -> nth_error os i = Some o ->
  match copy (o_val o) inc with
  | Ok t => exists new fp hp', h_copy hp (o_ref o) inc = Ok (new, hp') /\ hinv hp' (os ++ [(new, fp, t)])
  | Err e => h_copy hp (o_ref o) inc = Err e
  end.
Proof.
  intros hp os i o inc HI Hi. destruct (o_layout hp os i o HI Hi) as [na [ca [nrs [crs [F [H1 _]]]]]].
  unfold h_copy, copy, deref_sudoku. change (@foldM coord) with (@foldM (Z * Z)). rewrite H1. cbn [rbind]. change (box_width (o_val o), box_height (o_val o)) with (box_size (o_val o)).
  destruct (h_new hp (box_size (o_val o))) as [new hp1] eqn:E. destruct (hinv_new hp os _ _ _ HI E) as [fp HI1].
  change (h_coords (box_width (o_val o)) (box_height (o_val o))) with (coords (o_val o)).
  pose proof (copy_fold os i o new fp Hi h_getitem getitem h_setitem setitem
                (fun hp os i o => h_getitem_ok hp os i o) (fun hp os i o => h_setitem_ok hp os i o) (coords (o_val o)) hp1 _ HI1) as R.
  destruct (foldM (A:=Z * Z) _ (coords (o_val o)) (new_sudoku (box_size (o_val o)))) as [t1|e]; [|rewrite R; cbn [rbind]; auto].
  destruct R as [hp2 [R1 HI2]]. rewrite R1. cbn [rbind].
  destruct inc; [|cbn [rbind]; eauto 6].
  pose proof (copy_fold os i o new fp Hi h_get_candidates get_candidates h_set_candidates set_candidates
                (fun hp os i o => h_get_candidates_ok hp os i o) (fun hp os i o => h_set_candidates_ok hp os i o) (coords (o_val o)) hp2 _ HI2) as R.
  destruct (foldM (A:=Z * Z) _ (coords (o_val o)) t1) as [t2|e]; [|rewrite R; cbn [rbind]; auto].
  destruct R as [hp3 [R3 HI3]]. rewrite R3. cbn [rbind]. eauto 6.
Qed.

(** ** Programs *)
Lemma deref_all_ok : forall {A} (con : A -> cell_obj) (f : heap -> nat -> res A) hp l rows,
  (forall a r, nth_error hp a = Some (con r) -> f hp a = Ok r) ->
  map (nth_error hp) l = map (fun r => Some (con r)) rows -> deref_all (f hp) l = Some rows.
Proof.
  intros A con f hp l rows Hf. unfold deref_all. revert rows. induction l as [|a l IH]; intros [|r rows] E; try discriminate; cbn in *; auto.
  injection E as E1 E2. rewrite (Hf a r E1). cbn [rbind]. specialize (IH rows E2). destruct (mapM (f hp) l) as [m|]; inv IH. reflexivity.
Qed.

Lemma layout_contents : forall hp ref fp s, layout hp ref fp s -> h_contents hp ref = Some s.
Proof.
  intros hp ref fp s [na [ca [nrs [crs [F [H1 [H2 [H3 [H4 H5]]]]]]]]].
  unfold h_contents, deref_sudoku, deref_refs. rewrite H1, H2, H3.
  rewrite (deref_all_ok CNums deref_nums hp nrs (s_numbers s)); auto; [|intros a r E; unfold deref_nums; rewrite E; auto].
  rewrite (deref_all_ok CCands deref_cands hp crs (s_candidates s)); auto; [|intros a r E; unfold deref_cands; rewrite E; auto].
  destruct s; reflexivity.
Qed.

Definition hsim (st : hstate) (l : list sudoku) : Prop :=
  exists os, hinv (fst st) os /\ map o_ref os = snd st /\ map o_val os = l.

Lemma sim_upd : forall hp os i o rh rs, hinv hp os -> nth_error os i = Some o -> refines os i o rh rs ->
  hsim (h_update (hp, map o_ref os) rh) (v_update (map o_val os) i rs).
Proof.
  intros hp os i o rh rs HI Hi R. destruct rs as [s|e]; cbn in R.
  - destruct R as [hp' [-> HI']]. exists (list_upd i (with_val o s) os). cbn [h_update v_update fst snd]. splits; auto.
    + clear - Hi. revert i Hi. induction os as [|x os IH]; intros [|i] H; cbn in *; auto; [inv H; reflexivity|f_equal; auto].
    + rewrite <- upd_map. reflexivity.
  - subst rh. exists os. cbn. auto.
Qed.

Lemma sim_step : forall st l op, hsim st l -> hsim (h_step st op) (v_step l op).
Proof.
  intros [hp objs] l op [os [HI [E1 E2]]]. cbn [fst snd] in HI, E1. subst objs l. unfold h_step, v_step. destruct op as [b|i inc|i r c v|i r c v|i r c v].
  - destruct (h_new hp b) as [a hp'] eqn:E. destruct (hinv_new _ _ _ _ _ HI E) as [fp HI']. exists (os ++ [(a, fp, new_sudoku b)]).
    cbn [fst snd]. rewrite !map_app. auto.
  - rewrite !nth_error_map. destruct (nth_error os i) as [o|] eqn:Hi; cbn [option_map]; [|exists os; auto].
    pose proof (h_copy_ok hp os i o inc HI Hi) as R. destruct (copy (o_val o) inc) as [t|e].
    + destruct R as [new [fp [hp' [-> HI']]]]. exists (os ++ [(new, fp, t)]). cbn [fst snd]. rewrite !map_app. auto.
    + rewrite R. exists os; auto.
  - rewrite !nth_error_map. destruct (nth_error os i) as [o|] eqn:Hi; cbn [option_map]; [|exists os; auto].
    apply (sim_upd _ _ _ o); auto. apply h_setitem_ok; auto.
  - rewrite !nth_error_map. destruct (nth_error os i) as [o|] eqn:Hi; cbn [option_map]; [|exists os; auto].
    apply (sim_upd _ _ _ o); auto. apply h_set_candidates_ok; auto.
  - rewrite !nth_error_map. destruct (nth_error os i) as [o|] eqn:Hi; cbn [option_map]; [|exists os; auto].
    apply (sim_upd _ _ _ o); auto. apply h_remove_candidates_ok; auto.
Qed.

Lemma sim_run : forall ops st l, hsim st l -> hsim (fold_left h_step ops st) (fold_left v_step ops l).
Proof. induction ops as [|o ops IH]; intros st l H; cbn [fold_left]; auto. apply IH, sim_step, H. Qed.

Lemma h_run_sim : forall ops, hsim (h_run ops) (v_run ops).
Proof.
  intros ops. apply sim_run. exists []. splits; auto. split; [intros o []|constructor].
Qed.

(** Every program computes with objects what it computes with values. *)
Lemma h_run_values : forall ops, map (h_contents (fst (h_run ops))) (snd (h_run ops)) = map Some (v_run ops).
Proof.
  intros ops. destruct (h_run_sim ops) as [os [[I1 I2] [E1 E2]]]. rewrite <- E1, <- E2, !map_map.
  apply map_ext_in. intros o Ho. eapply layout_contents. apply (I1 o Ho).
Qed.

(** No object is created twice. *)
Lemma h_run_distinct : forall ops, NoDup (snd (h_run ops)).
Proof.
  intros ops. destruct (h_run_sim ops) as [os [[I1 I2] [<- E2]]]. clear E2.
  induction os as [|o os IH]; cbn; [constructor|]. cbn in I2. apply NoDup_app_iff in I2. destruct I2 as [N1 [N2 N3]].
  constructor; [|apply IH; auto; intros x Hx; apply I1; right; auto].
  intros X. apply in_map_iff in X. destruct X as [o' [E Ho']].
  assert (Hr : forall x, In x (o :: os) -> In (o_ref x) (o_fp x)).
  { intros x Hx. destruct (I1 x Hx) as [na [ca [nrs [crs [F _]]]]]. rewrite F. left. auto. }
  apply (N3 (o_ref o)); [apply Hr; left; auto|]. apply in_concat. exists (o_fp o'). split; [apply in_map; auto|].
  rewrite <- E. apply Hr. right; auto.
Qed.

(** A statement writes only to the object it names. *)
Definition writes (op : hop) : option nat :=
  match op with ONew _ | OCopy _ _ => None | OSet i _ _ _ | OSetC i _ _ _ | ORemC i _ _ _ => Some i end.

Lemma v_step_other : forall l op j, writes op <> Some j -> (j < length l)%nat -> nth_error (v_step l op) j = nth_error l j.
Proof.
  intros l op j W Lj. assert (U : forall i r, i <> j -> nth_error (v_update l i r) j = nth_error l j).
  { intros i r D. destruct r; cbn; auto. rewrite nth_error_upd. destruct (Nat.eqb_spec j i); auto. subst; contradiction. }
  destruct op as [b|i inc|i r c v|i r c v|i r c v]; cbn in *.
  - apply nth_error_app1; auto.
  - destruct (nth_error l i) as [s|]; auto. destruct (copy s inc); auto. apply nth_error_app1; auto.
  - destruct (nth_error l i) as [s|]; auto; apply U; congruence.
  - destruct (nth_error l i) as [s|]; auto; apply U; congruence.
  - destruct (nth_error l i) as [s|]; auto; apply U; congruence.
Qed.

Lemma length_v_step : forall l op, (length l <= length (v_step l op))%nat.
Proof.
  intros l op. assert (U : forall i r, (length l <= length (v_update l i r))%nat).
  { intros i r. destruct r; cbn; auto. rewrite length_list_upd. auto. }
  destruct op as [b|i inc|i r c v|i r c v|i r c v]; cbn; try (destruct (nth_error l i); auto; fail).
  - rewrite app_length. lia.
  - destruct (nth_error l i) as [s|]; auto. destruct (copy s inc); auto. rewrite app_length. lia.
Qed.

Lemma v_run_other : forall ops l j, (forall op, In op ops -> writes op <> Some j) -> (j < length l)%nat ->
  nth_error (fold_left v_step ops l) j = nth_error l j.
Proof.
  induction ops as [|o ops IH]; intros l j W Lj; cbn [fold_left]; auto.
  rewrite IH.
  - apply v_step_other; auto. apply W; left; auto.
  - intros op Hop. apply W; right; auto.
  - pose proof (length_v_step l o). lia.
Qed.

(** What can be read from the object number [j]. *)
Definition content (st : hstate) (j : nat) : option sudoku :=
  match nth_error (snd st) j with Some a => h_contents (fst st) a | None => None end.

Lemma content_values : forall ops j, content (h_run ops) j = nth_error (v_run ops) j.
Proof.
  intros ops j. unfold content. pose proof (h_run_values ops) as E.
  apply (f_equal (fun l => nth_error l j)) in E. rewrite !nth_error_map in E.
  destruct (nth_error (snd (h_run ops)) j) as [a|], (nth_error (v_run ops) j) as [s|]; cbn in E; congruence.
Qed.

Lemma writes_other : forall ops ops' j, content (h_run ops) j <> None -> (forall op, In op ops' -> writes op <> Some j) ->
  content (h_run (ops ++ ops')) j = content (h_run ops) j.
Proof.
  intros ops ops' j H W. rewrite !content_values in *. unfold v_run in *. rewrite fold_left_app.
  apply v_run_other; auto. apply nth_error_Some. exact H.
Qed.

Lemma v_run_snoc : forall ops op, v_run (ops ++ [op]) = v_step (v_run ops) op.
Proof. intros. unfold v_run. rewrite fold_left_app. reflexivity. Qed.

Lemma copy_independent : forall ops i inc a b ops',
  content (h_run ops) i = Some a -> copy a inc = Ok b ->
  let n := length (snd (h_run ops)) in
  let pre := ops ++ [OCopy i inc] in
  content (h_run pre) i = Some a /\ content (h_run pre) n = Some b /\
  ((forall op, In op ops' -> writes op <> Some i) -> content (h_run (pre ++ ops')) i = Some a) /\
  ((forall op, In op ops' -> writes op <> Some n) -> content (h_run (pre ++ ops')) n = Some b).
Proof.
  intros ops i inc a b ops' Ha Hb n pre.
  assert (Ln : n = length (v_run ops)).
  { unfold n. pose proof (h_run_values ops) as E. apply (f_equal (@length _)) in E. rewrite !map_length in E. exact E. }
  assert (P : v_run pre = v_run ops ++ [b]).
  { unfold pre. rewrite v_run_snoc. cbn [v_step]. rewrite content_values in Ha. rewrite Ha, Hb. reflexivity. }
  assert (P1 : content (h_run pre) i = Some a).
  { rewrite content_values, P, nth_error_app1; [rewrite <- content_values; auto|].
    apply nth_error_Some. rewrite <- content_values. congruence. }
  assert (P2 : content (h_run pre) n = Some b).
  { rewrite content_values, P, Ln. apply nth_error_snoc. }
  splits; auto.
  - intros W. rewrite writes_other; auto. congruence.
  - intros W. rewrite writes_other; auto. congruence.
Qed.
