(** The find methods run by a consumer that changes nothing: generic lemmas, and the single-field classes. *)
From Verif Require Export SpecFind LSolvers5.

(** * Generators run without changes *)
Definition runs {A} (g : gen sudoku A sudoku) (s : sudoku) (ys : list A) : Prop :=
  gresult g s = Ok s /\ gyields g s = ys.

Lemma runs_ret : forall A s, @runs A (Ret s) s [].
Proof. split; auto. Qed.
Lemma runs_yield : forall A (a : A) s, runs (yield a) s [a].
Proof. split; auto. Qed.
Lemma runs_lift : forall A B (m : res B) b (f : B -> gen sudoku A sudoku) s ys,
  m = Ok b -> runs (f b) s ys -> runs (gbind (lift m) f) s ys.
Proof. intros A B m b f s ys -> H; auto. Qed.
Lemma runs_for : forall A B (f : sudoku -> B -> gen sudoku A sudoku) (ys : B -> list A) l s,
  (forall x, In x l -> runs (f s x) s (ys x)) -> runs (gfor f l s) s (flat_map ys l).
Proof. intros A B f ys l s H. apply (gfor_yields f s ys s l H). Qed.
Lemma runs_bind : forall A (g : gen sudoku A sudoku) (f : sudoku -> gen sudoku A sudoku) s xs ys,
  runs g s xs -> runs (f s) s ys -> runs (gbind g f) s (xs ++ ys).
Proof.
  intros A g f s xs ys [H1 H2] [H3 H4]. split; [rewrite gresult_gbind, H1; auto|].
  rewrite gyields_gbind, H1, H2, H4; auto.
Qed.
Lemma runs_glist : forall A (g : gen sudoku A sudoku) s ys, runs g s ys -> glist g s = Ok ys.
Proof. intros A g s ys [H1 H2]. unfold glist. rewrite H1, H2; auto. Qed.
Lemma runs_cons_if : forall A (b : bool) (a : A) s,
  runs (if b then yield a else Ret s) s (if b then [a] else []).
Proof. intros; destruct b; [apply runs_yield|apply runs_ret]. Qed.
Lemma runs_nonempty : forall A B (l : list B) (a : A) s,
  runs (match l with [] => Ret s | _ => yield a end) s (match l with [] => [] | _ => [a] end).
Proof. intros A B l a s; destruct l; [apply runs_ret|apply runs_yield]. Qed.

(** [for b in inner] is [for b in list(inner)]. *)
Lemma gforgen_gfor : forall {A B S R} (body : sudoku * S -> B -> gen sudoku A (sudoku * S)) (inner : gen sudoku B R) s st r,
  gresult inner s = Ok r -> fst st = s ->
  (forall st b, fst st = s -> In b (gyields inner s) -> exists st', gresult (body st b) s = Ok st' /\ fst st' = s) ->
  gresult (gforgen body inner st) s = gresult (gfor body (gyields inner s) st) s /\
  gyields (gforgen body inner st) s = gyields (gfor body (gyields inner s) st) s.
Proof.
  intros A B S R body inner s; induction inner as [r0|b k IH|e]; intros st r Hr Hst Hb; simpl in *.
  - auto.
  - destruct (Hb st b Hst) as [st' [E1 E2]]; [left; auto|].
    rewrite !gresult_gbind, !gyields_gbind, E1. cbn [rbind]. rewrite E2.
    destruct (IH s st' r Hr E2) as [-> ->]; auto.
  - discriminate.
Qed.
Lemma gforgen_const : forall {A B S R} (body : sudoku * S -> B -> gen sudoku A (sudoku * S)) (inner : gen sudoku B R)
    (ys : B -> list A) s st r,
  gresult inner s = Ok r -> fst st = s ->
  (forall b, In b (gyields inner s) -> gresult (body st b) s = Ok st /\ gyields (body st b) s = ys b) ->
  gresult (gforgen body inner st) s = Ok st /\ gyields (gforgen body inner st) s = flat_map ys (gyields inner s).
Proof.
  intros A B S R body inner ys s; induction inner as [r0|b k IH|e]; intros st r Hr Hst Hb; simpl in *.
  - auto.
  - destruct (Hb b) as [E1 E2]; [left; auto|].
    rewrite !gresult_gbind, !gyields_gbind, E1, E2. cbn [rbind]. rewrite Hst.
    destruct (IH s st r Hr Hst) as [-> ->]; auto.
  - discriminate.
Qed.

(** * Sorted lists *)
Lemma lex_lt_cmp : forall p q, lex_lt p q <-> coord_cmp p q = Lt.
Proof.
  intros [a b] [c d]; unfold lex_lt, coord_cmp, pair_cmp, zcmp; cbn [fst snd].
  destruct (Z.compare_spec a c) as [E|E|E].
  - rewrite Z.compare_lt_iff. lia.
  - split; auto. 
  - split; [lia|discriminate].
Qed.
Lemma sorted_sset : forall l, StronglySorted lex_lt l <-> sset coord_cmp l.
Proof.
  intros l; unfold sset; split; induction 1 as [|a l H1 IH H2]; constructor; auto;
    eapply Forall_impl; try exact H2; intros q Hq; apply lex_lt_cmp; auto.
Qed.
Lemma zsorted_sset : forall l, StronglySorted Z.lt l <-> sset zcmp l.
Proof.
  intros l; unfold sset; split; induction 1 as [|a l H1 IH H2]; constructor; auto;
    eapply Forall_impl; try exact H2; intros q Hq; apply Z.compare_lt_iff; auto.
Qed.
Lemma lists_unique : forall l l' P, lists l P -> lists l' P -> l = l'.
Proof.
  intros l l' P [S1 H1] [S2 H2]. apply (sset_ext _ coord_cmp_good); try (apply sorted_sset; auto).
  intros p. rewrite H1, H2. tauto.
Qed.
Lemma listsz_unique : forall l l' P, listsz l P -> listsz l' P -> l = l'.
Proof.
  intros l l' P [S1 H1] [S2 H2]. apply (sset_ext _ zcmp_good); try (apply zsorted_sset; auto).
  intros p. rewrite H1, H2. tauto.
Qed.
Lemma lists_ext : forall l P Q, (forall p, P p <-> Q p) -> lists l P -> lists l Q.
Proof. intros l P Q E [H1 H2]. split; auto. intros p; rewrite H2; auto. Qed.
Lemma lists_nodup : forall l P, lists l P -> NoDup l.
Proof. intros l P [H _]. apply (sset_NoDup _ coord_cmp_good). apply sorted_sset; auto. Qed.
Lemma ssorted_nodup : forall l, StronglySorted lex_lt l -> NoDup l.
Proof. intros l H. apply (sset_NoDup _ coord_cmp_good). apply sorted_sset; auto. Qed.
Lemma zssorted_nodup : forall l, StronglySorted Z.lt l -> NoDup l.
Proof. intros l H. apply (sset_NoDup _ zcmp_good). apply zsorted_sset; auto. Qed.

Lemma sorted_strict : forall {A} (cmp : A -> A -> comparison), good_cmp cmp -> forall l, NoDup l -> sset cmp (py_sorted cmp l).
Proof.
  intros A cmp G l N. pose proof (py_sorted_sorted cmp G l) as H.
  assert (N' : NoDup (py_sorted cmp l)).
  { eapply Permutation_NoDup; [|exact N]. symmetry; apply py_sorted_perm. }
  revert H N'. generalize (py_sorted cmp l) as m. intros m H; induction H as [|a m H1 IH H2]; intros N'; constructor.
  - inv N'; apply IH; auto.
  - inv N'. rewrite Forall_forall in *. intros b Hb. specialize (H2 b Hb).
    apply (cmp_leb_lt_or_eq _ G) in H2. destruct H2 as [|<-]; auto. contradiction.
Qed.
Lemma py_sorted_lists : forall l P, NoDup l -> (forall p, In p l <-> P p) -> lists (py_sorted coord_cmp l) P.
Proof.
  intros l P N H. split.
  - apply sorted_sset. apply sorted_strict; auto. apply coord_cmp_good.
  - intros p. rewrite (in_py_sorted _ coord_cmp_good). auto.
Qed.
Lemma py_sorted_listsz : forall l P, NoDup l -> (forall p, In p l <-> P p) -> listsz (py_sorted zcmp l) P.
Proof.
  intros l P N H. split.
  - apply zsorted_sset. apply sorted_strict; auto. apply zcmp_good.
  - intros p. rewrite (in_py_sorted _ zcmp_good). auto.
Qed.
Lemma py_sorted_length : forall {A} (cmp : A -> A -> comparison) l, length (py_sorted cmp l) = length l.
Proof. intros. apply Permutation_length, py_sorted_perm. Qed.
Lemma lists_sorted_eq : forall l m P, NoDup l -> (forall p, In p l <-> P p) -> lists m P -> py_sorted coord_cmp l = m.
Proof. intros l m P N H L. eapply lists_unique; [apply py_sorted_lists; eauto|auto]. Qed.
Lemma listsz_sorted_eq : forall l m P, NoDup l -> (forall p, In p l <-> P p) -> listsz m P -> py_sorted zcmp l = m.
Proof. intros l m P N H L. eapply listsz_unique; [apply py_sorted_listsz; eauto|auto]. Qed.
Lemma lists_length : forall l m P, lists l P -> NoDup m -> (forall p, In p m <-> P p) -> length l = length m.
Proof. intros l m P L N H. rewrite <- (lists_sorted_eq m l P N H L). apply py_sorted_length. Qed.

(** * Reading candidates *)
Lemma get_cand : forall s p, wf s -> field s p -> get_candidates s (fst p) (snd p) = Ok (cand s p).
Proof. intros s [r c] W F. apply get_candidates_ok; auto. Qed.
Lemma get_num : forall s p, wf s -> field s p -> getitem s (fst p) (snd p) = Ok (num s p).
Proof. intros s [r c] W F. apply getitem_ok; auto. Qed.
Lemma cand_sset : forall s p, wf s -> field s p -> zsset (cand s p).
Proof.
  intros s p W F. apply zsorted_sset. pose proof (get_cand s p W F) as E.
  unfold get_candidates in E.
  destruct (list_get (s_candidates s) (fst p)) as [row|] eqn:E1; [|discriminate]. cbn [rbind] in E.
  assert (X : forall {A} (l : list A) i x, list_get l i = Ok x -> In x l).
  { intros A l i x H. unfold list_get in H. destruct (py_idx (length l) i) as [k|]; [|discriminate]. cbn [rbind] in H.
    destruct (nth_error l k) eqn:E'; inv H. eapply nth_error_In; eauto. }
  eapply (wf_cand _ W); [eapply X; exact E1|eapply X; exact E].
Qed.

Section ReadOnly.
Variable s : sudoku.
Hypothesis W : wf s.

Lemma ro_filter : forall (f : coord -> zset -> bool) l, (forall p, In p l -> field s p) ->
  filterM (fun rc => let* c := get_candidates s (fst rc) (snd rc) in Ok (f rc c)) l
  = Ok (filter (fun rc => f rc (cand s rc)) l).
Proof. intros f l H. apply filterM_ok. intros x Hx. rewrite get_cand by auto. reflexivity. Qed.
Lemma ro_filter_except : forall (f : coord -> zset -> bool) (cl l : list coord), (forall p, In p l -> field s p) ->
  filterM (fun rc => if list_in coord_eqb rc cl then Ok false
                     else let* c := get_candidates s (fst rc) (snd rc) in Ok (f rc c)) l
  = Ok (filter (fun rc => negb (list_in coord_eqb rc cl) && f rc (cand s rc)) l).
Proof.
  intros f cl l H. apply filterM_ok. intros x Hx.
  destruct (list_in coord_eqb x cl); simpl; auto. rewrite get_cand by auto. reflexivity.
Qed.

Definition SI0 : sudoku -> Prop := SInv (box_width s) (box_height s) (fun _ => False).
Lemma no_grid : forall g : grid, False -> valid_grid (box_width s) (box_height s) g.
Proof. intros g []. Qed.
Lemma si0 : SI0 s.
Proof. constructor; auto; intros g p []. Qed.

Definition kind_func (k : kind) : unit_func := match k with KRow => f_row | KCol => f_col | KBox => f_box end.
Lemma kind_rel : forall k, unit_rel s (together s k) (kind_func k).
Proof. intros []; unfold unit_rel; simpl; auto. Qed.
Lemma kind_unit : forall k q i, field s q ->
  exists l, kind_func k s (fst q) (snd q) i = Ok l /\ NoDup l /\
  forall p, In p l <-> unit_at s k q p /\ (i = true \/ p <> q).
Proof.
  intros k [r c] i F. destruct (unit_func_spec s (kind_func k) (together s k) r c i W (kind_rel k) F) as [l [E [N H]]].
  exists l; splits; auto. intros p. rewrite H. unfold unit_at. tauto.
Qed.
Lemma kind_unit_true : forall k q, field s q ->
  exists l, kind_func k s (fst q) (snd q) true = Ok l /\ NoDup l /\ forall p, In p l <-> unit_at s k q p.
Proof.
  intros k q F. destruct (kind_unit k q true F) as [l [E [N H]]]. exists l; splits; auto.
  intros p; rewrite H; tauto.
Qed.
Lemma unit_at_field : forall k q p, unit_at s k q p -> field s p.
Proof. intros k q p [H _]; auto. Qed.
Lemma together_refl : forall k p, together s k p p.
Proof. intros [] p; simpl; unfold same_row, same_col, same_box; auto. Qed.
Lemma together_sym : forall k p q, together s k p q -> together s k q p.
Proof. intros [] p q; simpl; unfold same_row, same_col, same_box; intuition. Qed.
Lemma together_trans : forall k p q r, together s k p q -> together s k q r -> together s k p r.
Proof. intros [] p q r; simpl; unfold same_row, same_col, same_box; intuition congruence. Qed.
Lemma unit_at_same : forall k p q x, together s k p q -> (unit_at s k p x <-> unit_at s k q x).
Proof.
  intros k p q x T. unfold unit_at. split; intros [H1 H2]; split; auto; eapply together_trans; eauto.
  apply together_sym; auto.
Qed.

Lemma ro_empty : gresult (empty s) s = Ok s /\ gyields (empty s) s = filter (fun p => num s p =? 0) (coords s).
Proof. apply empty_list; auto. Qed.
Lemma in_empty : forall p, In p (filter (fun p => num s p =? 0) (coords s)) <-> field s p /\ num s p = 0.
Proof. intros p. rewrite filter_In, in_coords, Z.eqb_eq. tauto. Qed.

(** * CalculateCandidates *)
Lemma calculate_runs : runs (calculate_find s) s
  (flat_map (fun p => match cand s p with [] => [new_step CalculateCandidates [p] [p] (pcalc s p)] | _ => [] end) (coords s)).
Proof.
  unfold calculate_find. apply runs_for. intros p Hp. apply in_coords in Hp.
  eapply runs_lift; [apply get_cand; auto|].
  destruct (cand s p); [|apply runs_ret].
  eapply runs_lift; [|apply runs_yield].
  destruct p as [r c]. apply calc_candidates_ok; auto.
Qed.

(** * Naked singles *)
Lemma naked_single_runs : runs (naked_single_find s) s
  (flat_map (fun p => match cand s p with [v] => [single_step NakedSingle (fst p) (snd p) v] | _ => [] end)
            (filter (fun p => num s p =? 0) (coords s))).
Proof.
  unfold naked_single_find, runs.
  rewrite gresult_gbind, gyields_gbind.
  destruct ro_empty as [E1 E2]. unfold coord in E1, E2.
  match goal with |- context [gforgen ?b _ _] =>
    destruct (gforgen_const b (empty s)
      (fun p => match cand s p with [v] => [single_step NakedSingle (fst p) (snd p) v] | _ => [] end) s (s, tt) s E1 eq_refl)
      as [G1 G2] end.
  { intros p Hp. rewrite E2 in Hp. apply (in_empty p) in Hp. cbn [fst]. rewrite get_cand by tauto. simpl.
    destruct (cand s p) as [|v [|]]; auto. }
  rewrite G1, G2, E2. cbn. rewrite app_nil_r. auto.
Qed.

(** * Hidden singles *)
Variable o : oracle.
Hypothesis O : oracle_ok o.

(** The hidden values of a field for one kind of unit, in the order of the oracle. *)
Definition hc (k : kind) (p : coord) : list Z :=
  match kind_func k s (fst p) (snd p) false with
  | Ok others => match hidden_candidates s others with Ok cs => o_hidden o s p cs | Err _ => [] end
  | Err _ => []
  end.
Lemma hc_ok : forall k p, field s p -> exists others cs,
  kind_func k s (fst p) (snd p) false = Ok others /\ hidden_candidates s others = Ok cs /\
  hc k p = o_hidden o s p cs.
Proof.
  intros k p F. destruct (kind_unit k p false F) as [others [E [_ H]]].
  destruct (hidden_candidates_ok (box_width s) (box_height s) (wf_w _ W) (wf_h _ W) (fun _ => False) no_grid s others si0) as [cs [E2 _]].
  { intros q Hq. apply H in Hq. apply Hq. }
  exists others, cs. splits; auto. unfold hc. rewrite E, E2; auto.
Qed.
Lemma hc_spec : forall k p v, field s p -> (In v (hc k p) <-> hidden_value s k p v).
Proof.
  intros k p v F. destruct (kind_unit k p false F) as [others [E [_ H]]].
  destruct (hidden_candidates_ok (box_width s) (box_height s) (wf_w _ W) (wf_h _ W) (fun _ => False) no_grid s others si0) as [cs [E2 H2]].
  { intros q Hq. apply H in Hq. apply Hq. }
  unfold hc. rewrite E, E2. destruct O as [O1 _].
  assert (P : In v (o_hidden o s p cs) <-> In v cs).
  { split; apply Permutation_in; [|symmetry]; apply O1. }
  rewrite P, H2. unfold hidden_value. split; intros [A B]; split; auto.
  - intros q Hq Nq. apply B. apply H. split; auto.
  - intros q Hq. apply H in Hq. destruct Hq as [Hq [X|X]]; [discriminate|auto].
Qed.

Definition hv (p : coord) : list step :=
  match hc KCol p ++ hc KRow p ++ hc KBox p with
  | v :: _ => [single_step HiddenSingle (fst p) (snd p) v]
  | [] => []
  end.

Definition hs_value (p : coord) : sudoku * list coord * bool -> Z -> gen sudoku step (sudoku * list coord * bool) :=
  fun '(s, yielded, found) value =>
  if list_in coord_eqb p yielded then Ret (s, yielded, found)
  else do* s := yield (single_step HiddenSingle (fst p) (snd p) value) in Ret (s, yielded ++ [p], true).

Lemma hs_values_in : forall p y vs b, In p y -> gfor (hs_value p) vs (s, y, b) = Ret (s, y, b).
Proof.
  intros p y vs b H; induction vs as [|v vs IH]; auto. cbn [gfor].
  unfold hs_value at 1. apply list_in_coord in H. rewrite H. exact IH.
Qed.
Lemma hs_values : forall p y vs, ~ In p y ->
  gresult (gfor (hs_value p) vs (s, y, false)) s =
    Ok (match vs with [] => (s, y, false) | _ => (s, y ++ [p], true) end) /\
  gyields (gfor (hs_value p) vs (s, y, false)) s =
    match vs with [] => [] | v :: _ => [single_step HiddenSingle (fst p) (snd p) v] end.
Proof.
  intros p y vs H. destruct vs as [|v vs]; [auto|]. cbn [gfor].
  assert (E : hs_value p (s, y, false) v =
    do* s := yield (single_step HiddenSingle (fst p) (snd p) v) in Ret (s, y ++ [p], true)).
  { unfold hs_value. apply list_in_coord_not in H. rewrite H; auto. }
  rewrite gresult_gbind, gyields_gbind, E. cbn.
  rewrite hs_values_in by (apply in_app_iff; simpl; auto). auto.
Qed.

Definition hs_unit (p : coord) : sudoku * list coord * bool -> unit_func -> gen sudoku step (sudoku * list coord * bool) :=
  fun '(s, yielded, found) f =>
  if found : bool then Ret (s, yielded, found)
  else
    do* others := lift (f s (fst p) (snd p) false) in
    do* cs := lift (hidden_candidates s others) in
    gfor (hs_value p) (o_hidden o s p cs) (s, yielded, false).

Lemma hs_unit_found : forall p y f, hs_unit p (s, y, true) f = Ret (s, y, true).
Proof. auto. Qed.
Lemma hs_unit_ok : forall p y k, field s p -> hs_unit p (s, y, false) (kind_func k) = gfor (hs_value p) (hc k p) (s, y, false).
Proof.
  intros p y k F. destruct (hc_ok k p F) as [others [cs [E1 [E2 ->]]]].
  unfold hs_unit. rewrite E1. cbn. rewrite E2. auto.
Qed.
Lemma hs_units : forall p y, field s p -> ~ In p y ->
  exists st', gresult (gfor (hs_unit p) [f_col; f_row; f_box] (s, y, false)) s = Ok st' /\
    fst st' = (s, match hv p with [] => y | _ => y ++ [p] end) /\
  gyields (gfor (hs_unit p) [f_col; f_row; f_box] (s, y, false)) s = hv p.
Proof.
  intros p y F N. change [f_col; f_row; f_box] with (map kind_func [KCol; KRow; KBox]).
  cbn [map gfor]. rewrite !gresult_gbind, !gyields_gbind, (hs_unit_ok p y KCol F).
  destruct (hs_values p y (hc KCol p) N) as [-> ->]. unfold hv.
  destruct (hc KCol p) as [|v l]; cbn [rbind app].
  2:{ rewrite hs_unit_found. cbn. eexists; splits; reflexivity. }
  rewrite !gresult_gbind, !gyields_gbind, (hs_unit_ok p y KRow F).
  destruct (hs_values p y (hc KRow p) N) as [-> ->].
  destruct (hc KRow p) as [|v l]; cbn [rbind app].
  2:{ rewrite hs_unit_found. cbn. eexists; splits; reflexivity. }
  rewrite !gresult_gbind, !gyields_gbind, (hs_unit_ok p y KBox F).
  destruct (hs_values p y (hc KBox p) N) as [-> ->].
  destruct (hc KBox p) as [|v l]; cbn; eexists; splits; reflexivity.
Qed.

Definition hs_body (st : sudoku * list coord) (rc : coord) : gen sudoku step (sudoku * list coord) :=
  let '(s, yielded) := st in
  do* (s, yielded, _) := gfor (hs_unit rc) [f_col; f_row; f_box] (s, yielded, false) in Ret (s, yielded).
Lemma hs_body_ok : forall p y, field s p -> ~ In p y ->
  gresult (hs_body (s, y) p) s = Ok (s, match hv p with [] => y | _ => y ++ [p] end) /\
  gyields (hs_body (s, y) p) s = hv p.
Proof.
  intros p y F N. unfold hs_body. rewrite gresult_gbind, gyields_gbind.
  destruct (hs_units p y F N) as [[[s' y'] b] [-> [E ->]]]. cbn in *. inv E. rewrite app_nil_r; auto.
Qed.
Lemma hs_loop : forall l y, NoDup l -> (forall p, In p l -> field s p /\ ~ In p y) ->
  exists y', gresult (gfor hs_body l (s, y)) s = Ok (s, y') /\ gyields (gfor hs_body l (s, y)) s = flat_map hv l.
Proof.
  induction l as [|p l IH]; intros y N H; [exists y; auto|]. inv N. cbn [gfor flat_map].
  destruct (H p) as [F Np]; [left; auto|].
  rewrite gresult_gbind, gyields_gbind. destruct (hs_body_ok p y F Np) as [-> ->]. cbn [rbind].
  destruct (IH (match hv p with [] => y | _ => y ++ [p] end)) as [y' [-> ->]]; auto.
  { intros q Hq. destruct (H q) as [H1 H4]; [right; auto|]. split; auto.
    destruct (hv p); auto. rewrite in_app_iff. intros [X|[X|[]]]; auto. subst; auto. }
  exists y'; auto.
Qed.

Lemma hidden_single_runs : runs (hidden_single_find o s) s (flat_map hv (filter (fun p => num s p =? 0) (coords s))).
Proof.
  change (hidden_single_find o s) with (do* st := gforgen hs_body (empty s) (s, []) in Ret (fst st)).
  destruct ro_empty as [E1 E2].
  (* the general lemma on gforgen needs a total body: use the loop directly *)
  assert (G : forall (g : gen sudoku coord sudoku) y r, gresult g s = Ok r -> NoDup (gyields g s) ->
     (forall p, In p (gyields g s) -> field s p /\ ~ In p y) ->
     gresult (gforgen hs_body g (s, y)) s = gresult (gfor hs_body (gyields g s) (s, y)) s /\
     gyields (gforgen hs_body g (s, y)) s = gyields (gfor hs_body (gyields g s) (s, y)) s).
  { induction g as [r0|b k IH|e]; intros y r Hr N H; cbn [gforgen gfor gyields gresult In] in *; auto. 2:discriminate. inv N.
    destruct (H b) as [F Nb]; [left; auto|].
    rewrite !gresult_gbind, !gyields_gbind. destruct (hs_body_ok b y F Nb) as [-> ->]. cbn [rbind fst].
    destruct (IH s (match hv b with [] => y | _ => y ++ [b] end) r Hr) as [-> ->]; auto.
    intros q Hq. destruct (H q) as [H1 H4]; [right; auto|]. split; auto.
    destruct (hv b); auto. rewrite in_app_iff. intros [X|[X|[]]]; auto. subst; auto. }
  destruct (G (empty s) [] s E1) as [G1 G2].
  { rewrite E2. apply NoDup_filter. apply ssorted_nodup, coords_sorted. }
  { intros p Hp. rewrite E2 in Hp. apply in_empty in Hp. split; [tauto|intros []]. }
  destruct (hs_loop (gyields (empty s) s) []) as [y' [L1 L2]].
  { rewrite E2. apply NoDup_filter. apply ssorted_nodup, coords_sorted. }
  { intros p Hp. rewrite E2 in Hp. apply in_empty in Hp. split; [tauto|intros []]. }
  split; [rewrite gresult_gbind, G1, L1; auto|].
  rewrite gyields_gbind, G1, G2, L1, L2, E2. cbn. apply app_nil_r.
Qed.
End ReadOnly.
