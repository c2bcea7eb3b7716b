(** Lemmas for C117: the steps found in a sudoku with more candidates than [T] do not touch the candidates of [T], if
    nothing is left to be found in [T]. *)
From Verif Require Export LLevel.

Local Opaque MSudoku.surrounding_of MSudoku.box_of MSudoku.row_of MSudoku.column_of.

Lemma gsafe_and : forall {A R} (I I' : sudoku -> Prop) (Q Q' : sudoku -> A -> Prop) (P P' : sudoku -> R -> Prop) g cur,
  gsafe I Q P g cur -> gsafe I' Q' P' g cur -> (forall s, I' s -> I s) ->
  gsafe I' (fun t a => Q t a /\ Q' t a) (fun t r => P t r /\ P' t r) g cur.
Proof.
  intros A R I I' Q Q' P P' g; induction g as [r|a k IH|e]; intros cur H H' HI; simpl in *; auto.
  destruct H as [H1 H2], H' as [H3 H4]. split; auto.
Qed.

(** The step leaves the candidates of [T]. *)
Definition spares (T : sudoku) (st : step) : Prop :=
  match st_class st with
  | CalculateCandidates | Bruteforce => False
  | NakedSingle | HiddenSingle => exists p v, affected st = [p] /\ values st = [v] /\
      (forall x, In x (cand T p) -> x = v) /\
      forall q, field T q -> peers (box_width T) (box_height T) p q -> ~ In v (cand T q)
  | HiddenTuple _ => forall p x, In p (affected st) -> In x (cand T p) -> In x (values st)
  | _ => forall p v, In p (affected st) -> In v (values st) -> ~ In v (cand T p)
  end.

(** [s] has all candidates of [T]. *)
Definition above (T s : sudoku) : Prop :=
  ok_sudoku (box_width T) (box_height T) s /\ forall p x, field T p -> In x (cand T p) -> In x (cand s p).

Section Live.
Variable T : sudoku.
Hypothesis WT : wf T.
Hypothesis Hw : 1 <= box_width T.
Hypothesis Hh : 1 <= box_height T.
Hypothesis Ne : forall p, field T p -> cand T p <> [].
Notation w := (box_width T).
Notation h := (box_height T).

Lemma above_sinv : forall s, above T s -> SInv w h none s.
Proof. intros s [O _]. apply none_SInv; auto. Qed.
Lemma FVn : forall g, none g -> valid_grid w h g.
Proof. intros g []. Qed.
Local Hint Resolve above_sinv FVn : core.

Lemma spared_effect : forall st s s', above T s -> effect w h st s s' -> spares T st ->
  (forall p, In p (affected st) -> field T p) -> above T s'.
Proof.
  intros st s s' [O A] [W' [Ew [Eh E]]] Sp Fa. split; [apply ok_intro; auto|]. intros p x Fp Hx. specialize (A p x Fp Hx).
  unfold spares in Sp. destruct (st_class st); try contradiction.
  - destruct Sp as [p1 [v1 [A1 [A2 [A3 A4]]]]]. destruct E as [p2 [v2 [B1 [B2 [B3 [B4 B5]]]]]].
    assert (p2 = p1) by congruence. assert (v2 = v1) by congruence. subst.
    destruct (coord_eq_dec p p1) as [->|D]; [apply B4; auto|]. apply B5; auto. split; auto. intros [P ->]. apply (A4 p); auto.
  - destruct Sp as [p1 [v1 [A1 [A2 [A3 A4]]]]]. destruct E as [p2 [v2 [B1 [B2 [B3 [B4 B5]]]]]].
    assert (p2 = p1) by congruence. assert (v2 = v1) by congruence. subst.
    destruct (coord_eq_dec p p1) as [->|D]; [apply B4; auto|]. apply B5; auto. split; auto. intros [P ->]. apply (A4 p); auto.
  - destruct E as [_ E]. apply E; auto. split; auto. intros [X Y]. exact (Sp p x X Y Hx).
  - destruct E as [_ E]. apply E; auto. split; auto. intros X. exact (Sp p x X Hx).
  - destruct E as [_ E]. apply E; auto. split; auto. intros [X Y]. exact (Sp p x X Y Hx).
  - destruct E as [_ E]. apply E; auto. split; auto. intros [X Y]. exact (Sp p x X Y Hx).
Qed.

Definition vsafe (s : sudoku) (gn : gen sudoku step sudoku) : Prop :=
  gsafe (above T) (fun _ => spares T) (fun t r => r = t /\ above T t) gn s.

Lemma vsafe_for : forall {B} (f : sudoku -> B -> gen sudoku step sudoku) l s, above T s ->
  (forall x cur, In x l -> above T cur -> vsafe cur (f cur x)) -> vsafe s (gfor f l s).
Proof.
  intros B f l s A H. unfold vsafe in *. apply (gsafe_gfor (above T) (A := step) _ (fun acc t => acc = t /\ above T t)); auto.
  intros x acc cur Hx [-> Hc]. auto.
Qed.
Lemma vsafe_lift : forall {B} (m : res B) b (f : B -> gen sudoku step sudoku) s,
  m = Ok b -> vsafe s (f b) -> vsafe s (gbind (lift m) f).
Proof. intros; eapply gsafe_lift; eauto. Qed.
Lemma vsafe_ret : forall s, above T s -> vsafe s (Ret s).
Proof. intros; split; auto. Qed.
Lemma vsafe_yield : forall s st, spares T st -> vsafe s (yield st).
Proof. intros; apply (gsafe_yield (above T) (fun _ => spares T)); auto. Qed.
Lemma vsafe_fst : forall {X} s (g : gen sudoku step (sudoku * X)) (J : sudoku * X -> Prop),
  gsafe (above T) (fun _ => spares T) (fun t st => fst st = t /\ above T t /\ J st) g s ->
  vsafe s (do* st := g in Ret (fst st)).
Proof.
  intros X s g J H. eapply gsafe_bind; [exact H|]. intros t r [E [H1 _]]; subst; simpl; auto.
Qed.

Lemma v_empty : forall s, above T s ->
  gsafe (above T) (fun t p => field T p /\ num t p = 0) (fun t r => r = t /\ above T t) (empty s) s.
Proof.
  intros s A. unfold empty.
  apply (gsafe_gfor (above T) (A := coord) _ (fun acc t => acc = t /\ above T t)); auto.
  intros p acc cur Hp [-> Hc]. apply (si_coords w h Hw Hh none FVn s) in Hp; auto.
  eapply gsafe_lift; [eapply (si_getitem w h Hw Hh none FVn); eauto|].
  destruct (num cur p =? 0) eqn:E; b2p.
  - apply (gsafe_yield (above T) (fun t p => field T p /\ num t p = 0)); auto.
  - simpl; auto.
Qed.

(** * Units *)
Definition kunit (k : kind) (q : coord) (l : list coord) : Prop :=
  field T q /\ NoDup l /\ forall p, In p l <-> unit_at T k q p.
Lemma ku_cell : forall k q l, kunit k q l -> forall p, In p l -> cell w h p.
Proof. intros k q l [_ [_ H]] p Hp. apply H in Hp. apply Hp. Qed.
Lemma rel_kind : forall s f, above T s -> In f [f_row; f_col; f_box] -> exists k u, unit_rel s u f /\ forall p q, u p q <-> together T k p q.
Proof.
  intros s f A [<-|[<-|[<-|[]]]].
  - exists KRow, same_row. split; [apply rel_row|]. reflexivity.
  - exists KCol, same_col. split; [apply rel_col|]. reflexivity.
  - exists KBox, (same_box w h). split; [eapply (rel_box w h Hw Hh none FVn); eauto|]. reflexivity.
Qed.
Lemma v_unit : forall s f k u r c, above T s -> unit_rel s u f -> (forall p q, u p q <-> together T k p q) -> field T (r, c) ->
  exists l, f s r c true = Ok l /\ kunit k (r, c) l.
Proof.
  intros s f k u r c A U K F. destruct (si_unit w h Hw Hh none FVn s f u r c) as [l [E [Ul Hl]]]; auto.
  exists l. split; auto. split; auto. split; [apply (ul_nodup _ _ _ Ul)|]. intros p. rewrite Hl, K. reflexivity.
Qed.
Lemma v_units : forall s f k u, above T s -> unit_rel s u f -> (forall p q, u p q <-> together T k p q) ->
  exists cl, units_with_empty f s = Ok cl /\ forall l, In l cl -> exists q, kunit k q l.
Proof.
  intros s f k u A U K. unfold units_with_empty.
  rewrite glist_empty by apply A. cbn [rbind].
  destruct (foldM_ind (fun clist rc => let* cs := f s (fst rc) (snd rc) true in
             Ok (if list_in coords_eqb cs clist then clist else clist ++ [cs]))
    (fun _ cl => forall l, In l cl -> exists q, kunit k q l)
    (filter (fun p => num s p =? 0) (coords s)) []) as [cl [E P]].
  - intros l [].
  - intros pre x post acc E P.
    assert (Hx : cell w h x).
    { assert (X : In x (filter (fun p => num s p =? 0) (coords s))) by (rewrite E; apply in_app_iff; simpl; auto).
      apply filter_In in X. apply (si_coords w h Hw Hh none FVn s); auto. tauto. }
    destruct x as [r c]. destruct (v_unit s f k u r c A U K Hx) as [l [El Ul]].
    cbn [fst snd]. rewrite El. eexists; split; [reflexivity|].
    destruct (list_in coords_eqb l acc); auto.
    intros l' Hl'. apply in_app_iff in Hl'. destruct Hl' as [|[<-|[]]]; eauto.
  - exists cl; auto.
Qed.

(** * The classes *)
Lemma calculate_spares : forall s, above T s -> vsafe s (calculate_find s).
Proof.
  intros s A. unfold calculate_find. apply vsafe_for; auto.
  intros p cur Hp Sc. apply (si_coords w h Hw Hh none FVn s) in Hp; auto.
  eapply vsafe_lift; [eapply (si_get w h Hw Hh none FVn); eauto|].
  destruct (cand cur p) as [|v t] eqn:E; [|apply vsafe_ret; auto].
  exfalso. pose proof (Ne p Hp) as X. destruct (cand T p) as [|x l] eqn:Et; [congruence|].
  assert (Y : In x (cand cur p)) by (apply Sc; auto; rewrite Et; left; auto). rewrite E in Y. destruct Y.
Qed.

Lemma naked_single_spares : forall s, keeps_single T -> above T s -> vsafe s (naked_single_find s).
Proof.
  intros s [K _] A. unfold naked_single_find.
  apply vsafe_fst with (J := fun st => above T (fst st)).
  apply (gsafe_gforgen (above T) _ (fun t p => field T p /\ num t p = 0) (fun t r => r = t /\ above T t)
           (fun st : sudoku * unit => above T (fst st))) with (st := (s, tt)); auto; [apply v_empty; auto|].
  intros [cur []] p HJ [Cp Ep]; cbn [fst] in *.
  eapply gsafe_lift; [eapply (si_get w h Hw Hh none FVn); eauto|].
  destruct (cand cur p) as [|v [|]] eqn:Ec; [simpl; auto| |simpl; auto].
  eapply gsafe_bind; [apply (gsafe_yield (above T) (fun _ => spares T))|intros t r [-> Ht]; simpl; auto].
  assert (X : forall x, In x (cand T p) -> x = v).
  { intros x Hx. apply HJ in Hx; auto. rewrite Ec in Hx. destruct Hx as [<-|[]]; auto. }
  assert (Et : cand T p = [v]).
  { pose proof (cand_nodup T WT p Cp) as Nd. pose proof (Ne p Cp). destruct (cand T p) as [|a [|b l]]; [congruence| |].
    - f_equal. apply X. left; auto.
    - exfalso. inv Nd. apply H2. left. rewrite (X a), (X b); simpl; auto. }
  exists p, v. simpl. destruct p as [r c]. simpl. splits; auto. intros q Fq Pq. apply (K (r, c) q v); auto.
Qed.

Lemma hidden_single_spares : forall o s, keeps_single T -> oracle_ok o -> above T s -> vsafe s (hidden_single_find o s).
Proof.
  intros o s [K1 K2] [Ho _] A. unfold hidden_single_find.
  apply vsafe_fst with (J := fun st => above T (fst st)).
  apply (gsafe_gforgen (above T) _ (fun t p => field T p /\ num t p = 0) (fun t r => r = t /\ above T t)
           (fun st : sudoku * list coord => above T (fst st))) with (st := (s, [])); auto; [apply v_empty; auto|].
  intros [cur y] p HJ [Cp Ep]; cbn [fst] in *.
  set (J2 := fun (st : sudoku * list coord * bool) t => fst (fst st) = t /\ above T t).
  eapply gsafe_bind.
  - apply (gsafe_gfor (above T) (A := step) _ J2); [|subst J2; simpl; auto].
    intros f [[s1 y1] found] t Hf [E1 S1]; cbn [fst snd] in *; subst t.
    destruct found; [unfold J2; simpl; auto|].
    destruct (rel_kind s1 f) as [k [u [Hu Hk]]]; auto; [simpl in *; tauto|].
    destruct (unit_func_spec s1 f u (fst p) (snd p) false (proj1 (proj1 S1)) Hu) as [others [Eo [_ Hl]]].
    { apply (si_field w h Hw Hh none FVn); auto; destruct p; auto. }
    eapply gsafe_lift; [exact Eo|].
    destruct (hidden_candidates_ok w h Hw Hh none FVn s1 others (above_sinv _ S1)) as [cs [Ec Hcs]].
    { intros q Hq; apply Hl in Hq. apply (si_field w h Hw Hh none FVn s1); auto; tauto. }
    eapply gsafe_lift; [exact Ec|].
    apply (gsafe_gfor (above T) (A := step) _ J2); [|unfold J2; simpl; auto].
    intros v [[s2 y2] fd] t Hv [E2 S2]; cbn [fst snd] in *; subst t.
    destruct (list_in coord_eqb p y2) eqn:L; [unfold J2; simpl; auto|].
    assert (Hv' : In v cs) by (eapply Permutation_in; [apply Ho|exact Hv]).
    apply Hcs in Hv'. destruct Hv' as [V1 V2].
    assert (Et : cand T p = [v]).
    { apply (K2 p k v); auto. intros q [Fq Tq] Dq Iq. apply (V2 q); [|apply S1; auto].
      apply Hl. split; [apply (si_field w h Hw Hh none FVn); auto|]. replace (fst p, snd p) with p by (destruct p; auto). split; auto. apply Hk; auto. }
    eapply gsafe_bind; [apply (gsafe_yield (above T) (fun _ => spares T))|].
    + exists p, v. simpl. destruct p as [r c]. simpl. splits; auto.
      * intros x Hx. rewrite Et in Hx. destruct Hx as [<-|[]]; auto.
      * intros q Fq Pq. apply (K1 (r, c) q v); auto.
    + intros t r [-> Ht]. unfold J2; simpl. auto.
  - intros t [[s1 y1] found] [E1 S1]; cbn [fst snd] in *; subst; simpl; auto.
Qed.

Lemma removal_spares : forall cls (cl aff : list coord) (vals : list Z), is_removal cls ->
  (forall p v, In p aff -> In v vals -> ~ In v (cand T p)) -> spares T (new_step cls cl aff vals).
Proof.
  intros cls cl aff vals R H.
  assert (X : forall p v, In p (py_sorted coord_cmp aff) -> In v (py_sorted zcmp vals) -> ~ In v (cand T p)).
  { intros p v Hp Hv. apply (proj1 (in_py_sorted _ coord_cmp_good _ _)) in Hp. apply (proj1 (in_py_sorted _ zcmp_good _ _)) in Hv. auto. }
  unfold spares; simpl. destruct R as [[n ->]|[[n ->]|[n ->]]]; auto.
Qed.

Lemma naked_at_spares : forall n k q s l, keeps_naked T n -> above T s -> kunit k q l -> vsafe s (naked_find_at n s l).
Proof.
  intros n k q s l K A U. pose proof (ku_cell _ _ _ U) as Uc. unfold naked_find_at.
  eapply vsafe_lift.
  { apply (si_filter w h Hw Hh none FVn s (fun _ c => (1 <? py_len c) && (py_len c <=? Z.of_nat n))); auto. }
  apply vsafe_for; auto.
  intros fields cur Hf Sc.
  pose proof (combinations_length _ _ _ Hf) as Lf.
  pose proof (combinations_incl _ _ _ Hf) as If.
  assert (Nf : NoDup fields) by (eapply combinations_nodup; [|exact Hf]; apply NoDup_filter; apply U).
  assert (If' : incl fields l).
  { intros p Hp. apply If in Hp. apply filter_In in Hp; tauto. }
  destruct (union_candidates_ok w h Hw Hh none FVn cur fields (above_sinv _ Sc)) as [cs [Ec [Sn Hcs]]]; auto.
  eapply vsafe_lift; [exact Ec|].
  destruct (py_len cs <=? Z.of_nat n) eqn:El; [|apply vsafe_ret; auto]; b2p.
  eapply vsafe_lift.
  { apply (si_filter_except w h Hw Hh none FVn cur (fun _ c => negb (match sinter zcmp cs c with [] => true | _ => false end))); auto. }
  match goal with |- vsafe _ (match ?a with [] => _ | _ => _ end) => set (aff := a) end.
  assert (Haff : forall p, In p aff -> In p l /\ ~ In p fields).
  { intros p Hp. apply filter_In in Hp. destruct Hp as [H1 H2]. b2p. apply list_in_coord_not in H. auto. }
  destruct aff as [|a aff'] eqn:Ea; [apply vsafe_ret; auto|].
  apply vsafe_yield. rewrite <- Ea in *.
  apply removal_spares; [left; exists n; auto|].
  intros p v Hp Hv. destruct (Haff p Hp) as [P1 P2].
  apply (K k q fields cs); auto; try lia.
  - exact (proj1 U).
  - intros x Hx. apply U; auto.
  - unfold py_len in El. lia.
  - intros x y Hx Hy. apply Hcs. exists x. split; auto. apply Sc; auto. apply (Uc x); auto.
  - apply U; auto.
Qed.

Lemma naked_spares : forall n s, keeps_naked T n -> above T s -> vsafe s (naked_find n s).
Proof.
  intros n s K A. unfold naked_find.
  apply vsafe_fst with (J := fun st => above T (fst st)).
  set (J := fun (st : sudoku * list (list coord)) t => fst st = t /\ above T t /\ above T (fst st)).
  apply (gsafe_gfor (above T) (A := step) _ J); [|subst J; simpl; auto].
  intros f [s1 y1] t Hf [E1 [S1 _]]; cbn [fst] in *; subst t.
  destruct (rel_kind s1 f S1 Hf) as [k [u [Hu Hk]]].
  destruct (v_units s1 f k u S1 Hu Hk) as [cl [Ecl Hcl]].
  eapply gsafe_lift; [exact Ecl|].
  apply (gsafe_gfor (above T) (A := step) _ J); [|unfold J; simpl; auto].
  intros l [s2 y2] t Hl [E2 [S2 _]]; cbn [fst] in *; subst t.
  destruct (Hcl l Hl) as [q Uq].
  apply (gsafe_gforgen (above T) _ (fun _ => spares T) (fun t r => r = t /\ above T t)
           (fun st : sudoku * list (list coord) => above T (fst st))) with (st := (s2, y2)); auto.
  - eapply naked_at_spares; eauto.
  - intros [s3 y3] p HJ Hg; cbn [fst snd] in *.
    destruct (list_in coords_eqb (clues p) y3); [simpl; auto|].
    eapply gsafe_bind; [apply (gsafe_yield (above T) (fun _ => spares T)); auto|]. intros t r [-> Ht]; simpl; auto.
Qed.

Lemma hidden_at_spares : forall n k q s l, keeps_hidden T n -> above T s -> kunit k q l -> vsafe s (hidden_find_at n s l).
Proof.
  intros n k q s l K A U. pose proof (ku_cell _ _ _ U) as Uc. unfold hidden_find_at.
  destruct (mapM_total (fun v => let* c := cand_coords s l v in Ok (v, c))
    (fun v e => fst e = v /\ forall p, In p (snd e) <-> In p l /\ In v (cand s p)) (numbers s)) as [table [Et Ht]].
  { intros v _. destruct (cand_coords_ok w h Hw Hh none FVn s l v (above_sinv _ A) Uc) as [c [E Hc]].
    rewrite E. exists (v, c); auto. }
  eapply vsafe_lift; [exact Et|]. cbv zeta.
  assert (Hfst : map fst table = numbers s).
  { clear -Ht. induction Ht; simpl; [reflexivity|]. destruct H as [-> _]. congruence. }
  assert (Hent : forall e, In e table -> 1 <= fst e <= w * h /\
                   forall p, In p (snd e) <-> In p l /\ In (fst e) (cand s p)).
  { intros e He. destruct (Forall2_in_r _ _ _ _ Ht He) as [v [V1 [V2 V3]]].
    rewrite V2. split; auto. apply (si_numbers w h Hw Hh none FVn s); auto. }
  apply vsafe_for; auto.
  intros entries cur Hf Sc.
  pose proof (combinations_length _ _ _ Hf) as Lf.
  pose proof (combinations_incl _ _ _ Hf) as If.
  assert (If' : incl entries table) by (intros e He; apply If in He; apply filter_In in He; tauto).
  assert (Nd : NoDup (map fst entries)).
  { assert (Nt : NoDup (map fst table)).
    { rewrite Hfst, (si_numbers_eq w h Hw Hh none FVn s (above_sinv _ A)). apply NoDup_py_range2. }
    assert (Nen : NoDup entries).
    { eapply combinations_nodup; [|exact Hf]. apply NoDup_filter. eapply NoDup_map_inv; eauto. }
    apply NoDup_map_inj; auto. intros x y Hx Hy E. apply If' in Hx; apply If' in Hy.
    clear -Nt Hx Hy E. induction table as [|e t IH]; [destruct Hx|]. inv Nt.
    destruct Hx as [<-|Hx], Hy as [<-|Hy]; auto.
    - exfalso; apply H1. rewrite E. apply in_map; auto.
    - exfalso; apply H1. rewrite <- E. apply in_map; auto. }
  set (ms := fold_left (fun m e => sunion coord_cmp m (snd e)) entries []).
  assert (Hms : forall p, In p ms <-> exists e, In e entries /\ In p (snd e)).
  { intros p. unfold ms. rewrite fold_union. simpl; tauto. }
  assert (Cms : forall p, In p ms -> In p l).
  { intros p Hp. apply Hms in Hp. destruct Hp as [e [H1 H2]]. apply If' in H1. apply Hent in H1.
    apply H1 in H2; tauto. }
  destruct (py_len ms <=? Z.of_nat n) eqn:El; [|apply vsafe_ret; auto]; b2p.
  apply vsafe_for; auto.
  intros x cur2 _ Sc2.
  eapply vsafe_lift.
  { apply (si_filter w h Hw Hh none FVn cur2 (fun _ c => negb (match sdiff zcmp c (sof_list zcmp (map fst entries)) with [] => true | _ => false end))); auto. }
  match goal with |- vsafe _ (match ?a with [] => _ | _ => _ end) => set (aff := a) end.
  assert (Haff : forall p, In p aff -> In p ms) by (intros p Hp; apply filter_In in Hp; tauto).
  destruct aff as [|a aff'] eqn:Ea; [apply vsafe_ret; auto|].
  apply vsafe_yield. rewrite <- Ea in *.
  unfold spares; simpl. intros p y Hp Hy. apply (proj1 (in_py_sorted _ coord_cmp_good _ _)) in Hp.
  apply (proj2 (in_py_sorted _ zcmp_good _ _)). apply Haff in Hp.
  apply (K k q (map fst entries) ms) with (q := p); auto.
  - rewrite map_length. lia.
  - exact (proj1 U).
  - intros v Hv. apply in_map_iff in Hv; destruct Hv as [e [<- He]]. apply If' in He. apply Hent in He. tauto.
  - rewrite map_length, Lf. unfold py_len in El. lia.
  - intros z v Uz Hv Hz. apply in_map_iff in Hv; destruct Hv as [e [<- He]]. apply Hms. exists e; split; auto. apply Hent; auto.
    split; [apply U; auto|]. apply A; auto. apply Uz.
  - apply U; auto.
Qed.

Lemma hidden_spares : forall n s, keeps_hidden T n -> above T s -> vsafe s (hidden_find n s).
Proof.
  intros n s K A. unfold hidden_find. apply vsafe_for; auto.
  intros f cur Hf Sc. destruct (rel_kind cur f Sc Hf) as [k [u [Hu Hk]]].
  destruct (v_units cur f k u Sc Hu Hk) as [cl [Ecl Hcl]].
  eapply vsafe_lift; [exact Ecl|]. apply vsafe_for; auto.
  intros l cur2 Hl Sc2. destruct (Hcl l Hl) as [q Uq]. eapply hidden_at_spares; eauto.
Qed.

(** Pointing tuples. *)
Lemma pointing_spares_step : forall n k k2 q q2 cur c l cov (cl : list coord), keeps_pointing T n -> crossing k k2 -> above T cur ->
  kunit k q l -> kunit k2 q2 cov -> 1 <= c <= w * h -> length cl = n ->
  cl = filter (fun rc => smem zcmp c (cand cur rc)) l -> incl cl cov ->
  let aff := filter (fun rc => negb (list_in coord_eqb rc cl) && smem zcmp c (cand cur rc)) cov in
  spares T (new_step (PointingTuple n) cl aff [c]).
Proof.
  intros n k k2 q q2 cur c l cov cl K X A U1 U2 Hc Ln Ecl Hi aff.
  assert (Haff : forall p, In p aff -> In p cov /\ ~ In p cl).
  { intros p Hp. apply filter_In in Hp. destruct Hp as [H1 H2]. b2p. apply list_in_coord_not in H. auto. }
  apply removal_spares; [right; left; exists n; auto|].
  intros p v Hp [<-|[]]. destruct (Haff p Hp) as [P1 P2].
  apply (K k k2 q q2 c cl); auto.
  - exact (proj1 U1).
  - lia.
  - intros z Uz Iz. rewrite Ecl. apply filter_In; split; [apply U1; auto|]. apply (smem_In _ zcmp_good). apply A; auto. apply Uz.
  - intros z Hz. apply Hi in Hz. apply U2 in Hz. apply Hz.
  - apply U2; auto.
Qed.

Lemma pointing_row_col_spares : forall n s x, keeps_pointing T n -> above T s -> 0 <= x < w * h ->
  vsafe s (pointing_in_row_and_column n s x).
Proof.
  intros n s x K A Hx. unfold pointing_in_row_and_column. apply vsafe_for; auto.
  intros f cur Hf Sc. assert (Cx : cell w h (x, x)) by (split; simpl; auto).
  assert (Hk : exists k u, unit_rel cur u f /\ (forall p q, u p q <-> together T k p q) /\ crossing k KBox).
  { unfold crossing. simpl in Hf. destruct Hf as [<-|[<-|[]]];
      [exists KRow, same_row; split; [apply rel_row|]|exists KCol, same_col; split; [apply rel_col|]]; split; try reflexivity; tauto. }
  destruct Hk as [k [u [Hu [Hk X]]]].
  destruct (v_unit cur f k u x x Sc Hu Hk Cx) as [l [El Ul]]. pose proof (ku_cell _ _ _ Ul) as Uc.
  eapply vsafe_lift; [exact El|]. apply vsafe_for; auto.
  intros c cur2 Hc Sc2.
  apply (si_numbers w h Hw Hh none FVn cur) in Hc; auto.
  eapply vsafe_lift; [eapply (si_fields_with w h Hw Hh none FVn); eauto|].
  set (cl := filter (fun rc => smem zcmp c (cand cur2 rc)) l).
  destruct (negb (py_len cl =? Z.of_nat n)) eqn:Eln; [apply vsafe_ret; auto|]. b2p.
  assert (Ln : length cl = n) by (unfold py_len in Eln; lia).
  destruct (all_same (map (fun rc => box_at cur2 (fst rc) (snd rc)) cl)) eqn:Es; [|apply vsafe_ret; auto].
  destruct (all_same_first _ _ Es) as [[r0 c0] [E0 [I0 A0]]].
  assert (Ccl : forall p, In p cl -> cell w h p).
  { intros p Hp. apply filter_In in Hp. apply Uc; tauto. }
  eapply vsafe_lift; [exact E0|]. cbn [fst snd].
  destruct (v_unit cur2 f_box KBox (same_box w h) r0 c0 Sc2 (rel_box w h Hw Hh none FVn _ (above_sinv _ Sc2)) ltac:(reflexivity) (Ccl _ I0)) as [cov [Ec Ucov]].
  eapply vsafe_lift; [exact Ec|].
  eapply vsafe_lift; [eapply (si_fields_except w h Hw Hh none FVn); eauto; apply (ku_cell _ _ _ Ucov)|].
  match goal with |- vsafe _ (match ?a with [] => _ | _ => _ end) => set (aff := a) end.
  destruct aff as [|a aff'] eqn:Ea; [apply vsafe_ret; auto|].
  apply vsafe_yield. rewrite <- Ea.
  eapply pointing_spares_step with (l := l); eauto.
  intros p Hp. apply Ucov; split; [apply Ccl; auto|]. apply (box_at_same w h Hw Hh none cur2); auto.
Qed.

Lemma pointing_box_spares : forall n s b, keeps_pointing T n -> above T s -> 0 <= b < w * h ->
  vsafe s (pointing_in_box n s b).
Proof.
  intros n s b K A Hb. unfold pointing_in_box. cbv zeta.
  rewrite (si_w _ _ _ _ (above_sinv _ A)), (si_h _ _ _ _ (above_sinv _ A)).
  pose proof (box_pos w h Hh b Hb) as [B1 [B2 B3]].
  assert (Cb : cell w h (b / h * h, b mod h * w)) by (split; simpl; nia).
  destruct (v_unit s f_box KBox (same_box w h) _ _ A (rel_box w h Hw Hh none FVn _ (above_sinv _ A)) ltac:(reflexivity) Cb) as [l [El Ul]].
  pose proof (ku_cell _ _ _ Ul) as Uc.
  eapply vsafe_lift; [exact El|]. apply vsafe_for; auto.
  intros c cur Hc Sc. apply (si_numbers w h Hw Hh none FVn s) in Hc; auto.
  eapply vsafe_lift; [eapply (si_fields_with w h Hw Hh none FVn); eauto|].
  set (cl := filter (fun rc => smem zcmp c (cand cur rc)) l).
  destruct (negb (py_len cl =? Z.of_nat n)) eqn:Eln; [apply vsafe_ret; auto|]. b2p.
  assert (Ln : length cl = n) by (unfold py_len in Eln; lia).
  assert (Ccl : forall p, In p cl -> cell w h p).
  { intros p Hp. apply filter_In in Hp. apply Uc; tauto. }
  destruct (all_same (map fst cl)) eqn:E1.
  - destruct (all_same_first _ _ E1) as [[r0 c0] [E0 [I0 A0]]].
    destruct (v_unit cur f_row KRow same_row r0 c0 Sc (rel_row _) ltac:(reflexivity) (Ccl _ I0)) as [cov [Ec Ucov]].
    injection Ec as Ec.
    eapply vsafe_lift.
    { match goal with |- rbind ?m _ = _ => replace m with (@Ok coord (r0, c0)) by (symmetry; exact E0) end. cbn [rbind fst snd]. rewrite Ec. eapply (si_fields_except w h Hw Hh none FVn); eauto; apply (ku_cell _ _ _ Ucov). }
    match goal with |- vsafe _ (match ?a with [] => _ | _ => _ end) => set (aff := a) end.
    destruct aff as [|a aff'] eqn:Ea; [apply vsafe_ret; auto|].
    apply vsafe_yield. rewrite <- Ea.
    eapply pointing_spares_step with (l := l) (k := KBox) (k2 := KRow); eauto.
    + unfold crossing; tauto.
    + intros p Hp. apply Ucov; split; [apply Ccl; auto|]. apply A0; auto.
  - destruct (all_same (map snd cl)) eqn:E2.
    + destruct (all_same_first _ _ E2) as [[r0 c0] [E0 [I0 A0]]].
      destruct (v_unit cur f_col KCol same_col r0 c0 Sc (rel_col _) ltac:(reflexivity) (Ccl _ I0)) as [cov [Ec Ucov]].
      injection Ec as Ec.
      eapply vsafe_lift.
      { match goal with |- rbind ?m _ = _ => replace m with (@Ok coord (r0, c0)) by (symmetry; exact E0) end. cbn [rbind fst snd]. rewrite Ec. eapply (si_fields_except w h Hw Hh none FVn); eauto; apply (ku_cell _ _ _ Ucov). }
      match goal with |- vsafe _ (match ?a with [] => _ | _ => _ end) => set (aff := a) end.
      destruct aff as [|a aff'] eqn:Ea; [apply vsafe_ret; auto|].
      apply vsafe_yield. rewrite <- Ea.
      eapply pointing_spares_step with (l := l) (k := KBox) (k2 := KCol); eauto.
      * unfold crossing; tauto.
      * intros p Hp. apply Ucov; split; [apply Ccl; auto|]. apply A0; auto.
    + simpl. apply vsafe_ret; auto.
Qed.

Lemma pointing_spares : forall n s, keeps_pointing T n -> above T s -> vsafe s (pointing_find n s).
Proof.
  intros n s K A. unfold pointing_find. eapply gsafe_bind.
  - apply vsafe_for with (l := indices s) (f := fun s box => pointing_in_box n s box); auto.
    intros x cur Hx Sc. apply pointing_box_spares; auto.
    rewrite (si_indices w h Hw Hh none FVn s) in Hx by auto. apply in_py_range in Hx; auto.
  - intros t r [-> Ht]. apply vsafe_for; auto.
    intros x cur Hx Sc. apply pointing_row_col_spares; auto.
    rewrite (si_indices w h Hw Hh none FVn t) in Hx by auto. apply in_py_range in Hx; auto.
Qed.

(** Fish. *)
Lemma fish_candidate_spares : forall n s c other line bf cf ub uc, keeps_fish T n -> crosses line other -> above T s -> n <> O ->
  1 <= c <= w * h ->
  (forall t, above T t -> unit_rel t ub bf) -> (forall t, above T t -> unit_rel t uc cf) ->
  (forall i p, ub p (i, i) <-> line p = i) -> (forall i p, uc p (i, i) <-> other p = i) ->
  (forall p, cell w h p -> 0 <= other p < w * h) ->
  vsafe s (fish_for_candidate n s c other bf cf).
Proof.
  intros n s c other line bf cf ub uc K X S Nn Hc Hbf Hcf Hub Huc Hor.
  unfold fish_for_candidate.
  destruct (mapM_total (fun i => let* cs := bf s i i true in let* l := fields_with s c cs in Ok (i, l))
    (fun i e => fst e = i /\ 0 <= i < w * h /\
       forall p, In p (snd e) <-> cell w h p /\ line p = i /\ In c (cand s p)) (indices s)) as [fields [Ef Hf]].
  { intros i Hi. rewrite (si_indices w h Hw Hh none FVn s) in Hi by auto. apply in_py_range in Hi.
    assert (Ci : cell w h (i, i)) by (split; simpl; auto).
    destruct (si_unit w h Hw Hh none FVn s bf ub i i (above_sinv _ S) (Hbf s S) Ci) as [l [El [Ul Hl]]].
    rewrite El. cbn [rbind]. rewrite (si_fields_with w h Hw Hh none FVn) by (auto; apply (ul_cell _ _ _ Ul)). cbn [rbind].
    eexists; split; [reflexivity|]. simpl. splits; try lia; auto.
    intros p. rewrite filter_In, (smem_In _ zcmp_good), Hl, Hub. tauto. }
  eapply vsafe_lift; [exact Ef|]. cbv zeta.
  assert (Hfst : map fst fields = indices s).
  { clear -Hf. induction Hf; simpl; [reflexivity|]. destruct H as [-> _]. congruence. }
  assert (Hent : forall e, In e fields -> 0 <= fst e < w * h /\
                   forall p, In p (snd e) <-> cell w h p /\ line p = fst e /\ In c (cand s p)).
  { intros e He. destruct (Forall2_in_r _ _ _ _ Hf He) as [v [V1 [V2 V3]]]. rewrite V2. auto. }
  apply vsafe_for; auto.
  intros entries cur Hin Sc.
  pose proof (combinations_length _ _ _ Hin) as Lf.
  pose proof (combinations_incl _ _ _ Hin) as If.
  assert (If' : incl entries fields) by (intros e He; apply If in He; apply filter_In in He; tauto).
  assert (Nd : NoDup (map fst entries)).
  { assert (Nt : NoDup (map fst fields)).
    { rewrite Hfst, (si_indices w h Hw Hh none FVn s (above_sinv _ S)). apply NoDup_py_range. }
    assert (Nen : NoDup entries).
    { eapply combinations_nodup; [|exact Hin]. apply NoDup_filter. eapply NoDup_map_inv; eauto. }
    apply NoDup_map_inj; auto. intros x y Hx Hy E. apply If' in Hx; apply If' in Hy.
    clear -Nt Hx Hy E. induction fields as [|e t IH]; [destruct Hx|]. inv Nt.
    destruct Hx as [<-|Hx], Hy as [<-|Hy]; auto.
    - exfalso; apply H1. rewrite E. apply in_map; auto.
    - exfalso; apply H1. rewrite <- E. apply in_map; auto. }
  set (base := concat (map snd entries)).
  assert (Hbase : forall p, In p base <-> exists e, In e entries /\ In p (snd e)).
  { intros p. unfold base. apply in_concat_map. }
  assert (Cbase : forall p, In p base -> cell w h p).
  { intros p Hp. apply Hbase in Hp. destruct Hp as [e [H1 H2]]. apply If' in H1. apply Hent in H1.
    apply H1 in H2; tauto. }
  assert (Tbase : forall p, field T p -> In (line p) (map fst entries) -> In c (cand T p) -> In p base).
  { intros p Fp Lp Ip. apply in_map_iff in Lp. destruct Lp as [e [Ee He]]. apply Hbase. exists e. split; auto.
    apply Hent; auto. split; [exact Fp|]. split; auto. apply S; auto. }
  set (oc := count_others other base).
  assert (Hkeys : forall v, In v (dkeys oc) <-> exists p, In p base /\ other p = v).
  { intros v. unfold oc, count_others. rewrite count_others_keys. simpl; tauto. }
  assert (Nb : base <> []).
  { destruct entries as [|e es]; [simpl in Lf; congruence|].
    assert (Y : In e (e :: es)) by (left; auto). apply If in Y. apply filter_In in Y.
    destruct Y as [_ Y]; b2p. unfold py_len in *.
    unfold base; simpl. destruct (snd e); simpl in *; [lia|discriminate]. }
  assert (Em : exists m, py_min (dvalues oc) = Ok m).
  { unfold py_min. destruct (dvalues oc) as [|m t] eqn:E; [|eauto].
    exfalso. destruct base as [|p b0] eqn:Eb; [congruence|].
    assert (Y : In (other p) (dkeys oc)) by (apply Hkeys; exists p; simpl; auto).
    unfold dkeys in Y. unfold dvalues in E. destruct oc; [destruct Y|discriminate]. }
  destruct Em as [m Em]. eapply vsafe_lift; [exact Em|].
  destruct (m <? 2); [apply vsafe_ret; auto|].
  destruct (Z.of_nat n <? py_len oc) eqn:El; [apply vsafe_ret; auto|]; b2p.
  destruct (mapM_total (fun v => cf cur v v true)
    (fun v l => forall p, In p l <-> cell w h p /\ other p = v) (dkeys oc)) as [covered [Ecv Hcv]].
  { intros v Hv. apply Hkeys in Hv. destruct Hv as [q [Q1 <-]].
    assert (Cv : cell w h (other q, other q)) by (split; simpl; apply Hor; auto).
    destruct (si_unit w h Hw Hh none FVn cur cf uc _ _ (above_sinv _ Sc) (Hcf cur Sc) Cv) as [l [El' [_ Hl]]].
    exists l; split; auto. intros p. rewrite Hl, Huc. tauto. }
  eapply vsafe_lift; [exact Ecv|].
  assert (Hcov : forall p, In p (concat covered) -> cell w h p /\ In (other p) (dkeys oc)).
  { intros p Hp. apply in_concat in Hp. destruct Hp as [l [H1 H2]].
    destruct (Forall2_in_r _ _ _ _ Hcv H1) as [v [V1 V2]]. apply V2 in H2. destruct H2 as [H2 ->]. auto. }
  eapply vsafe_lift; [eapply (si_fields_except w h Hw Hh none FVn); eauto; intros p Hp; apply Hcov; auto|].
  match goal with |- vsafe _ (match ?a with [] => _ | _ => _ end) => set (aff := a) end.
  assert (Haff : forall p, In p aff -> In p (concat covered) /\ ~ In p base).
  { intros p Hp. apply filter_In in Hp. destruct Hp as [H1 H2]. b2p. apply list_in_coord_not in H. auto. }
  destruct aff as [|a aff'] eqn:Ea; [apply vsafe_ret; auto|].
  apply vsafe_yield. rewrite <- Ea in *.
  apply removal_spares; [right; right; exists n; auto|].
  intros p v Hp [<-|[]] Ic. destruct (Haff p Hp) as [P1 P2]. apply Hcov in P1. destruct P1 as [P0 P1].
  destruct (in_dec Z.eq_dec (line p) (map fst entries)) as [Lp|Lp]; [apply P2; auto|].
  revert Ic. apply (K line other c (map fst entries) (dkeys oc)); auto.
  - rewrite map_length. lia.
  - intros i Hi. apply in_map_iff in Hi; destruct Hi as [e [<- He]]. apply (Hent e); auto.
  - rewrite map_length, Lf. unfold dkeys. rewrite map_length. unfold py_len in El. lia.
  - intros z Fz Lz Iz. apply Hkeys. exists z. split; auto.
Qed.

Lemma fish_spares : forall n s, keeps_fish T n -> above T s -> n <> O -> vsafe s (fish_find n s).
Proof.
  intros n s K A Nn. unfold fish_find. apply vsafe_for; auto.
  intros [[other bf] cf] cur Hi Sc. cbv beta iota. apply vsafe_for; auto.
  intros c cur2 Hc Sc2. apply (si_numbers w h Hw Hh none FVn cur) in Hc; auto.
  destruct Hi as [E|[E|[]]]; inv E.
  - eapply fish_candidate_spares with (line := fst) (ub := same_row) (uc := same_col); auto.
    + left; auto.
    + intros; apply rel_row.
    + intros; apply rel_col.
    + intros i p; unfold same_row; simpl; tauto.
    + intros i p; unfold same_col; simpl; tauto.
    + intros p [_ H]; auto.
  - eapply fish_candidate_spares with (line := snd) (ub := same_col) (uc := same_row); auto.
    + right; auto.
    + intros; apply rel_col.
    + intros; apply rel_row.
    + intros i p; unfold same_col; simpl; tauto.
    + intros i p; unfold same_row; simpl; tauto.
    + intros p [H _]; auto.
Qed.

(** What a class needs. *)
Definition keeps (cls : solver) : Prop :=
  match cls with
  | CalculateCandidates => True
  | NakedSingle | HiddenSingle => keeps_single T
  | NakedTuple n => keeps_naked T n
  | HiddenTuple n => keeps_hidden T n
  | PointingTuple n => keeps_pointing T n
  | BasicFish n => keeps_fish T n /\ n <> O
  | Bruteforce => False
  end.
Lemma find_spares : forall o cls s, oracle_ok o -> keeps cls -> above T s -> vsafe s (MSolvers.find o cls s).
Proof.
  intros o cls s Ho K A. destruct cls; simpl in *.
  - apply calculate_spares; auto.
  - apply naked_single_spares; auto.
  - apply hidden_single_spares; auto.
  - apply naked_spares; auto.
  - apply hidden_spares; auto.
  - apply pointing_spares; auto.
  - apply fish_spares; tauto.
  - destruct K.
Qed.

(** Both facts about a run. *)
Lemma find_both : forall o cls s, oracle_ok o -> keeps cls -> above T s ->
  gsafe (above T) (fun t a => step_good w h none cls t a /\ spares T a) (fun t r => True) (MSolvers.find o cls s) s.
Proof.
  intros o cls s Ho K A. eapply gsafe_weaken; [|intros t a H; exact H|auto].
  eapply gsafe_and with (I := SInv w h none); [apply find_safe; auto|apply find_spares; auto|auto].
  - intros ->; destruct K.
  - intros ->. destruct K as [_ K]; congruence.
Qed.

Lemma apply_above : forall cls s st st' s', above T s -> step_good w h none cls s st -> spares T st -> apply st s = Ok (st', s') -> above T s'.
Proof.
  intros cls s st st' s' A G Sp E. pose proof (good_shaped _ _ _ _ _ _ G) as Sh. destruct G as [G1 [G2 [G3 [G4 _]]]].
  destruct (apply_ok w h st s (proj1 A) Sh G2) as [x [t [E1 [E2 [E3 [E4 [E5 [E6 E7]]]]]]]].
  assert (X : (x, t) = (st', s')) by congruence. injection X as -> ->.
  apply (spared_effect st' s s'); auto.
  - unfold spares in *. rewrite E2, E4, E5. exact Sp.
  - rewrite E4. exact G4.
Qed.

Lemma drive_above : forall cls gn s l s' (P : sudoku -> sudoku -> Prop), above T s ->
  gsafe (above T) (fun t a => step_good w h none cls t a /\ spares T a) P gn s ->
  drive gn s = Ok (l, s') -> above T s'.
Proof.
  intros cls gn; induction gn as [r|a k IH|e]; intros s l s' P A G E; cbn [drive] in E.
  - injection E as <- <-; auto.
  - destruct G as [[G1 G2] G3]. destruct (apply a s) as [[a' s2]|] eqn:Ea; [|discriminate]. cbn [rbind] in E.
    destruct (drive (k s2) s2) as [[l' s3]|] eqn:Ed; [|discriminate]. cbn [rbind] in E. injection E as <- <-.
    pose proof (apply_above cls s a a' s2 A G1 G2 Ea) as A2. apply (IH s2 s2 l' s3 P A2 (G3 s2 A2) Ed).
  - discriminate.
Qed.

(** A class driven to its end, and a single step of it. *)
Lemma class_above : forall o cls s l s', oracle_ok o -> keeps cls -> above T s ->
  drive (MSolvers.find o cls s) s = Ok (l, s') -> above T s'.
Proof. intros o cls s l s' Ho K A E. eapply drive_above; eauto. eapply find_both; eauto. Qed.
Lemma step_above : forall o cls s ys st st' s', oracle_ok o -> keeps cls -> above T s -> all_steps o cls s ys -> In st ys ->
  apply st s = Ok (st', s') -> above T s'.
Proof.
  intros o cls s ys st st' s' Ho K A E I E2.
  destruct (gsafe_run (above T) _ _ _ s A (find_both o cls s Ho K A)) as [_ H].
  assert (X : ys = gyields (MSolvers.find o cls s) s).
  { unfold all_steps, glist in E. destruct (gresult (MSolvers.find o cls s) s); [injection E as <-; auto|discriminate]. }
  subst ys. destruct (H st I) as [H1 H2]. eapply apply_above; eauto.
Qed.
End Live.
