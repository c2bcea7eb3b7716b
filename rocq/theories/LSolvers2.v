(** The find methods of solvers.py under interference. *)
From Verif Require Export LSolvers LDict LDlx3.

Local Opaque MSudoku.box_of MSudoku.row_of MSudoku.column_of.

Lemma in_py_sorted : forall {A} (cmp : A -> A -> comparison) (G : good_cmp cmp) x l,
  In x (py_sorted cmp l) <-> In x l.
Proof.
  intros A cmp G x l; split; apply Permutation_in; [|symmetry]; apply py_sorted_perm; auto.
Qed.

Lemma coord_cmp_good : good_cmp coord_cmp.
Proof. apply pair_cmp_good; apply zcmp_good. Qed.

Lemma list_in_coord : forall p l, list_in coord_eqb p l = true <-> In p l.
Proof.
  intros p l; unfold list_in; rewrite existsb_exists; split.
  - intros [q [H E]]; apply coord_eqb_eq in E; subst; auto.
  - intros H; exists p; split; auto. apply coord_eqb_refl.
Qed.

Lemma list_in_coord_not : forall p l, list_in coord_eqb p l = false <-> ~ In p l.
Proof.
  intros p l; rewrite <- list_in_coord. destruct (list_in coord_eqb p l); split; congruence.
Qed.

(** * Steps *)
Definition is_single (cls : solver) : Prop := cls = NakedSingle \/ cls = HiddenSingle.
Definition is_removal (cls : solver) : Prop :=
  (exists n, cls = NakedTuple n) \/ (exists n, cls = PointingTuple n) \/ (exists n, cls = BasicFish n).

(** The step does something when applied to [t]. *)
Definition effective (w h : Z) (t : sudoku) (st : step) : Prop :=
  match st_class st with
  | CalculateCandidates => exists p, clues st = [p] /\ affected st = [p] /\ cand t p = []
  | NakedSingle => exists p v, clues st = [p] /\ affected st = [p] /\ values st = [v] /\
                               num t p = 0 /\ cand t p = [v]
  | HiddenSingle => exists p v, clues st = [p] /\ affected st = [p] /\ values st = [v] /\
                                num t p = 0 /\ 1 <= v <= w * h
  | Bruteforce => exists p v, clues st = [p] /\ affected st = [p] /\ values st = [v] /\ num t p <> v
  | HiddenTuple _ => forall p, In p (affected st) -> exists v, In v (cand t p) /\ ~ In v (values st)
  | _ => values st <> [] /\
         forall p, In p (affected st) -> exists v, In v (cand t p) /\ In v (values st)
  end.

(** The step does not contradict [g]. *)
Definition sound (g : grid) (st : step) : Prop :=
  match st_class st with
  | CalculateCandidates | HiddenTuple _ => never_drops g st
  | NakedSingle | HiddenSingle | Bruteforce => sets_only g st
  | _ => never_removes g st
  end.

Section Find.
Variables w h : Z.
Hypothesis Hw : 1 <= w.
Hypothesis Hh : 1 <= h.
(** The solutions that have to be preserved. *)
Variable F : grid -> Prop.
Hypothesis FV : forall g, F g -> valid_grid w h g.

Record SInv (s : sudoku) : Prop := {
  si_wf : wf s;
  si_w : box_width s = w;
  si_h : box_height s = h;
  si_num : forall g p, F g -> cell w h p -> num s p = 0 \/ num s p = g p;
  si_cand : forall g p, F g -> cell w h p -> In (g p) (cand s p)
}.

Definition step_good (cls : solver) (t : sudoku) (st : step) : Prop :=
  st_class st = cls /\ actions st = [] /\ affected st <> [] /\
  (forall p, In p (affected st) -> cell w h p) /\
  (forall p, In p (clues st) -> cell w h p) /\
  effective w h t st /\
  (forall g, F g -> sound g st).

Lemma si_field : forall s p, SInv s -> (field s p <-> cell w h p).
Proof. intros s p [W <- <- _ _]. reflexivity. Qed.

Lemma si_get : forall s p, SInv s -> cell w h p -> get_candidates s (fst p) (snd p) = Ok (cand s p).
Proof.
  intros s [r c] S C. apply get_candidates_ok; [apply S|]. apply si_field; auto.
Qed.

Lemma si_getitem : forall s p, SInv s -> cell w h p -> getitem s (fst p) (snd p) = Ok (num s p).
Proof.
  intros s [r c] S C. apply getitem_ok; [apply S|]. apply si_field; auto.
Qed.

Lemma si_coords : forall s p, SInv s -> (In p (coords s) <-> cell w h p).
Proof. intros; rewrite in_coords. apply si_field; auto. Qed.

Lemma si_numbers : forall s v, SInv s -> (In v (numbers s) <-> 1 <= v <= w * h).
Proof. intros s v [W <- <- _ _]. apply in_numbers. Qed.

Lemma si_numbers_eq : forall s, SInv s -> numbers s = py_range2 1 (w * h + 1).
Proof. intros s [W <- <- _ _]. reflexivity. Qed.

Lemma si_indices : forall s, SInv s -> indices s = py_range (w * h).
Proof. intros s [W <- <- _ _]. reflexivity. Qed.

Lemma si_unit : forall s f u r c, SInv s -> unit_rel s u f -> cell w h (r, c) ->
  exists l, f s r c true = Ok l /\ unit_list w h l /\
  forall p, In p l <-> cell w h p /\ u p (r, c).
Proof.
  intros s f u r c S U C. destruct S as [W <- <- _ _]. apply unit_func_list; auto.
Qed.

Lemma rel_row : forall s, unit_rel s same_row f_row.
Proof. left; auto. Qed.
Lemma rel_col : forall s, unit_rel s same_col f_col.
Proof. right; left; auto. Qed.
Lemma rel_box : forall s, SInv s -> unit_rel s (same_box w h) f_box.
Proof. intros s [W <- <- _ _]. right; right; auto. Qed.

Lemma rel_any : forall s f, SInv s -> In f [f_row; f_col; f_box] ->
  exists u, (u = same_row \/ u = same_col \/ u = same_box w h) /\ unit_rel s u f.
Proof.
  intros s f S [<-|[<-|[<-|[]]]].
  - exists same_row; split; auto. apply rel_row.
  - exists same_col; split; auto. apply rel_col.
  - exists (same_box w h); split; auto. apply rel_box; auto.
Qed.

(** filters over candidates *)
Lemma si_filter : forall s (f : coord -> zset -> bool) l, SInv s ->
  (forall p, In p l -> cell w h p) ->
  filterM (fun rc => let* c := get_candidates s (fst rc) (snd rc) in Ok (f rc c)) l
  = Ok (filter (fun rc => f rc (cand s rc)) l).
Proof.
  intros s f l S H. apply filterM_ok. intros x Hx. rewrite si_get by auto. reflexivity.
Qed.

Lemma si_filter_except : forall s (f : coord -> zset -> bool) (cl l : list coord), SInv s ->
  (forall p, In p l -> cell w h p) ->
  filterM (fun rc => if list_in coord_eqb rc cl then Ok false
                     else let* c := get_candidates s (fst rc) (snd rc) in Ok (f rc c)) l
  = Ok (filter (fun rc => negb (list_in coord_eqb rc cl) && f rc (cand s rc)) l).
Proof.
  intros s f cl l S H. apply filterM_ok. intros x Hx.
  destruct (list_in coord_eqb x cl); simpl; auto. rewrite si_get by auto. reflexivity.
Qed.

Lemma si_fields_with : forall s v l, SInv s -> (forall p, In p l -> cell w h p) ->
  fields_with s v l = Ok (filter (fun rc => smem zcmp v (cand s rc)) l).
Proof. intros s v l S H. apply (si_filter s (fun _ c => smem zcmp v c)); auto. Qed.

Lemma si_fields_except : forall s v cl l, SInv s -> (forall p, In p l -> cell w h p) ->
  fields_with_except s v cl l =
  Ok (filter (fun rc => negb (list_in coord_eqb rc cl) && smem zcmp v (cand s rc)) l).
Proof. intros s v cl l S H. apply (si_filter_except s (fun _ c => smem zcmp v c)); auto. Qed.

(** * Generators of the sudoku itself *)
Lemma empty_safe : forall s, SInv s ->
  gsafe SInv (fun t p => cell w h p /\ num t p = 0) (fun t r => r = t /\ SInv t) (empty s) s.
Proof.
  intros s S. unfold empty.
  apply (gsafe_gfor SInv (A := coord) _ (fun acc t => acc = t /\ SInv t)); auto.
  intros p acc cur Hp [-> Hc]. apply (si_coords s) in Hp; auto.
  eapply gsafe_lift; [apply si_getitem; auto|].
  destruct (num cur p =? 0) eqn:E; b2p.
  - apply gsafe_yield; auto.
  - simpl; auto.
Qed.

Lemma diff_safe : forall s o, SInv s -> wf o -> box_width o = w -> box_height o = h ->
  gsafe SInv (fun t p => cell w h p /\ num t p <> num o p) (fun t r => r = t /\ SInv t) (diff s o) s.
Proof.
  intros s o S Wo Ew Eh. unfold diff.
  apply (gsafe_gfor SInv (A := coord) _ (fun acc t => acc = t /\ SInv t)); auto.
  intros p acc cur Hp [-> Hc]. apply (si_coords s) in Hp; auto.
  eapply gsafe_lift; [apply si_getitem; auto|].
  eapply gsafe_lift.
  { destruct p as [r c]; apply getitem_ok; auto. unfold field; rewrite Ew, Eh; auto. }
  replace (fst p, snd p) with p by (destruct p; auto).
  destruct (num cur p =? num o p) eqn:E; b2p; simpl.
  - auto.
  - auto.
Qed.

(** * Building good steps *)
Lemma removal_good : forall cls t (cl aff : list coord) (vals : list Z),
  is_removal cls -> aff <> [] -> vals <> [] ->
  (forall p, In p cl -> cell w h p) -> (forall p, In p aff -> cell w h p) ->
  (forall p, In p aff -> exists v, In v (cand t p) /\ In v vals) ->
  (forall g p v, F g -> In p aff -> In v vals -> g p <> v) ->
  step_good cls t (new_step cls cl aff vals).
Proof.
  intros cls t cl aff vals R Na Nv Hcl Haff He Hs.
  assert (Ne : forall {A} (cmp : A -> A -> comparison), good_cmp cmp -> forall l, l <> [] -> py_sorted cmp l <> []).
  { intros A cmp G l Nl E. apply Nl. pose proof (py_sorted_perm cmp l) as P.
    rewrite E in P. apply Permutation_nil in P; auto. }
  unfold step_good; simpl. splits; auto.
  - apply (Ne coord coord_cmp coord_cmp_good aff Na).
  - intros p Hp. apply (proj1 (in_py_sorted _ coord_cmp_good _ _)) in Hp; auto.
  - intros p Hp. apply (proj1 (in_py_sorted _ coord_cmp_good _ _)) in Hp; auto.
  - assert (X : py_sorted zcmp vals <> [] /\
       forall p, In p (py_sorted coord_cmp aff) -> exists v, In v (cand t p) /\ In v (py_sorted zcmp vals)).
    { split; [apply (Ne Z zcmp zcmp_good vals Nv)|].
      intros p Hp. apply (proj1 (in_py_sorted _ coord_cmp_good _ _)) in Hp.
      destruct (He p Hp) as [v [V1 V2]]. exists v; split; auto. apply (proj2 (in_py_sorted _ zcmp_good _ _)); auto. }
    unfold effective; simpl. destruct R as [[n ->]|[[n ->]|[n ->]]]; auto.
  - intros g Hg.
    assert (X : never_removes g (new_step cls cl aff vals)).
    { intros p v Hp Hv. simpl in *. apply (proj1 (in_py_sorted _ coord_cmp_good _ _)) in Hp.
      apply (proj1 (in_py_sorted _ zcmp_good _ _)) in Hv. apply Hs; auto. }
    unfold sound; simpl. destruct R as [[n ->]|[[n ->]|[n ->]]]; auto.
Qed.

Lemma hidden_good : forall n t (cl aff : list coord) (vals : list Z),
  aff <> [] ->
  (forall p, In p cl -> cell w h p) -> (forall p, In p aff -> cell w h p) ->
  (forall p, In p aff -> exists v, In v (cand t p) /\ ~ In v vals) ->
  (forall g p, F g -> In p aff -> In (g p) vals) ->
  step_good (HiddenTuple n) t (new_step (HiddenTuple n) cl aff vals).
Proof.
  intros n t cl aff vals Na Hcl Haff He Hs.
  unfold step_good; simpl. splits; auto.
  - intros E. apply Na. pose proof (py_sorted_perm coord_cmp aff) as P.
    rewrite E in P. apply Permutation_nil in P; auto.
  - intros p Hp. apply (proj1 (in_py_sorted _ coord_cmp_good _ _)) in Hp; auto.
  - intros p Hp. apply (proj1 (in_py_sorted _ coord_cmp_good _ _)) in Hp; auto.
  - unfold effective; simpl. intros p Hp. apply (proj1 (in_py_sorted _ coord_cmp_good _ _)) in Hp.
    destruct (He p Hp) as [v [V1 V2]]. exists v; split; auto. rewrite (in_py_sorted _ zcmp_good); auto.
  - intros g Hg p Hp. simpl in *. apply (proj1 (in_py_sorted _ coord_cmp_good _ _)) in Hp.
    apply (proj2 (in_py_sorted _ zcmp_good _ _)); auto.
Qed.

(** * The classes *)
Definition safe (cls : solver) (s : sudoku) (g : gen sudoku step sudoku) : Prop :=
  gsafe SInv (step_good cls) (fun t r => r = t /\ SInv t) g s.

(** The loops all have the same form. *)
Lemma safe_for : forall {B} cls (f : sudoku -> B -> gen sudoku step sudoku) l s, SInv s ->
  (forall x cur, In x l -> SInv cur -> safe cls cur (f cur x)) ->
  safe cls s (gfor f l s).
Proof.
  intros B cls f l s S H. unfold safe in *.
  apply (gsafe_gfor SInv (A := step) _ (fun acc t => acc = t /\ SInv t)); auto.
  intros x acc cur Hx [-> Hc]. auto.
Qed.

Lemma safe_lift : forall {B} cls (m : res B) b (f : B -> gen sudoku step sudoku) s,
  m = Ok b -> safe cls s (f b) -> safe cls s (gbind (lift m) f).
Proof. intros; eapply gsafe_lift; eauto. Qed.

Lemma safe_ret : forall cls s, SInv s -> safe cls s (Ret s).
Proof. intros; split; auto. Qed.

Lemma safe_yield : forall cls s st, step_good cls s st -> safe cls s (yield st).
Proof. intros; apply gsafe_yield; auto. Qed.

Lemma safe_fst : forall {T} cls s (g : gen sudoku step (sudoku * T)) (J : sudoku * T -> Prop),
  gsafe SInv (step_good cls) (fun t st => fst st = t /\ SInv t /\ J st) g s ->
  safe cls s (do* st := g in Ret (fst st)).
Proof.
  intros T cls s g J H. eapply gsafe_bind; [exact H|]. intros t r [E [H1 _]]; subst; simpl; auto.
Qed.

(** Naked singles. *)
Lemma naked_single_safe : forall s, SInv s -> safe NakedSingle s (naked_single_find s).
Proof.
  intros s S. unfold naked_single_find.
  apply safe_fst with (J := fun st => SInv (fst st)).
  apply (gsafe_gforgen SInv _ (fun t p => cell w h p /\ num t p = 0) (fun t r => r = t /\ SInv t)
           (fun st : sudoku * unit => SInv (fst st))) with (st := (s, tt)); auto; [apply empty_safe; auto|].
  intros [cur []] p HJ [Cp Ep]; cbn [fst] in *.
  eapply gsafe_lift; [apply si_get; auto|].
  destruct (cand cur p) as [|v [|]] eqn:Ec; [simpl; auto| |simpl; auto].
  eapply gsafe_bind; [apply gsafe_yield|intros t r [-> Ht]; simpl; auto].
  unfold step_good; simpl. splits; auto; try discriminate;
  try (intros q [<-|[]]; destruct p; auto).
  - exists p, v. destruct p; simpl in *; auto.
  - intros g Hg. exists p; simpl; split; [destruct p; auto|].
    pose proof (si_cand _ HJ g p Hg Cp) as X. rewrite Ec in X. destruct X as [->|[]]; auto.
Qed.

(** Hidden singles. *)
Lemma hidden_candidates_ok : forall s others, SInv s -> (forall p, In p others -> cell w h p) ->
  exists cs, hidden_candidates s others = Ok cs /\
  forall v, In v cs <-> 1 <= v <= w * h /\ forall p, In p others -> ~ In v (cand s p).
Proof.
  intros s others S H. unfold hidden_candidates.
  destruct (foldM_ind (fun (cs : list Z) ij => let* c := get_candidates s (fst ij) (snd ij) in Ok (sdiff zcmp cs c))
    (fun pre cs => forall v, In v cs <-> 1 <= v <= w * h /\ forall p, In p pre -> ~ In v (cand s p))
    others (sof_list zcmp (numbers s))) as [cs [E P]].
  - intros v. rewrite (In_sof_list _ zcmp_good), si_numbers by auto. simpl; tauto.
  - intros pre x post acc E P. exists (sdiff zcmp acc (cand s x)). split.
    + rewrite si_get; auto. apply H. rewrite E; apply in_app_iff; simpl; auto.
    + intros v. rewrite (In_sdiff _ zcmp_good), P. split.
      * intros [[H1 H2] H3]; split; auto. intros p Hp. apply in_app_iff in Hp.
        destruct Hp as [Hp|[<-|[]]]; auto.
      * intros [H1 H2]. split; [split; auto|]; [intros p Hp|]; apply H2; apply in_app_iff; simpl; auto.
  - exists cs; auto.
Qed.

Lemma hidden_single_sound : forall s f u p v others, SInv s -> unit_rel s u f -> cell w h p ->
  f s (fst p) (snd p) false = Ok others -> 1 <= v <= w * h ->
  (forall q, In q others -> ~ In v (cand s q)) ->
  forall g, F g -> g p = v.
Proof.
  intros s f u [r c] v others S U C E Hv Ho g Hg. cbn [fst snd] in E.
  destruct (si_unit s f u r c S U C) as [l [El [Ul Hl]]].
  destruct (unit_func_spec s f u r c false (si_wf _ S) U) as [l' [El' [_ Hl']]]; [apply si_field; auto|].
  assert (others = l') by congruence; subst l'.
  destruct (ul_all _ _ _ Ul g (FV g Hg) v Hv) as [q [Q1 Q2]].
  destruct (coord_eq_dec q (r, c)) as [->|N]; auto.
  exfalso. apply (Ho q).
  - apply Hl'. apply Hl in Q1. destruct Q1. rewrite si_field by auto. auto.
  - rewrite <- Q2. apply (si_cand _ S); auto. apply Hl in Q1; tauto.
Qed.

Lemma hidden_single_safe : forall o s, oracle_ok o -> SInv s -> safe HiddenSingle s (hidden_single_find o s).
Proof.
  intros o s [Ho _] S. unfold hidden_single_find.
  apply safe_fst with (J := fun st => SInv (fst st)).
  apply (gsafe_gforgen SInv _ (fun t p => cell w h p /\ num t p = 0) (fun t r => r = t /\ SInv t)
           (fun st : sudoku * list coord => SInv (fst st))) with (st := (s, [])); auto; [apply empty_safe; auto|].
  intros [cur y] p HJ [Cp Ep]; cbn [fst] in *.
  set (J2 := fun (st : sudoku * list coord * bool) t => fst (fst st) = t /\ SInv t /\
               (num t p = 0 \/ In p (snd (fst st)))).
  eapply gsafe_bind.
  - apply (gsafe_gfor SInv (A := step) _ J2); [|subst J2; simpl; auto].
    intros f [[s1 y1] found] t Hf [E1 [S1 D1]]; cbn [fst snd] in *; subst t.
    destruct found; [unfold J2; simpl; auto|].
    destruct (rel_any s1 f) as [u [_ Hu]]; auto; [simpl in *; tauto|].
    destruct (unit_func_spec s1 f u (fst p) (snd p) false (si_wf _ S1) Hu) as [others [Eo [_ Hl]]].
    { apply si_field; auto; destruct p; auto. }
    eapply gsafe_lift; [exact Eo|].
    destruct (hidden_candidates_ok s1 others S1) as [cs [Ec Hcs]].
    { intros q Hq; apply Hl in Hq. apply (si_field s1); tauto. }
    eapply gsafe_lift; [exact Ec|].
    apply (gsafe_gfor SInv (A := step) _ J2); [|unfold J2; simpl; auto].
    intros v [[s2 y2] fd] t Hv [E2 [S2 D2]]; cbn [fst snd] in *; subst t.
    destruct (list_in coord_eqb p y2) eqn:L; [unfold J2; simpl; auto|].
    apply list_in_coord_not in L.
    assert (Hv' : In v cs) by (eapply Permutation_in; [apply Ho|exact Hv]).
    apply Hcs in Hv'. destruct Hv' as [V1 V2].
    eapply gsafe_bind; [apply gsafe_yield|].
    + unfold step_good; simpl. splits; auto; try discriminate;
      try (intros q [<-|[]]; destruct p; auto).
      * exists p, v. destruct p; simpl in *. destruct D2; [auto 10|contradiction].
      * intros g Hg. exists p; simpl; split; [destruct p; auto|].
        f_equal. symmetry. eapply (hidden_single_sound s1); eauto.
    + intros t r [-> Ht]. unfold J2; simpl. splits; auto. right; apply in_app_iff; simpl; auto.
  - intros t [[s1 y1] found] [E1 [S1 _]]; cbn [fst snd] in *; subst; simpl; auto.
Qed.

(** Naked tuples. *)
Lemma units_with_empty_ok : forall s f u, SInv s -> unit_rel s u f ->
  exists cl, units_with_empty f s = Ok cl /\ forall l, In l cl -> unit_list w h l.
Proof.
  intros s f u S U. unfold units_with_empty.
  rewrite glist_empty by apply S. cbn [rbind].
  destruct (foldM_ind (fun clist rc => let* cs := f s (fst rc) (snd rc) true in
             Ok (if list_in coords_eqb cs clist then clist else clist ++ [cs]))
    (fun _ cl => forall l, In l cl -> unit_list w h l)
    (filter (fun p => num s p =? 0) (coords s)) []) as [cl [E P]].
  - intros l [].
  - intros pre x post acc E P.
    assert (Hx : cell w h x).
    { assert (X : In x (filter (fun p => num s p =? 0) (coords s))) by (rewrite E; apply in_app_iff; simpl; auto).
      apply filter_In in X. apply (si_coords s); tauto. }
    destruct x as [r c]. destruct (si_unit s f u r c S U Hx) as [l [El [Ul _]]].
    cbn [fst snd]. rewrite El. eexists; split; [reflexivity|].
    destruct (list_in coords_eqb l acc); auto.
    intros l' Hl'. apply in_app_iff in Hl'. destruct Hl' as [|[<-|[]]]; auto.
  - exists cl; auto.
Qed.

Lemma union_candidates_ok : forall s l, SInv s -> (forall p, In p l -> cell w h p) ->
  exists cs, union_candidates s l = Ok cs /\ zsset cs /\
  forall v, In v cs <-> exists p, In p l /\ In v (cand s p).
Proof.
  intros s l S H. unfold union_candidates.
  destruct (foldM_ind (fun (cs : list Z) rc => let* c := get_candidates s (fst rc) (snd rc) in Ok (sunion zcmp cs c))
    (fun pre cs => zsset cs /\ forall v, In v cs <-> exists p, In p pre /\ In v (cand s p)) l []) as [cs [E [P1 P2]]].
  - split; [constructor|]. intros v; split; [intros []|intros [p [[] _]]].
  - intros pre x post acc E [P1 P2]. exists (sunion zcmp acc (cand s x)). splits.
    + rewrite si_get; auto. apply H. rewrite E; apply in_app_iff; simpl; auto.
    + apply (sunion_sset _ zcmp_good); auto.
    + intros v. rewrite (In_sunion _ zcmp_good), P2. split.
      * intros [[p [H1 H2]]|H1]; [exists p|exists x]; split; auto; apply in_app_iff; simpl; auto.
      * intros [p [H1 H2]]. apply in_app_iff in H1. destruct H1 as [H1|[<-|[]]]; [left; exists p|]; auto.
  - exists cs; auto.
Qed.

Lemma naked_find_at_safe : forall n s l, SInv s -> unit_list w h l ->
  safe (NakedTuple n) s (naked_find_at n s l).
Proof.
  intros n s l S U. unfold naked_find_at.
  eapply safe_lift.
  { apply (si_filter s (fun _ c => (1 <? py_len c) && (py_len c <=? Z.of_nat n))); auto.
    apply (ul_cell _ _ _ U). }
  apply safe_for; auto.
  intros fields cur Hf Sc.
  pose proof (combinations_length _ _ _ Hf) as Lf.
  pose proof (combinations_incl _ _ _ Hf) as If.
  assert (Nf : NoDup fields) by (eapply combinations_nodup; [|exact Hf]; apply NoDup_filter, (ul_nodup _ _ _ U)).
  assert (If' : incl fields l).
  { intros p Hp. apply If in Hp. apply filter_In in Hp; tauto. }
  destruct (union_candidates_ok cur fields Sc) as [cs [Ec [Sn Hcs]]].
  { intros p Hp. apply (ul_cell _ _ _ U); auto. }
  eapply safe_lift; [exact Ec|].
  destruct (py_len cs <=? Z.of_nat n) eqn:El; [|apply safe_ret; auto]; b2p.
  eapply safe_lift.
  { apply (si_filter_except cur (fun _ c => negb (match sinter zcmp cs c with [] => true | _ => false end))); auto.
    apply (ul_cell _ _ _ U). }
  match goal with |- safe _ _ (match ?a with [] => _ | _ => _ end) => set (aff := a) end.
  assert (Haff : forall p, In p aff -> In p l /\ ~ In p fields /\ exists v, In v cs /\ In v (cand cur p)).
  { intros p Hp. apply filter_In in Hp. destruct Hp as [H1 H2]. b2p.
    apply list_in_coord_not in H. splits; auto.
    destruct (sinter zcmp cs (cand cur p)) as [|v t] eqn:Ei; [discriminate|].
    exists v. apply (In_sinter _ zcmp_good). rewrite Ei; left; auto. }
  destruct aff as [|a aff'] eqn:Ea; [apply safe_ret; auto|].
  apply safe_yield. rewrite <- Ea in *.
  apply removal_good.
  - left; exists n; auto.
  - congruence.
  - destruct (Haff a) as [_ [_ [v [V _]]]]; [rewrite Ea; left; auto|]. intros X; rewrite X in V; destruct V.
  - intros p Hp; apply (ul_cell _ _ _ U); auto.
  - intros p Hp; apply (ul_cell _ _ _ U); apply Haff; auto.
  - intros p Hp. destruct (Haff p Hp) as [_ [_ [v [V1 V2]]]]. exists v; auto.
  - intros g p v Hg Hp Hv. destruct (Haff p Hp) as [P1 [P2 _]].
    eapply naked_count with (l := l) (fields := fields) (vals := cs); eauto.
    + intros q Hq. apply Hcs. exists q; split; auto. apply (si_cand _ Sc); auto. apply (ul_cell _ _ _ U); auto.
    + unfold py_len in El. lia.
Qed.

Lemma naked_safe : forall n s, SInv s -> safe (NakedTuple n) s (naked_find n s).
Proof.
  intros n s S. unfold naked_find.
  apply safe_fst with (J := fun st => SInv (fst st)).
  set (J := fun (st : sudoku * list (list coord)) t => fst st = t /\ SInv t /\ SInv (fst st)).
  apply (gsafe_gfor SInv (A := step) _ J); [|subst J; simpl; auto].
  intros f [s1 y1] t Hf [E1 [S1 _]]; cbn [fst] in *; subst t.
  destruct (rel_any s1 f S1 Hf) as [u [_ Hu]].
  destruct (units_with_empty_ok s1 f u S1 Hu) as [cl [Ecl Hcl]].
  eapply gsafe_lift; [exact Ecl|].
  apply (gsafe_gfor SInv (A := step) _ J); [|unfold J; simpl; auto].
  intros l [s2 y2] t Hl [E2 [S2 _]]; cbn [fst] in *; subst t.
  apply (gsafe_gforgen SInv _ (step_good (NakedTuple n)) (fun t r => r = t /\ SInv t)
           (fun st : sudoku * list (list coord) => SInv (fst st))) with (st := (s2, y2)); auto.
  - apply naked_find_at_safe; auto.
  - intros [s3 y3] p HJ Hg; cbn [fst snd] in *.
    destruct (list_in coords_eqb (clues p) y3); [simpl; auto|].
    eapply gsafe_bind; [apply gsafe_yield; auto|]. intros t r [-> Ht]; simpl; auto.
Qed.

(** Hidden tuples. *)
Lemma cand_coords_ok : forall s l v, SInv s -> (forall p, In p l -> cell w h p) ->
  exists c, cand_coords s l v = Ok c /\ forall p, In p c <-> In p l /\ In v (cand s p).
Proof.
  intros s l v S H. unfold cand_coords.
  rewrite (si_filter s (fun _ c => smem zcmp v c)) by auto. cbn [rbind].
  eexists; split; [reflexivity|]. intros p.
  rewrite (In_sof_list _ coord_cmp_good), filter_In, (smem_In _ zcmp_good). reflexivity.
Qed.

Lemma fold_union : forall (entries : list (Z * list coord)) m p,
  In p (fold_left (fun m e => sunion coord_cmp m (snd e)) entries m) <->
  In p m \/ exists e, In e entries /\ In p (snd e).
Proof.
  induction entries as [|e l IH]; intros m p; simpl.
  - split; auto. intros [|[e [[] _]]]; auto.
  - rewrite IH, (In_sunion _ coord_cmp_good). split.
    + intros [[H|H]|[e' [H1 H2]]]; auto; right; [exists e|exists e']; auto.
    + intros [H|[e' [[<-|H1] H2]]]; auto. right; exists e'; auto.
Qed.

Lemma mapM_split : forall {A B} (f : A -> res B) l r, mapM f l = Ok r ->
  Forall2 (fun a b => f a = Ok b) l r.
Proof.
  intros A B f l; induction l as [|x l IH]; intros r H; simpl in H.
  - inv H; constructor.
  - destruct (f x) eqn:E; [|discriminate]. simpl in H.
    destruct (mapM f l) eqn:E2; [|discriminate]. simpl in H. inv H. constructor; auto.
Qed.

Lemma mapM_total : forall {A B} (f : A -> res B) (P : A -> B -> Prop) l,
  (forall x, In x l -> exists b, f x = Ok b /\ P x b) ->
  exists r, mapM f l = Ok r /\ Forall2 P l r.
Proof.
  intros A B f P l; induction l as [|x l IH]; intros H; simpl.
  - exists []; auto.
  - destruct (H x) as [b [E Hb]]; [left; auto|]. destruct IH as [r [E2 Hr]]; [intros; apply H; right; auto|].
    rewrite E, E2. exists (b :: r); split; auto.
Qed.

Lemma Forall2_in_r : forall {A B} (P : A -> B -> Prop) l r b, Forall2 P l r -> In b r -> exists a, In a l /\ P a b.
Proof.
  intros A B P l r b H; induction H; intros Hin; [destruct Hin|].
  destruct Hin as [<-|Hin]; [exists x; simpl; auto|]. destruct IHForall2 as [a [H1 H2]]; auto.
  exists a; simpl; auto.
Qed.

Lemma hidden_find_at_safe : forall n s l, SInv s -> unit_list w h l ->
  safe (HiddenTuple n) s (hidden_find_at n s l).
Proof.
  intros n s l S U. unfold hidden_find_at.
  destruct (mapM_total (fun v => let* c := cand_coords s l v in Ok (v, c))
    (fun v e => fst e = v /\ forall p, In p (snd e) <-> In p l /\ In v (cand s p)) (numbers s)) as [table [Et Ht]].
  { intros v _. destruct (cand_coords_ok s l v S (ul_cell _ _ _ U)) as [c [E Hc]].
    rewrite E. exists (v, c); auto. }
  eapply safe_lift; [exact Et|]. cbv zeta.
  assert (Hfst : map fst table = numbers s).
  { clear -Ht. induction Ht; simpl; [reflexivity|]. destruct H as [-> _]. congruence. }
  assert (Hent : forall e, In e table -> 1 <= fst e <= w * h /\
                   forall p, In p (snd e) <-> In p l /\ In (fst e) (cand s p)).
  { intros e He. destruct (Forall2_in_r _ _ _ _ Ht He) as [v [V1 [V2 V3]]].
    rewrite V2. split; auto. apply (si_numbers s); auto. }
  apply safe_for; auto.
  intros entries cur Hf Sc.
  pose proof (combinations_length _ _ _ Hf) as Lf.
  pose proof (combinations_incl _ _ _ Hf) as If.
  assert (If' : incl entries table) by (intros e He; apply If in He; apply filter_In in He; tauto).
  assert (Nd : NoDup (map fst entries)).
  { assert (Nt : NoDup (map fst table)).
    { rewrite Hfst, (si_numbers_eq s S). apply NoDup_py_range2. }
    assert (Ne : NoDup entries).
    { eapply combinations_nodup; [|exact Hf]. apply NoDup_filter. eapply NoDup_map_inv; eauto. }
    apply NoDup_map_inj; auto. intros x y Hx Hy E. apply If' in Hx; apply If' in Hy.
    clear -Nt Hx Hy E. induction table as [|e t IH]; [destruct Hx|]. inv Nt.
    destruct Hx as [<-|Hx], Hy as [<-|Hy]; auto.
    - exfalso; apply H1. rewrite E. apply in_map; auto.
    - exfalso; apply H1. rewrite <- E. apply in_map; auto. }
  set (ms := fold_left (fun m e => sunion coord_cmp m (snd e)) entries []).
  assert (Hms : forall p, In p ms <-> exists e, In e entries /\ In p (snd e)).
  { intros p. unfold ms. rewrite fold_union. simpl; tauto. }
  assert (Cms : forall p, In p ms -> In p l).
  { intros p Hp. apply Hms in Hp. destruct Hp as [e [H1 H2]]. apply If' in H1. apply Hent in H1.
    apply H1 in H2; tauto. }
  destruct (py_len ms <=? Z.of_nat n) eqn:El; [|apply safe_ret; auto]; b2p.
  apply safe_for; auto.
  intros x cur2 _ Sc2.
  eapply safe_lift.
  { apply (si_filter cur2 (fun _ c => negb (match sdiff zcmp c (sof_list zcmp (map fst entries)) with [] => true | _ => false end))); auto.
    intros p Hp; apply (ul_cell _ _ _ U); auto. }
  match goal with |- safe _ _ (match ?a with [] => _ | _ => _ end) => set (aff := a) end.
  assert (Haff : forall p, In p aff -> In p ms /\ exists v, In v (cand cur2 p) /\ ~ In v (map fst entries)).
  { intros p Hp. apply filter_In in Hp. destruct Hp as [H1 H2]. b2p. split; auto.
    destruct (sdiff zcmp (cand cur2 p) (sof_list zcmp (map fst entries))) as [|v t] eqn:Ei; [discriminate|].
    assert (X : In v (sdiff zcmp (cand cur2 p) (sof_list zcmp (map fst entries)))) by (rewrite Ei; left; auto).
    apply (In_sdiff _ zcmp_good) in X. rewrite (In_sof_list _ zcmp_good) in X. exists v; auto. }
  destruct aff as [|a aff'] eqn:Ea; [apply safe_ret; auto|].
  apply safe_yield. rewrite <- Ea in *.
  apply hidden_good.
  - congruence.
  - apply (ul_cell _ _ _ U).
  - intros p Hp; apply (ul_cell _ _ _ U); apply Cms; apply Haff; auto.
  - intros p Hp. apply Haff; auto.
  - intros g p Hg Hp. destruct (Haff p Hp) as [P1 _].
    eapply hidden_count with (l := l) (fields := ms); eauto.
    + intros v Hv. apply in_map_iff in Hv; destruct Hv as [e [<- He]]. apply If' in He. apply Hent in He.
      apply in_py_range2; lia.
    + intros q Hq Hin. apply in_map_iff in Hin; destruct Hin as [e [Ee He]].
      apply Hms. exists e; split; auto. apply Hent; auto. split; auto.
      rewrite Ee. apply (si_cand _ S); auto. apply (ul_cell _ _ _ U); auto.
    + rewrite map_length, Lf. unfold py_len in El. lia.
Qed.

Lemma hidden_safe : forall n s, SInv s -> safe (HiddenTuple n) s (hidden_find n s).
Proof.
  intros n s S. unfold hidden_find. apply safe_for; auto.
  intros f cur Hf Sc. destruct (rel_any cur f Sc Hf) as [u [_ Hu]].
  destruct (units_with_empty_ok cur f u Sc Hu) as [cl [Ecl Hcl]].
  eapply safe_lift; [exact Ecl|]. apply safe_for; auto.
  intros l cur2 Hl Sc2. apply hidden_find_at_safe; auto.
Qed.

(** Pointing tuples. *)
Lemma all_same_eq : forall l x y, all_same l = true -> In x l -> In y l -> x = y.
Proof.
  intros l x y H Hx Hy. unfold all_same, py_len in H; b2p.
  apply (proj2 (In_sof_list _ zcmp_good _ _)) in Hx. apply (proj2 (In_sof_list _ zcmp_good _ _)) in Hy.
  destruct (sof_list zcmp l) as [|a [|b t]]; simpl in H; try lia.
  destruct Hx as [<-|[]], Hy as [<-|[]]; auto.
Qed.

Lemma all_same_first : forall {A} (f : A -> Z) l, all_same (map f l) = true ->
  exists a, list_get l 0 = Ok a /\ In a l /\ forall x, In x l -> f x = f a.
Proof.
  intros A f l H. destruct l as [|a l]; [discriminate|].
  exists a. splits; [reflexivity|left; auto|].
  intros x Hx. eapply all_same_eq; eauto; apply in_map; simpl; auto.
Qed.

(** [aff] computed from a unit [cov] and the clues of a unit [l]. *)
Lemma pointing_good : forall n cur c l cov (cl : list coord), SInv cur ->
  unit_list w h l -> unit_list w h cov -> 1 <= c <= w * h ->
  cl = filter (fun rc => smem zcmp c (cand cur rc)) l -> incl cl cov ->
  let aff := filter (fun rc => negb (list_in coord_eqb rc cl) && smem zcmp c (cand cur rc)) cov in
  aff <> [] ->
  step_good (PointingTuple n) cur (new_step (PointingTuple n) cl aff [c]).
Proof.
  intros n cur c l cov cl S U1 U2 Hc Ecl Hi aff Ne.
  assert (Haff : forall p, In p aff -> In p cov /\ ~ In p cl /\ In c (cand cur p)).
  { intros p Hp. apply filter_In in Hp. destruct Hp as [H1 H2]. b2p.
    apply list_in_coord_not in H. apply (smem_In _ zcmp_good) in H0. auto. }
  apply removal_good; auto.
  - right; left; exists n; auto.
  - discriminate.
  - intros p Hp. apply (ul_cell _ _ _ U2); auto.
  - intros p Hp. apply (ul_cell _ _ _ U2); apply Haff; auto.
  - intros p Hp. exists c; split; [apply Haff; auto|left; auto].
  - intros g p v Hg Hp [<-|[]]. destruct (Haff p Hp) as [P1 [P2 _]].
    eapply pointing_count with (l := l) (clues := cl); eauto.
    + intros q Hq E. rewrite Ecl. apply filter_In; split; auto. apply (smem_In _ zcmp_good).
      rewrite <- E. apply (si_cand _ S); auto. apply (ul_cell _ _ _ U1); auto.
    + apply (ul_cell _ _ _ U2); auto.
    + intros q Hq N. apply (ul_peers _ _ _ U2); auto.
Qed.

Lemma box_at_same : forall s p q, SInv s -> cell w h p -> cell w h q ->
  box_at s (fst p) (snd p) = box_at s (fst q) (snd q) -> same_box w h p q.
Proof.
  intros s [r c] [r' c'] S Cp Cq E; cbn [fst snd] in E. rewrite !method_box_at in E.
  rewrite (si_w _ S), (si_h _ S) in E.
  destruct (box_at_range w h Hw Hh r c Cp) as [_ [D1 D2]].
  destruct (box_at_range w h Hw Hh r' c' Cq) as [_ [D3 D4]].
  rewrite E in D1, D2. unfold same_box; simpl. split; congruence.
Qed.

Lemma pointing_row_col_safe : forall n s x, SInv s -> 0 <= x < w * h ->
  safe (PointingTuple n) s (pointing_in_row_and_column n s x).
Proof.
  intros n s x S Hx. unfold pointing_in_row_and_column. apply safe_for; auto.
  intros f cur Hf Sc. assert (Cx : cell w h (x, x)) by (split; simpl; auto).
  destruct (rel_any cur f Sc) as [u [_ Hu]]; [simpl in *; tauto|].
  destruct (si_unit cur f u x x Sc Hu Cx) as [l [El [Ul Hl]]].
  eapply safe_lift; [exact El|]. apply safe_for; auto.
  intros c cur2 Hc Sc2.
  apply (si_numbers cur) in Hc; auto.
  eapply safe_lift; [apply si_fields_with; auto; apply (ul_cell _ _ _ Ul)|].
  set (cl := filter (fun rc => smem zcmp c (cand cur2 rc)) l).
  destruct (negb (py_len cl =? Z.of_nat n)); [apply safe_ret; auto|].
  destruct (all_same (map (fun rc => box_at cur2 (fst rc) (snd rc)) cl)) eqn:Es; [|apply safe_ret; auto].
  destruct (all_same_first _ _ Es) as [[r0 c0] [E0 [I0 A0]]].
  assert (Ccl : forall p, In p cl -> cell w h p).
  { intros p Hp. apply filter_In in Hp. apply (ul_cell _ _ _ Ul); tauto. }
  eapply safe_lift; [exact E0|]. cbn [fst snd].
  destruct (si_unit cur2 f_box (same_box w h) r0 c0 Sc2 (rel_box _ Sc2) (Ccl _ I0)) as [cov [Ec [Uc Hcov]]].
  eapply safe_lift; [exact Ec|].
  eapply safe_lift; [apply si_fields_except; auto; apply (ul_cell _ _ _ Uc)|].
  match goal with |- safe _ _ (match ?a with [] => _ | _ => _ end) => set (aff := a) end.
  destruct aff as [|a aff'] eqn:Ea; [apply safe_ret; auto|].
  apply safe_yield. rewrite <- Ea.
  eapply pointing_good with (l := l); eauto.
  - intros p Hp. apply Hcov; split; auto. apply (box_at_same cur2); auto.
  - unfold aff in Ea. rewrite Ea. discriminate.
Qed.

Lemma pointing_box_safe : forall n s b, SInv s -> 0 <= b < w * h ->
  safe (PointingTuple n) s (pointing_in_box n s b).
Proof.
  intros n s b S Hb. unfold pointing_in_box. cbv zeta.
  rewrite (si_w _ S), (si_h _ S).
  pose proof (box_pos w h Hh b Hb) as [B1 [B2 B3]].
  assert (Cb : cell w h (b / h * h, b mod h * w)) by (split; simpl; nia).
  destruct (si_unit s f_box (same_box w h) _ _ S (rel_box _ S) Cb) as [l [El [Ul Hl]]].
  eapply safe_lift; [exact El|]. apply safe_for; auto.
  intros c cur Hc Sc. apply (si_numbers s) in Hc; auto.
  eapply safe_lift; [apply si_fields_with; auto; apply (ul_cell _ _ _ Ul)|].
  set (cl := filter (fun rc => smem zcmp c (cand cur rc)) l).
  destruct (negb (py_len cl =? Z.of_nat n)); [apply safe_ret; auto|].
  assert (Ccl : forall p, In p cl -> cell w h p).
  { intros p Hp. apply filter_In in Hp. apply (ul_cell _ _ _ Ul); tauto. }
  destruct (all_same (map fst cl)) eqn:E1.
  - destruct (all_same_first _ _ E1) as [[r0 c0] [E0 [I0 A0]]].
    destruct (si_unit cur f_row same_row r0 c0 Sc (rel_row _) (Ccl _ I0)) as [cov [Ec [Uc Hcov]]].
    injection Ec as Ec.
    eapply safe_lift.
    { match goal with |- rbind ?m _ = _ => replace m with (@Ok coord (r0, c0)) by (symmetry; exact E0) end. cbn [rbind fst snd]. rewrite Ec. apply si_fields_except; auto; apply (ul_cell _ _ _ Uc). }
    match goal with |- safe _ _ (match ?a with [] => _ | _ => _ end) => set (aff := a) end.
    destruct aff as [|a aff'] eqn:Ea; [apply safe_ret; auto|].
    apply safe_yield. rewrite <- Ea.
    eapply pointing_good with (l := l); eauto.
    + intros p Hp. apply Hcov; split; auto. apply A0; auto.
    + unfold aff in Ea. rewrite Ea. discriminate.
  - destruct (all_same (map snd cl)) eqn:E2.
    + destruct (all_same_first _ _ E2) as [[r0 c0] [E0 [I0 A0]]].
      destruct (si_unit cur f_col same_col r0 c0 Sc (rel_col _) (Ccl _ I0)) as [cov [Ec [Uc Hcov]]].
      injection Ec as Ec.
      eapply safe_lift.
      { match goal with |- rbind ?m _ = _ => replace m with (@Ok coord (r0, c0)) by (symmetry; exact E0) end. cbn [rbind fst snd]. rewrite Ec. apply si_fields_except; auto; apply (ul_cell _ _ _ Uc). }
      match goal with |- safe _ _ (match ?a with [] => _ | _ => _ end) => set (aff := a) end.
      destruct aff as [|a aff'] eqn:Ea; [apply safe_ret; auto|].
      apply safe_yield. rewrite <- Ea.
      eapply pointing_good with (l := l); eauto.
      * intros p Hp. apply Hcov; split; auto. apply A0; auto.
      * unfold aff in Ea. rewrite Ea. discriminate.
    + simpl. apply safe_ret; auto.
Qed.

Lemma pointing_safe : forall n s, SInv s -> safe (PointingTuple n) s (pointing_find n s).
Proof.
  intros n s S. unfold pointing_find. eapply gsafe_bind.
  - apply safe_for with (l := indices s) (f := fun s box => pointing_in_box n s box); auto.
    intros x cur Hx Sc. apply pointing_box_safe; auto.
    rewrite (si_indices s) in Hx by auto. apply in_py_range in Hx; auto.
  - intros t r [-> Ht]. apply safe_for; auto.
    intros x cur Hx Sc. apply pointing_row_col_safe; auto.
    rewrite (si_indices t) in Hx by auto. apply in_py_range in Hx; auto.
Qed.

(** Fish. *)
Lemma zeqb_eq : forall a b : Z, Z.eqb a b = true <-> a = b.
Proof. exact Z.eqb_eq. Qed.

Lemma count_others_keys : forall other (base : list coord) d v,
  In v (dkeys (fold_left (fun d rc => dset Z.eqb d (other rc) (dget_default Z.eqb d (other rc) 0 + 1)) base d)) <->
  In v (dkeys d) \/ exists p, In p base /\ other p = v.
Proof.
  intros other base; induction base as [|x l IH]; intros d v; simpl.
  - split; auto. intros [|[p [[] _]]]; auto.
  - rewrite IH, (dset_keys _ zeqb_eq). split.
    + intros [[->|H]|[p [H1 H2]]]; auto; right; [exists x|exists p]; auto.
    + intros [H|[p [[<-|H1] H2]]]; auto. right; exists p; auto.
Qed.

Lemma in_concat_map : forall {A B} (f : A -> list B) l x,
  In x (concat (map f l)) <-> exists a, In a l /\ In x (f a).
Proof.
  intros A B f l x. rewrite in_concat. split.
  - intros [y [H1 H2]]. apply in_map_iff in H1. destruct H1 as [a [<- H1]]. exists a; auto.
  - intros [a [H1 H2]]. exists (f a); split; auto. apply in_map; auto.
Qed.

Lemma fish_for_candidate_safe : forall n s c other line bf cf ub uc, SInv s -> n <> O ->
  1 <= c <= w * h ->
  (forall t, SInv t -> unit_rel t ub bf) -> (forall t, SInv t -> unit_rel t uc cf) ->
  (forall i p, ub p (i, i) <-> line p = i) -> (forall i p, uc p (i, i) <-> other p = i) ->
  (forall p, cell w h p -> 0 <= other p < w * h) ->
  (forall p q, cell w h p -> cell w h q -> p <> q -> other p = other q -> peers w h p q) ->
  safe (BasicFish n) s (fish_for_candidate n s c other bf cf).
Proof.
  intros n s c other line bf cf ub uc S Nn Hc Hbf Hcf Hub Huc Hor Hop.
  unfold fish_for_candidate.
  destruct (mapM_total (fun i => let* cs := bf s i i true in let* l := fields_with s c cs in Ok (i, l))
    (fun i e => fst e = i /\ 0 <= i < w * h /\
       forall p, In p (snd e) <-> cell w h p /\ line p = i /\ In c (cand s p)) (indices s)) as [fields [Ef Hf]].
  { intros i Hi. rewrite (si_indices s) in Hi by auto. apply in_py_range in Hi.
    assert (Ci : cell w h (i, i)) by (split; simpl; auto).
    destruct (si_unit s bf ub i i S (Hbf s S) Ci) as [l [El [Ul Hl]]].
    rewrite El. cbn [rbind]. rewrite si_fields_with by (auto; apply (ul_cell _ _ _ Ul)). cbn [rbind].
    eexists; split; [reflexivity|]. simpl. splits; try lia; auto.
    intros p. rewrite filter_In, (smem_In _ zcmp_good), Hl, Hub. tauto. }
  eapply safe_lift; [exact Ef|]. cbv zeta.
  assert (Hfst : map fst fields = indices s).
  { clear -Hf. induction Hf; simpl; [reflexivity|]. destruct H as [-> _]. congruence. }
  assert (Hent : forall e, In e fields -> 0 <= fst e < w * h /\
                   forall p, In p (snd e) <-> cell w h p /\ line p = fst e /\ In c (cand s p)).
  { intros e He. destruct (Forall2_in_r _ _ _ _ Hf He) as [v [V1 [V2 V3]]]. rewrite V2. auto. }
  apply safe_for; auto.
  intros entries cur Hin Sc.
  pose proof (combinations_length _ _ _ Hin) as Lf.
  pose proof (combinations_incl _ _ _ Hin) as If.
  assert (If' : incl entries fields) by (intros e He; apply If in He; apply filter_In in He; tauto).
  assert (Nd : NoDup (map fst entries)).
  { assert (Nt : NoDup (map fst fields)).
    { rewrite Hfst, (si_indices s S). apply NoDup_py_range. }
    assert (Ne : NoDup entries).
    { eapply combinations_nodup; [|exact Hin]. apply NoDup_filter. eapply NoDup_map_inv; eauto. }
    apply NoDup_map_inj; auto. intros x y Hx Hy E. apply If' in Hx; apply If' in Hy.
    clear -Nt Hx Hy E. induction fields as [|e t IH]; [destruct Hx|]. inv Nt.
    destruct Hx as [<-|Hx], Hy as [<-|Hy]; auto.
    - exfalso; apply H1. rewrite E. apply in_map; auto.
    - exfalso; apply H1. rewrite <- E. apply in_map; auto. }
  set (base := concat (map snd entries)).
  assert (Hbase : forall p, In p base <-> exists e, In e entries /\ In p (snd e)).
  { intros p. unfold base. apply in_concat_map. }
  assert (Cbase : forall p, In p base -> cell w h p).
  { intros p Hp. apply Hbase in Hp. destruct Hp as [e [H1 H2]]. apply If' in H1. apply Hent in H1.
    apply H1 in H2; tauto. }
  set (oc := count_others other base).
  assert (Hkeys : forall v, In v (dkeys oc) <-> exists p, In p base /\ other p = v).
  { intros v. unfold oc, count_others. rewrite count_others_keys. simpl; tauto. }
  assert (Nb : base <> []).
  { destruct entries as [|e es]; [simpl in Lf; congruence|].
    assert (X : In e (e :: es)) by (left; auto). apply If in X. apply filter_In in X.
    destruct X as [_ X]; b2p. unfold py_len in *.
    unfold base; simpl. destruct (snd e); simpl in *; [lia|discriminate]. }
  assert (Em : exists m, py_min (dvalues oc) = Ok m).
  { unfold py_min. destruct (dvalues oc) as [|m t] eqn:E; [|eauto].
    exfalso. destruct base as [|p b0] eqn:Eb; [congruence|].
    assert (X : In (other p) (dkeys oc)) by (apply Hkeys; exists p; simpl; auto).
    unfold dkeys in X. unfold dvalues in E. destruct oc; [destruct X|discriminate]. }
  destruct Em as [m Em]. eapply safe_lift; [exact Em|].
  destruct (m <? 2); [apply safe_ret; auto|].
  destruct (Z.of_nat n <? py_len oc) eqn:El; [apply safe_ret; auto|]; b2p.
  destruct (mapM_total (fun v => cf cur v v true)
    (fun v l => forall p, In p l <-> cell w h p /\ other p = v) (dkeys oc)) as [covered [Ecv Hcv]].
  { intros v Hv. apply Hkeys in Hv. destruct Hv as [q [Q1 <-]].
    assert (Cv : cell w h (other q, other q)) by (split; simpl; apply Hor; auto).
    destruct (si_unit cur cf uc _ _ Sc (Hcf cur Sc) Cv) as [l [El' [_ Hl]]].
    exists l; split; auto. intros p. rewrite Hl, Huc. tauto. }
  eapply safe_lift; [exact Ecv|].
  assert (Hcov : forall p, In p (concat covered) -> cell w h p /\ In (other p) (dkeys oc)).
  { intros p Hp. apply in_concat in Hp. destruct Hp as [l [H1 H2]].
    destruct (Forall2_in_r _ _ _ _ Hcv H1) as [v [V1 V2]]. apply V2 in H2. destruct H2 as [H2 ->]. auto. }
  eapply safe_lift; [apply si_fields_except; auto; intros p Hp; apply Hcov; auto|].
  match goal with |- safe _ _ (match ?a with [] => _ | _ => _ end) => set (aff := a) end.
  assert (Haff : forall p, In p aff -> In p (concat covered) /\ ~ In p base /\ In c (cand cur p)).
  { intros p Hp. apply filter_In in Hp. destruct Hp as [H1 H2]. b2p.
    apply list_in_coord_not in H. apply (smem_In _ zcmp_good) in H0. auto. }
  destruct aff as [|a aff'] eqn:Ea; [apply safe_ret; auto|].
  apply safe_yield. rewrite <- Ea in *.
  apply removal_good; auto.
  - right; right; exists n; auto.
  - congruence.
  - discriminate.
  - intros p Hp. apply Hcov; apply Haff; auto.
  - intros p Hp. exists c; split; [apply Haff; auto|left; auto].
  - intros g p v Hg Hp [<-|[]]. destruct (Haff p Hp) as [P1 [P2 _]]. apply Hcov in P1.
    eapply fish_count with (w := w) (h := h) (line := line) (other := other) (lines := map fst entries)
      (keys := dkeys oc) (base := base); eauto; try tauto.
    + intros i Hi. apply in_map_iff in Hi; destruct Hi as [e [<- He]].
      pose proof (If' e He) as He'. destruct (Hent e He') as [B1 B2].
      assert (Ci : cell w h (fst e, fst e)) by (split; simpl; auto).
      destruct (si_unit s bf ub _ _ S (Hbf s S) Ci) as [l [_ [Ul Hl]]].
      destruct (ul_all _ _ _ Ul g (FV g Hg) c Hc) as [q [Q1 Q2]]. apply Hl in Q1. destruct Q1 as [Q1 Q3].
      exists q. splits; auto.
      * apply Hbase. exists e; split; auto. apply B2. splits; auto.
        -- apply Hub; auto.
        -- rewrite <- Q2. apply (si_cand _ S); auto.
      * apply Hub; auto.
    + intros q Hq. apply Hkeys. exists q; auto.
    + rewrite map_length, Lf. unfold dkeys. rewrite map_length. unfold py_len in El. lia.
Qed.

Lemma fish_safe : forall n s, SInv s -> n <> O -> safe (BasicFish n) s (fish_find n s).
Proof.
  intros n s S Nn. unfold fish_find. apply safe_for; auto.
  intros [[other bf] cf] cur Hi Sc. cbv beta iota. apply safe_for; auto.
  intros c cur2 Hc Sc2. apply (si_numbers cur) in Hc; auto.
  destruct Hi as [E|[E|[]]]; inv E.
  - eapply fish_for_candidate_safe with (line := fst) (ub := same_row) (uc := same_col); auto.
    + intros; apply rel_row.
    + intros; apply rel_col.
    + intros i p; unfold same_row; simpl; tauto.
    + intros i p; unfold same_col; simpl; tauto.
    + intros p [_ H]; auto.
    + intros p q _ _ N E. split; auto.
  - eapply fish_for_candidate_safe with (line := snd) (ub := same_col) (uc := same_row); auto.
    + intros; apply rel_col.
    + intros; apply rel_row.
    + intros i p; unfold same_col; simpl; tauto.
    + intros i p; unfold same_row; simpl; tauto.
    + intros p [H _]; auto.
    + intros p q _ _ N E. split; auto.
Qed.

(** CalculateCandidates needs no candidates. *)
Lemma calculate_safe : forall s, SInv s -> safe CalculateCandidates s (calculate_find s).
Proof.
  intros s S. unfold calculate_find. apply safe_for; auto.
  intros p cur Hp Sc. apply (si_coords s) in Hp; auto.
  eapply safe_lift; [apply si_get; auto|].
  destruct (cand cur p) as [|v t] eqn:E; [|apply safe_ret; auto].
  eapply safe_lift.
  { destruct p as [r c]; apply calc_candidates_ok; [apply Sc|apply si_field; auto]. }
  apply safe_yield.
  unfold step_good; simpl. splits; auto; try discriminate;
  try (intros q [<-|[]]; destruct p; auto).
  - exists p. destruct p; auto.
  - intros g Hg. exfalso. pose proof (si_cand _ Sc g p Hg Hp) as X. rewrite E in X; destruct X.
Qed.

Lemma find_safe : forall o cls s, oracle_ok o -> SInv s -> cls <> Bruteforce -> cls <> BasicFish 0 ->
  safe cls s (MSolvers.find o cls s).
Proof.
  intros o cls s O S N1 N2. destruct cls; simpl.
  - apply calculate_safe; auto.
  - apply naked_single_safe; auto.
  - apply hidden_single_safe; auto.
  - apply naked_safe; auto.
  - apply hidden_safe; auto.
  - apply pointing_safe; auto.
  - apply fish_safe; auto; congruence.
  - congruence.
Qed.

(** Bruteforce: the steps lead to [sol], a solution of the sudoku at the start. *)
Lemma bruteforce_cases : forall o s, oracle_ok o -> wf s ->
  ((forall f, ~ solution s f) /\ bruteforce_find o s = Ret s) \/
  (exists sol, wf sol /\ box_size sol = box_size s /\ solution s (num sol) /\
     bruteforce_find o s =
      do* st := gforgen (fun st rc =>
                   do* v := lift (getitem sol (fst rc) (snd rc)) in
                   do* s := yield (single_step Bruteforce (fst rc) (snd rc) v) in
                   Ret (s, tt))
                (diff s sol) (s, tt) in
      Ret (fst st)).
Proof.
  intros o s [_ Ho] W. unfold bruteforce_find.
  destruct (C23_proof (o_dlx o s) s (Ho s) W) as [R [E1 [E2 _]]].
  pose proof (gnext_spec (dlx (o_dlx o s) s)) as G.
  destruct (gyields (dlx (o_dlx o s) s) tt) as [|y ys] eqn:Ey.
  - left. rewrite G, R. split; auto. intros f Hf. destruct (E2 f Hf) as [y [[] _]].
  - right. destruct G as [g' [G _]]. rewrite G. exists y.
    destruct (E1 y (or_introl eq_refl)) as [W1 [B1 S1]]. auto.
Qed.

Lemma bruteforce_safe : forall s sol, SInv s -> wf sol -> box_width sol = w -> box_height sol = h ->
  (forall g p, F g -> cell w h p -> g p = num sol p) ->
  safe Bruteforce s
     (do* st := gforgen (fun st rc =>
                   do* v := lift (getitem sol (fst rc) (snd rc)) in
                   do* s := yield (single_step Bruteforce (fst rc) (snd rc) v) in
                   Ret (s, tt))
                (diff s sol) (s, tt) in
      Ret (fst st)).
Proof.
  intros s sol S Ws Ew Eh HF.
  apply safe_fst with (J := fun st => SInv (fst st)).
  apply (gsafe_gforgen SInv _ (fun t p => cell w h p /\ num t p <> num sol p) (fun t r => r = t /\ SInv t)
           (fun st : sudoku * unit => SInv (fst st))) with (st := (s, tt)); auto; [apply diff_safe; auto|].
  intros [cur []] p HJ [Cp Ep]; cbn [fst] in *.
  eapply gsafe_lift.
  { destruct p as [r c]; apply getitem_ok; auto. unfold field; rewrite Ew, Eh; auto. }
  replace (fst p, snd p) with p by (destruct p; auto).
  eapply gsafe_bind; [apply gsafe_yield|intros t r [-> Ht]; simpl; auto].
  unfold step_good; simpl. splits; auto; try discriminate;
  try (intros q [<-|[]]; destruct p; auto).
  - exists p, (num sol p). destruct p; simpl in *; auto.
  - intros g Hg. exists p; simpl; split; [destruct p; auto|]. f_equal. symmetry; auto.
Qed.
End Find.
