(** apply, drive and the effect of steps. *)
From Verif Require Export LSolvers2.

Local Opaque MSudoku.surrounding_of.

Lemma coord_eqb_neq : forall p q, p <> q -> coord_eqb p q = false.
Proof. intros p q N. destruct (coord_eqb p q) eqn:E; auto. apply coord_eqb_eq in E; contradiction. Qed.

(** * What a step does *)

(** A step that can be applied to sudokus with these dimensions. *)
Definition shaped (w h : Z) (st : step) : Prop :=
  (forall p, In p (affected st) -> cell w h p) /\
  match st_class st with
  | CalculateCandidates => exists p, clues st = [p] /\ affected st = [p]
  | NakedSingle | HiddenSingle | Bruteforce => exists p v, affected st = [p] /\ values st = [v]
  | PointingTuple _ => values st <> []
  | _ => True
  end.

Definition effect (w h : Z) (st : step) (s s' : sudoku) : Prop :=
  wf s' /\ box_width s' = w /\ box_height s' = h /\
  match st_class st with
  | CalculateCandidates =>
      (forall q, cell w h q -> num s' q = num s q) /\
      (forall q x, cell w h q ->
         (In x (cand s' q) <-> if existsb (coord_eqb q) (affected st) then In x (values st)
                               else In x (cand s q)))
  | NakedSingle | HiddenSingle | Bruteforce =>
      exists p v, affected st = [p] /\ values st = [v] /\
      (forall q, cell w h q -> num s' q = if coord_eqb q p then v else num s q) /\
      (forall x, In x (cand s' p) <-> x = v) /\
      (forall q x, cell w h q -> q <> p ->
         (In x (cand s' q) <-> In x (cand s q) /\ ~ (peers w h p q /\ x = v)))
  | HiddenTuple _ =>
      (forall q, cell w h q -> num s' q = num s q) /\
      (forall q x, cell w h q ->
         (In x (cand s' q) <-> In x (cand s q) /\ (In q (affected st) -> In x (values st))))
  | _ =>
      (forall q, cell w h q -> num s' q = num s q) /\
      (forall q x, cell w h q ->
         (In x (cand s' q) <-> In x (cand s q) /\ ~ (In q (affected st) /\ In x (values st))))
  end.

Section Apply.
Variables w h : Z.

Definition ok_sudoku (s : sudoku) : Prop := wf s /\ box_width s = w /\ box_height s = h.

Lemma ok_intro : forall s, wf s -> box_width s = w -> box_height s = h -> ok_sudoku s.
Proof. intros; unfold ok_sudoku; auto. Qed.

Lemma ok_field : forall s p, ok_sudoku s -> (field s p <-> cell w h p).
Proof. intros s p [W [<- <-]]. reflexivity. Qed.

Lemma removes_ok : forall (R : coord -> list Z) (l : list coord) s, ok_sudoku s ->
  (forall p, In p l -> cell w h p) ->
  exists s', foldM do_action (map (fun p => RemoveCandidates (fst p) (snd p) (R p)) l) s = Ok s' /\
  ok_sudoku s' /\ (forall q, num s' q = num s q) /\
  (forall q x, cell w h q -> (In x (cand s' q) <-> In x (cand s q) /\ ~ (In q l /\ In x (R q)))).
Proof.
  intros R l; induction l as [|p l IH]; intros s O H; cbn [map foldM].
  - exists s. splits; auto. intros; simpl; tauto.
  - destruct O as [W [Ew Eh]].
    assert (Fp : field s p) by (unfold field; rewrite Ew, Eh; apply H; left; auto).
    cbn [do_action]. destruct p as [r c]; cbn [fst snd].
    rewrite remove_candidates_ok by auto. cbn [rbind].
    set (s1 := pcset s (r, c) (sdiff zcmp (cand s (r, c)) (sof_list zcmp (R (r, c))))).
    assert (Z1 : zsset (sdiff zcmp (cand s (r, c)) (sof_list zcmp (R (r, c))))).
    { apply sdiff_zsset. apply cand_sset; auto. }
    destruct (IH s1) as [s' [E [O' [H1 H2]]]].
    + unfold s1. apply ok_intro; auto. apply pcset_wf; auto.
    + intros; apply H; right; auto.
    + exists s'. splits; auto; try apply O'.
      intros q x Cq. rewrite H2 by auto. unfold s1.
      assert (Fq : field s q) by (unfold field; rewrite Ew, Eh; auto).
      rewrite cand_pcset by auto. destruct (coord_eqb q (r, c)) eqn:Eq.
      * apply coord_eqb_eq in Eq; subst q.
        rewrite (In_sdiff _ zcmp_good), (In_sof_list _ zcmp_good). simpl. intuition.
      * simpl. split; intros [K1 K2]; (split; [exact K1|]).
        -- intros [[K3|K3] K4]; [|auto]. subst q; rewrite coord_eqb_refl in Eq; discriminate.
        -- intros [K3 K4]; auto.
Qed.

Lemma build_single_ok : forall st s p v, ok_sudoku s -> cell w h p ->
  affected st = [p] -> values st = [v] ->
  exists l : list coord,
   build_single st s = Ok (SetNumber (fst p) (snd p) v :: SetCandidates (fst p) (snd p) [v]
                           :: map (fun q => RemoveCandidates (fst q) (snd q) [v]) l) /\
   forall q, In q l <-> cell w h q /\ peers w h p q /\ In v (cand s q).
Proof.
  intros st s [r c] v [W [Ew Eh]] C Ea Ev. unfold build_single.
  assert (Fp : field s (r, c)) by (unfold field; rewrite Ew, Eh; auto).
  rewrite Ea, Ev. cbn [list_get]. unfold list_get. cbn -[MSudoku.surrounding_of].
  rewrite surrounding_ok by auto. cbn [rbind].
  pose proof (fun q => in_sur s (r, c) q W Fp) as Hs. set (sur := sur s (r, c)) in *.
  assert (Cs : forall q, In q sur <-> cell w h q /\ peers w h (r, c) q).
  { intros q. rewrite Hs. unfold field; rewrite Ew, Eh. reflexivity. }
  exists (filter (fun q => smem zcmp v (cand s q)) sur). split.
  - assert (G : forall l a, (forall q, In q l -> cell w h q) ->
      foldM (fun acts ij => let* c := get_candidates s (fst ij) (snd ij) in
           Ok (if smem zcmp v c then acts ++ [RemoveCandidates (fst ij) (snd ij) [v]] else acts)) l a
      = Ok (a ++ map (fun q => RemoveCandidates (fst q) (snd q) [v]) (filter (fun q => smem zcmp v (cand s q)) l))).
    { intros l; induction l as [|q l IH]; intros a Hl; cbn [foldM filter map].
      - rewrite app_nil_r; auto.
      - destruct q as [i j]; cbn [fst snd]. rewrite get_candidates_ok; auto.
        2:{ unfold field; rewrite Ew, Eh; apply Hl; left; auto. }
        cbn [rbind]. rewrite IH by (intros; apply Hl; right; auto).
        destruct (smem zcmp v (cand s (i, j))); auto. rewrite <- app_assoc. reflexivity. }
    rewrite G; [reflexivity|]. intros q Hq; apply Cs; auto.
  - intros q. rewrite filter_In, (smem_In _ zcmp_good), Cs. tauto.
Qed.

Lemma mapM_get : forall s (f : coord -> zset -> action) (l : list coord), ok_sudoku s ->
  (forall p, In p l -> cell w h p) ->
  mapM (fun ij => let* c := get_candidates s (fst ij) (snd ij) in Ok (f ij c)) l
  = Ok (map (fun q => f q (cand s q)) l).
Proof.
  intros s f l [W [Ew Eh]]; induction l as [|[r c] l IH]; intros H; cbn [mapM map]; auto.
  cbn [fst snd]. rewrite get_candidates_ok; auto.
  2:{ unfold field; rewrite Ew, Eh; apply H; left; auto. }
  cbn [rbind]. rewrite IH by (intros; apply H; right; auto). reflexivity.
Qed.

Lemma apply_ok : forall st s, ok_sudoku s -> shaped w h st -> actions st = [] ->
  exists st' s', apply st s = Ok (st', s') /\
    st_class st' = st_class st /\ clues st' = clues st /\ affected st' = affected st /\
    values st' = values st /\ foldM do_action (actions st') s = Ok s' /\ effect w h st' s s'.
Proof.
  intros st s O [Sa Sc] Ac.
  assert (G : exists acts s', build_actions st s = Ok acts /\ foldM do_action acts s = Ok s' /\
            forall acts, effect w h {| st_class := st_class st; clues := clues st;
                           affected := affected st; values := values st; actions := acts |} s s').
  2:{ destruct G as [acts [s' [G1 [G2 G3]]]].
      unfold apply. rewrite Ac, G1. cbn [rbind]. rewrite G2. cbn [rbind].
      do 2 eexists. split; [reflexivity|]. cbn [st_class clues affected values actions]. splits; auto. }
  assert (Rem : forall R, exists s',
     foldM do_action (map (fun q => RemoveCandidates (fst q) (snd q) (R q)) (affected st)) s = Ok s' /\
     ok_sudoku s' /\ (forall q, num s' q = num s q) /\
     (forall q x, cell w h q ->
         (In x (cand s' q) <-> In x (cand s q) /\ ~ (In q (affected st) /\ In x (R q))))).
  { intros R. destruct (removes_ok R (affected st) s O Sa) as [s' H]. exists s'; auto. }
  assert (Single : forall p v, affected st = [p] -> values st = [v] ->
     exists acts s', build_single st s = Ok acts /\ foldM do_action acts s = Ok s' /\ ok_sudoku s' /\
      exists p v, affected st = [p] /\ values st = [v] /\
      (forall q, cell w h q -> num s' q = if coord_eqb q p then v else num s q) /\
      (forall x, In x (cand s' p) <-> x = v) /\
      (forall q x, cell w h q -> q <> p ->
         (In x (cand s' q) <-> In x (cand s q) /\ ~ (peers w h p q /\ x = v)))).
  { intros p v Ea Ev. assert (Cp : cell w h p) by (apply Sa; rewrite Ea; left; auto).
    destruct (build_single_ok st s p v O Cp Ea Ev) as [l [E Hl]].
    pose proof O as O'. destruct O' as [W [Ew Eh]].
    assert (Fp : field s p) by (unfold field; rewrite Ew, Eh; auto).
    set (s1 := pset s p v). set (s2 := pcset s1 p [v]).
    assert (W1 : wf s1) by (apply pset_wf; auto).
    assert (F1 : field s1 p) by auto.
    assert (Zv : zsset [v]) by (repeat constructor).
    assert (W2 : wf s2) by (apply pcset_wf; auto).
    assert (O2 : ok_sudoku s2) by (apply ok_intro; auto).
    destruct (removes_ok (fun _ => [v]) l s2 O2) as [s' [E' [O' [N' C']]]].
    { intros q Hq; apply Hl in Hq; tauto. }
    eexists; exists s'. split; [exact E|]. split; [|split; auto].
    - cbn [foldM do_action]. destruct p as [r c]; cbn [fst snd] in *.
      rewrite setitem_ok by auto. cbn [rbind]. rewrite set_candidates_ok by auto. cbn [rbind].
      exact E'.
    - exists p, v. splits; auto.
      + intros q Cq. rewrite N'. unfold s2. rewrite num_pcset. unfold s1.
        apply num_pset; auto. unfold field; rewrite Ew, Eh; auto.
      + intros x. rewrite C' by auto. unfold s2. rewrite cand_pcset by auto. rewrite coord_eqb_refl.
        simpl. split; [intuition|]. intros ->; split; auto. intros [X _].
        apply Hl in X. destruct X as [_ [[N _] _]]; auto.
      + intros q x Cq Nq. rewrite C' by auto. unfold s2. rewrite cand_pcset; auto.
        2:{ unfold field; simpl. rewrite Ew, Eh; auto. }
        rewrite coord_eqb_neq by auto. unfold s1. rewrite cand_pset. simpl. split.
        * intros [K1 K2]; split; auto. intros [K3 ->]. apply K2; split; auto. apply Hl; auto.
        * intros [K1 K2]; split; auto. intros [K3 [K4|[]]]. apply K2. apply Hl in K3; subst; tauto. }
  unfold build_actions, effect. cbn [st_class clues affected values].
  destruct (st_class st) eqn:Ec.
  - destruct Sc as [p [Sc1 Sc2]]. destruct O as [W [Ew Eh]].
    assert (Cp : cell w h p) by (apply Sa; rewrite Sc2; left; auto).
    assert (Fp : field s p) by (unfold field; rewrite Ew, Eh; auto).
    unfold build_calculate. rewrite Sc1. unfold list_get; cbn -[sof_list].
    eexists; eexists. split; [reflexivity|]. cbn [foldM do_action].
    destruct p as [r c]; cbn [fst snd]. rewrite set_candidates_ok by auto. cbn [rbind].
    assert (Zv : zsset (sof_list zcmp (values st))) by apply (sof_list_sset _ zcmp_good).
    split; [reflexivity|]. intros _. splits; auto.
    + apply pcset_wf; auto.
    + intros q x Cq. rewrite cand_pcset; auto; [|unfold field; rewrite Ew, Eh; auto].
      rewrite Sc2. cbn [existsb]. rewrite orb_false_r.
      destruct (coord_eqb q (r, c)); [apply (In_sof_list _ zcmp_good)|reflexivity].
  - destruct Sc as [p [v [Ea Ev]]]. destruct (Single p v Ea Ev) as [acts [s' [E1 [E2 [[W' [Ew' Eh']] E3]]]]].
    exists acts, s'. splits; auto.
  - destruct Sc as [p [v [Ea Ev]]]. destruct (Single p v Ea Ev) as [acts [s' [E1 [E2 [[W' [Ew' Eh']] E3]]]]].
    exists acts, s'. splits; auto.
  - unfold build_naked.
    rewrite (mapM_get s (fun ij c => RemoveCandidates (fst ij) (snd ij) (sinter zcmp (sof_list zcmp (values st)) c)))
      by auto.
    destruct (Rem (fun q => sinter zcmp (sof_list zcmp (values st)) (cand s q))) as [s' [E [[W' [Ew' Eh']] [N' C']]]].
    eexists; exists s'. split; [reflexivity|]. split; [exact E|]. intros _. splits; auto.
    intros q x Cq. rewrite C' by auto. rewrite (In_sinter _ zcmp_good), (In_sof_list _ zcmp_good). tauto.
  - unfold build_hidden.
    rewrite (mapM_get s (fun ij c => RemoveCandidates (fst ij) (snd ij) (sdiff zcmp c (sof_list zcmp (values st)))))
      by auto.
    destruct (Rem (fun q => sdiff zcmp (cand s q) (sof_list zcmp (values st)))) as [s' [E [[W' [Ew' Eh']] [N' C']]]].
    eexists; exists s'. split; [reflexivity|]. split; [exact E|]. intros _. splits; auto.
    intros q x Cq. rewrite C' by auto. rewrite (In_sdiff _ zcmp_good), (In_sof_list _ zcmp_good).
    destruct (in_dec Z.eq_dec x (values st)); tauto.
  - unfold build_pointing. destruct (values st) as [|v vs] eqn:Ev; [congruence|].
    unfold list_get; cbn -[foldM].
    destruct (Rem (fun q => v :: vs)) as [s' [E [[W' [Ew' Eh']] [N' C']]]].
    eexists; exists s'. split; [reflexivity|]. split; [exact E|]. intros _. splits; auto.
  - unfold build_fish. destruct (Rem (fun q => values st)) as [s' [E [[W' [Ew' Eh']] [N' C']]]].
    eexists; exists s'. split; [reflexivity|]. split; [exact E|]. intros _. splits; auto.
  - destruct Sc as [p [v [Ea Ev]]]. destruct (Single p v Ea Ev) as [acts [s' [E1 [E2 [[W' [Ew' Eh']] E3]]]]].
    exists acts, s'. splits; auto.
Qed.

(** * Invariants *)
Variable F : grid -> Prop.
Hypothesis FV : forall g, F g -> valid_grid w h g.

(** The invariant before CalculateCandidates: a set of candidates may be empty. *)
Record WInv (s : sudoku) : Prop := {
  wi_wf : wf s;
  wi_w : box_width s = w;
  wi_h : box_height s = h;
  wi_num : forall g p, F g -> cell w h p -> num s p = 0 \/ num s p = g p;
  wi_cand : forall g p, F g -> cell w h p -> cand s p <> [] -> In (g p) (cand s p)
}.

Lemma SInv_WInv : forall s, SInv w h F s -> WInv s.
Proof. intros s [A B C D E]. constructor; auto. Qed.

Lemma WInv_SInv : forall s, WInv s -> (forall p, cell w h p -> cand s p <> []) -> SInv w h F s.
Proof. intros s [A B C D E] H. constructor; auto. Qed.

Lemma SInv_ok : forall s, SInv w h F s -> ok_sudoku s.
Proof. intros s [A B C D E]. apply ok_intro; auto. Qed.
Lemma WInv_ok : forall s, WInv s -> ok_sudoku s.
Proof. intros s [A B C D E]. apply ok_intro; auto. Qed.

Lemma WInv_solution : forall s g, WInv s -> F g -> solution s g.
Proof.
  intros s g [A <- <- D E] Hg. split; auto. intros p Hp. apply D; auto.
Qed.

Lemma good_shaped : forall cls t st, step_good w h F cls t st -> shaped w h st.
Proof.
  intros cls t st [G1 [G2 [G3 [G4 [G5 [G6 G7]]]]]]. split; auto.
  unfold effective in G6. destruct (st_class st); auto.
  - destruct G6 as [p [A1 [A2 _]]]; eauto.
  - destruct G6 as [p [v [A1 [A2 [A3 _]]]]]; eauto.
  - destruct G6 as [p [v [A1 [A2 [A3 _]]]]]; eauto.
  - tauto.
  - destruct G6 as [p [v [A1 [A2 [A3 _]]]]]; eauto.
Qed.

Lemma effect_SInv : forall st s s', SInv w h F s -> effect w h st s s' ->
  (forall g, F g -> sound g st) ->
  (forall p, In p (affected st) -> cell w h p) ->
  SInv w h F s'.
Proof.
  intros st s s' S [W [Ew [Eh E]]] So Ca.
  assert (Single : forall p v, affected st = [p] -> values st = [v] ->
     (forall q, cell w h q -> num s' q = if coord_eqb q p then v else num s q) ->
     (forall x, In x (cand s' p) <-> x = v) ->
     (forall q x, cell w h q -> q <> p ->
         (In x (cand s' q) <-> In x (cand s q) /\ ~ (peers w h p q /\ x = v))) ->
     (forall g, F g -> sets_only g st) -> SInv w h F s').
  { intros p v Ea Ev E1 E2 E3 So'.
    assert (Gv : forall g, F g -> g p = v).
    { intros g Hg. destruct (So' g Hg) as [q [Q1 Q2]]. congruence. }
    assert (Cp : cell w h p) by (apply Ca; rewrite Ea; left; auto).
    constructor; auto.
    - intros g q Hg Cq. rewrite E1 by auto. destruct (coord_eqb q p) eqn:Eq.
      + apply coord_eqb_eq in Eq; subst q. right; symmetry; auto.
      + apply (si_num _ _ _ _ S); auto.
    - intros g q Hg Cq. destruct (coord_eq_dec q p) as [->|N].
      + apply E2; auto.
      + apply E3; auto. split; [apply (si_cand _ _ _ _ S); auto|].
        intros [P X]. apply (proj2 (FV g Hg) p q Cp Cq P). rewrite X. auto. }
  assert (Keep : (forall q, cell w h q -> num s' q = num s q) ->
     (forall g q, F g -> cell w h q -> In (g q) (cand s' q)) -> SInv w h F s').
  { intros E1 E2. constructor; auto. intros g q Hg Cq. rewrite E1 by auto. apply (si_num _ _ _ _ S); auto. }
  unfold sound in So. destruct (st_class st).
  - destruct E as [E1 E2]. apply Keep; auto. intros g q Hg Cq. apply E2; auto.
    destruct (existsb (coord_eqb q) (affected st)) eqn:X.
    + apply existsb_exists in X. destruct X as [q' [X1 X2]]. apply coord_eqb_eq in X2; subst q'.
      apply (So g Hg); auto.
    + apply (si_cand _ _ _ _ S); auto.
  - destruct E as [p [v [E1 [E2 [E3 [E4 E5]]]]]]. eauto.
  - destruct E as [p [v [E1 [E2 [E3 [E4 E5]]]]]]. eauto.
  - destruct E as [E1 E2]. apply Keep; auto. intros g q Hg Cq. apply E2; auto.
    split; [apply (si_cand _ _ _ _ S); auto|]. intros [X1 X2]. eapply So; eauto.
  - destruct E as [E1 E2]. apply Keep; auto. intros g q Hg Cq. apply E2; auto.
    split; [apply (si_cand _ _ _ _ S); auto|]. intros X. apply So; auto.
  - destruct E as [E1 E2]. apply Keep; auto. intros g q Hg Cq. apply E2; auto.
    split; [apply (si_cand _ _ _ _ S); auto|]. intros [X1 X2]. eapply So; eauto.
  - destruct E as [E1 E2]. apply Keep; auto. intros g q Hg Cq. apply E2; auto.
    split; [apply (si_cand _ _ _ _ S); auto|]. intros [X1 X2]. eapply So; eauto.
  - destruct E as [p [v [E1 [E2 [E3 [E4 E5]]]]]]. eauto.
Qed.

(** * drive *)

(** One applied step. *)
Definition link (cls : solver) (t : sudoku) (st : step) (t' : sudoku) : Prop :=
  WInv t /\ WInv t' /\ st_class st = cls /\ affected st <> [] /\
  (forall p, In p (affected st) -> cell w h p) /\
  effective w h t st /\ effect w h st t t' /\
  (forall g, F g -> sound g st) /\
  foldM do_action (actions st) t = Ok t'.

Inductive chain (T : sudoku -> step -> sudoku -> Prop) : sudoku -> list step -> sudoku -> Prop :=
| ch_nil : forall s, chain T s [] s
| ch_cons : forall s st t l u, T s st t -> chain T t l u -> chain T s (st :: l) u.

Lemma effective_same : forall t st st', st_class st' = st_class st -> clues st' = clues st ->
  affected st' = affected st -> values st' = values st ->
  effective w h t st -> effective w h t st'.
Proof. intros t st st' E1 E2 E3 E4. unfold effective. rewrite E1, E2, E3, E4. auto. Qed.

Lemma sound_same : forall g st st', st_class st' = st_class st ->
  affected st' = affected st -> values st' = values st -> sound g st -> sound g st'.
Proof.
  intros g st st' E1 E2 E3. unfold sound, never_drops, never_removes, sets_only.
  rewrite E1, E2, E3. auto.
Qed.

Lemma good_apply : forall cls t st, SInv w h F t -> step_good w h F cls t st ->
  exists st' t', apply st t = Ok (st', t') /\ SInv w h F t' /\ link cls t st' t'.
Proof.
  intros cls t st S G. pose proof (good_shaped _ _ _ G) as Sh.
  destruct G as [G1 [G2 [G3 [G4 [G5 [G6 G7]]]]]].
  destruct (apply_ok st t (SInv_ok _ S) Sh G2) as [st' [t' [E1 [E2 [E3 [E4 [E5 [E6 E7]]]]]]]].
  assert (So : forall g, F g -> sound g st') by (intros; eapply sound_same; eauto).
  assert (Ca : forall p, In p (affected st') -> cell w h p) by (rewrite E4; auto).
  assert (S' : SInv w h F t') by (eapply effect_SInv; eauto).
  exists st', t'. split; auto. split; auto.
  split; [apply SInv_WInv; auto|]. split; [apply SInv_WInv; auto|].
  split; [congruence|]. split; [rewrite E4; auto|]. split; auto.
  split; [eapply effective_same; eauto|]. auto.
Qed.

Lemma drive_safe : forall cls g s P, SInv w h F s ->
  gsafe (SInv w h F) (step_good w h F cls) P g s ->
  exists l s', drive g s = Ok (l, s') /\ SInv w h F s' /\ chain (link cls) s l s'.
Proof.
  intros cls g; induction g as [r|a k IH|e]; intros s P S G; cbn [drive].
  - exists [], s. splits; auto. constructor.
  - destruct G as [G1 G2].
    destruct (good_apply cls s a S G1) as [st' [t' [E [S' L]]]]. rewrite E. cbn [rbind].
    destruct (IH t' t' P S' (G2 t' S')) as [l [u [E2 [S2 C2]]]]. rewrite E2. cbn [rbind].
    exists (st' :: l), u. splits; auto. econstructor; eauto.
  - destruct G.
Qed.

Lemma chain_app : forall T s l1 t l2 u, chain T s l1 t -> chain T t l2 u -> chain T s (l1 ++ l2) u.
Proof. intros T s l1 t l2 u H; induction H; simpl; auto. intros; econstructor; eauto. Qed.

Lemma chain_impl : forall (T T' : sudoku -> step -> sudoku -> Prop) s l t,
  (forall a b c, T a b c -> T' a b c) -> chain T s l t -> chain T' s l t.
Proof. intros T T' s l t H C; induction C; econstructor; eauto. Qed.

Lemma chain_prefix : forall T s l1 l2 u, chain T s (l1 ++ l2) u ->
  exists t, chain T s l1 t /\ chain T t l2 u.
Proof.
  intros T s l1; revert s; induction l1 as [|a l1 IH]; intros s l2 u H; simpl in *.
  - exists s; split; auto. constructor.
  - inv H. destruct (IH _ _ _ H5) as [t' [C1 C2]]. exists t'; split; auto. econstructor; eauto.
Qed.

Lemma chain_forall : forall (T : sudoku -> step -> sudoku -> Prop) (P : step -> Prop) s l t, (forall a b c, T a b c -> P b) ->
  chain T s l t -> forall st, In st l -> P st.
Proof. intros T P s l t H C; induction C; intros x Hx; [destruct Hx|]. destruct Hx as [<-|Hx]; eauto. Qed.

(** * CalculateCandidates exactly *)
Lemma calculate_drive_aux : forall l s, WInv s -> (forall p, In p l -> cell w h p) -> NoDup l ->
  exists st s', drive (gfor (fun s rc =>
          do* c := lift (get_candidates s (fst rc) (snd rc)) in
          match c with
          | _ :: _ => Ret s
          | [] =>
              do* vs := lift (calc_candidates s (fst rc) (snd rc)) in
              yield (new_step CalculateCandidates [rc] [rc] vs)
          end) l s) s = Ok (st, s') /\ WInv s' /\
   chain (link CalculateCandidates) s st s' /\
   (forall p, cell w h p -> num s' p = num s p) /\
   (forall p, cell w h p -> cand s' p =
      if existsb (coord_eqb p) l then match cand s p with [] => pcalc s p | c => c end else cand s p) /\
   (st = [] <-> forall p, In p l -> cand s p <> []).
Proof.
  induction l as [|p l IH]; intros s S Cl Nd.
  - exists [], s. cbn. splits; auto; try constructor; auto.
  - inv Nd. assert (Cp : cell w h p) by (apply Cl; left; auto).
    assert (Cl' : forall q, In q l -> cell w h q) by (intros; apply Cl; right; auto).
    pose proof S as S0. destruct S0 as [W Ew Eh Hn Hc].
    assert (Fp : field s p) by (unfold field; rewrite Ew, Eh; auto).
    cbn [gfor].
    assert (Eg : get_candidates s (fst p) (snd p) = Ok (cand s p)).
    { destruct p; apply get_candidates_ok; auto. }
    rewrite Eg. cbn [lift gbind].
    destruct (cand s p) as [|v vs] eqn:Ec.
    + assert (Ek : calc_candidates s (fst p) (snd p) = Ok (pcalc s p)).
      { destruct p; apply calc_candidates_ok; auto. }
      rewrite Ek. cbn [lift gbind yield].
      set (st0 := new_step CalculateCandidates [p] [p] (pcalc s p)).
      assert (Sh : shaped w h st0).
      { split; simpl; [intros q [<-|[]]; destruct p; auto|]. exists p; destruct p; auto. }
      destruct (apply_ok st0 s (WInv_ok _ S) Sh eq_refl) as [st' [t' [E1 [E2 [E3 [E4 [E5 [E6 E7]]]]]]]].
      match goal with |- context [Yield ?a _] => change a with st0 end. cbn [drive]. rewrite E1. cbn [rbind].
      assert (Ea : affected st' = [p]) by (rewrite E4; destruct p; auto).
      assert (Ev : forall x, In x (values st') <-> In x (pcalc s p)).
      { intros x. rewrite E5. unfold st0; simpl. apply (in_py_sorted _ zcmp_good). }
      pose proof E7 as X. destruct X as [W' [Ew' [Eh' X]]]. rewrite E2 in X. cbn [st_class st0 new_step] in X.
      destruct X as [X1 X2]. rewrite Ea in X2. cbn [existsb] in X2.
      assert (Cd : forall q, cell w h q -> cand t' q = if coord_eqb q p then pcalc s p else cand s q).
      { intros q Cq. apply (sset_ext _ zcmp_good).
        - apply cand_sset; auto. unfold field; rewrite Ew', Eh'; auto.
        - destruct (coord_eqb q p); [apply pcalc_sset|]. apply cand_sset; auto.
          unfold field; rewrite Ew, Eh; auto.
        - intros x. rewrite X2 by auto. rewrite orb_false_r.
          destruct (coord_eqb q p); auto. reflexivity. }
      assert (S' : WInv t').
      { constructor; auto.
        - intros g q Hg Cq. rewrite X1 by auto. auto.
        - intros g q Hg Cq N. rewrite Cd in * by auto. destruct (coord_eqb q p) eqn:Eq; auto.
          apply coord_eqb_eq in Eq; subst q. apply pcalc_solution; auto. apply WInv_solution; auto. }
      destruct (IH t' S' Cl' H2) as [st [u [F1 [F2 [F3 [F4 [F5 F6]]]]]]].
      match type of F1 with drive ?G _ = _ => match goal with |- context [drive ?G' t'] => change G' with G end end.
      rewrite F1. cbn [rbind].
      exists (st' :: st), u. splits; auto.
      * econstructor; [|exact F3]. unfold link. splits; auto.
        -- rewrite Ea; discriminate.
        -- intros q. rewrite Ea; intros [<-|[]]; auto.
        -- unfold effective. rewrite E2; simpl. exists p. rewrite E3, Ea. destruct p; auto.
        -- intros g Hg. unfold sound. rewrite E2; simpl. intros q. rewrite Ea; intros [<-|[]].
           apply Ev. apply pcalc_solution; auto. apply WInv_solution; auto.
      * intros q Cq. rewrite F4, X1; auto.
      * intros q Cq. rewrite F5, Cd by auto. cbn [existsb].
        destruct (coord_eqb q p) eqn:Eq; cbn [orb].
        -- apply coord_eqb_eq in Eq; subst q. rewrite Ec.
           destruct (existsb (coord_eqb p) l) eqn:Ex; auto.
           apply existsb_exists in Ex. destruct Ex as [q' [Q1 Q2]]. apply coord_eqb_eq in Q2; subst q'; contradiction.
        -- destruct (existsb (coord_eqb q) l); auto. destruct (cand s q); auto.
           symmetry; apply pcalc_ext; auto; try congruence.
           ++ unfold field; rewrite Ew, Eh; auto.
           ++ intros q' F'. symmetry. apply X1. unfold field in F'; rewrite Ew, Eh in F'; auto.
      * split; [discriminate|]. intros H. exfalso. apply (H p); [left; auto|auto].
    + cbn [gbind]. destruct (IH s S Cl' H2) as [st [u [F1 [F2 [F3 [F4 [F5 F6]]]]]]].
      match type of F1 with drive ?G _ = _ => match goal with |- context [drive ?G' s] => change G' with G end end.
      rewrite F1. exists st, u. splits; auto.
      * intros q Cq. rewrite F5 by auto. cbn [existsb].
        destruct (coord_eqb q p) eqn:Eq; cbn [orb]; auto.
        apply coord_eqb_eq in Eq; subst q. rewrite Ec. destruct (existsb (coord_eqb p) l); auto.
      * split; [intros E q [<-|Hq]; [congruence|]; apply F6; auto|].
        intros H. apply F6. intros; apply H; right; auto.
Qed.

Lemma calculate_drive : forall s, WInv s ->
  exists st s', drive (calculate_find s) s = Ok (st, s') /\ SInv w h F s' /\
   chain (link CalculateCandidates) s st s' /\
   (forall p, cell w h p -> num s' p = num s p) /\
   (forall p, cell w h p -> cand s' p = match cand s p with [] => pcalc s p | c => c end) /\
   (st = [] <-> forall p, cell w h p -> cand s p <> []).
Proof.
  intros s S. pose proof S as S0. destruct S0 as [W Ew Eh Hn Hc].
  assert (Cc : forall p, In p (coords s) <-> cell w h p).
  { intros p. rewrite in_coords. unfold field; rewrite Ew, Eh; reflexivity. }
  destruct (calculate_drive_aux (coords s) s S) as [st [u [F1 [F2 [F3 [F4 [F5 F6]]]]]]].
  { intros p Hp; apply Cc; auto. }
  { apply NoDup_coords. }
  assert (F5' : forall p, cell w h p -> cand u p = match cand s p with [] => pcalc s p | c => c end).
  { intros p Cp. rewrite F5 by auto. rewrite existsb_coords; auto. apply in_coords, Cc; auto. }
  exists st, u. split; [exact F1|]. splits; auto.
  - constructor; auto; try apply F2. intros g p Hg Cp. rewrite F5' by auto.
    destruct (cand s p) as [|v vs] eqn:E.
    + apply pcalc_solution; auto; [apply WInv_solution; auto|]. unfold field; rewrite Ew, Eh; auto.
    + rewrite <- E. apply Hc; auto. rewrite E; discriminate.
  - split; [intros E p Cp; apply F6; auto; apply Cc; auto|].
    intros H. apply F6. intros p Hp; apply H; apply Cc; auto.
Qed.

(** * Numbers *)
Lemma link_num : forall cls t st t', cls <> Bruteforce -> link cls t st t' ->
  forall p, cell w h p -> num t p <> 0 -> num t' p = num t p.
Proof.
  intros cls t st t' N [_ [_ [L1 [_ [_ [L2 [L3 _]]]]]]] p Cp Np.
  destruct L3 as [_ [_ [_ L3]]]. unfold effective in L2. rewrite <- L1 in N.
  destruct (st_class st); try (destruct L3 as [L3 _]; apply L3; auto; fail); try congruence.
  - destruct L3 as [q [v [A1 [A2 [A3 _]]]]]. destruct L2 as [q' [v' [B1 [B2 [B3 [B4 _]]]]]].
    rewrite A3 by auto. destruct (coord_eqb p q) eqn:E; auto. apply coord_eqb_eq in E; subst. congruence.
  - destruct L3 as [q [v [A1 [A2 [A3 _]]]]]. destruct L2 as [q' [v' [B1 [B2 [B3 [B4 _]]]]]].
    rewrite A3 by auto. destruct (coord_eqb p q) eqn:E; auto. apply coord_eqb_eq in E; subst. congruence.
Qed.

(** Only these classes write numbers. *)
Definition writes (cls : solver) : bool :=
  match cls with NakedSingle | HiddenSingle | Bruteforce => true | _ => false end.

Lemma link_num_eq : forall cls t st t', writes cls = false -> link cls t st t' ->
  forall p, cell w h p -> num t' p = num t p.
Proof.
  intros cls t st t' N [_ [_ [L1 [_ [_ [L2 [L3 _]]]]]]] p Cp.
  destruct L3 as [_ [_ [_ L3]]]. rewrite <- L1 in N.
  destruct (st_class st); try discriminate; destruct L3 as [L3 _]; apply L3; auto.
Qed.

(** * Measure *)
Definition weight (s : sudoku) (p : coord) : nat :=
  (length (cand s p) + if Z.eqb (num s p) 0 then 1 else 0)%nat.
Definition measure (s : sudoku) : nat := list_sum (map (weight s) (list_prod (py_range (w * h)) (py_range (w * h)))).

Lemma list_sum_le : forall {A} (f g : A -> nat) l, (forall x, In x l -> (f x <= g x)%nat) ->
  (list_sum (map f l) <= list_sum (map g l))%nat.
Proof.
  intros A f g l; induction l as [|x l IH]; intros H; simpl; auto.
  pose proof (H x (or_introl eq_refl)). specialize (IH (fun y Hy => H y (or_intror Hy))).
  unfold list_sum in *; lia.
Qed.

Lemma list_sum_lt : forall {A} (f g : A -> nat) l a, (forall x, In x l -> (f x <= g x)%nat) ->
  In a l -> (f a < g a)%nat -> (list_sum (map f l) < list_sum (map g l))%nat.
Proof.
  intros A f g l a; induction l as [|x l IH]; intros H Ha Hlt; [destruct Ha|]. simpl.
  pose proof (H x (or_introl eq_refl)).
  destruct Ha as [->|Ha].
  - pose proof (list_sum_le f g l (fun y Hy => H y (or_intror Hy))). unfold list_sum in *; lia.
  - specialize (IH (fun y Hy => H y (or_intror Hy)) Ha Hlt). unfold list_sum in *; lia.
Qed.

Lemma in_cells : forall p, In p (list_prod (py_range (w * h)) (py_range (w * h))) <-> cell w h p.
Proof. intros [r c]. rewrite in_prod_iff, !in_py_range. unfold cell; simpl. tauto. Qed.

Lemma sset_nodup : forall l, zsset l -> NoDup l.
Proof. intros l H. apply (sset_NoDup _ zcmp_good); auto. Qed.

Lemma sub_length : forall (a b : list Z), zsset a -> (forall x, In x a -> In x b) -> (length a <= length b)%nat.
Proof. intros a b Ha H. apply NoDup_incl_length; auto. apply sset_nodup; auto. Qed.

Lemma sub_length_lt : forall (a b : list Z) v, zsset a -> (forall x, In x a -> In x b) ->
  In v b -> ~ In v a -> (length a < length b)%nat.
Proof.
  intros a b v Ha H Hv Nv.
  assert (X : (length (v :: a) <= length b)%nat).
  { apply NoDup_incl_length; [constructor; auto; apply sset_nodup; auto|].
    intros x [<-|Hx]; auto. }
  simpl in X; lia.
Qed.

Lemma ok_cand_sset : forall s p, ok_sudoku s -> cell w h p -> zsset (cand s p).
Proof. intros s p [W [<- <-]] C. apply cand_sset; auto. Qed.

Lemma link_measure : forall cls t st t' g, cls <> CalculateCandidates -> F g ->
  SInv w h F t -> link cls t st t' -> (measure t' < measure t)%nat.
Proof.
  intros cls t st t' g N Hg S [_ [L0 [L1 [Na [Ca [L2 [L3 [So _]]]]]]]].
  pose proof (WInv_ok _ L0) as O'. pose proof (SInv_ok _ S) as O.
  destruct L3 as [_ [_ [_ L3]]]. unfold effective in L2. specialize (So g Hg). unfold sound in So.
  rewrite <- L1 in N.
  (* candidates only shrink, numbers are kept *)
  assert (Shrink : (forall q, cell w h q -> num t' q = num t q) ->
     (forall q x, cell w h q -> In x (cand t' q) -> In x (cand t q)) ->
     (exists p v, cell w h p /\ In v (cand t p) /\ ~ In v (cand t' p)) -> (measure t' < measure t)%nat).
  { intros E1 E2 [p [v [Cp [V1 V2]]]]. unfold measure. apply list_sum_lt with (a := p).
    - intros q Hq. apply in_cells in Hq. unfold weight. rewrite E1 by auto.
      pose proof (sub_length (cand t' q) (cand t q) (ok_cand_sset _ _ O' Hq) (fun x => E2 q x Hq)). lia.
    - apply in_cells; auto.
    - unfold weight. rewrite E1 by auto.
      pose proof (sub_length_lt (cand t' p) (cand t p) v (ok_cand_sset _ _ O' Cp) (fun x => E2 p x Cp) V1 V2). lia. }
  assert (Single : forall p v, affected st = [p] -> values st = [v] ->
     (forall q, cell w h q -> num t' q = if coord_eqb q p then v else num t q) ->
     (forall x, In x (cand t' p) <-> x = v) ->
     (forall q x, cell w h q -> q <> p ->
         (In x (cand t' q) <-> In x (cand t q) /\ ~ (peers w h p q /\ x = v))) ->
     sets_only g st -> num t p = 0 -> (measure t' < measure t)%nat).
  { intros p v Ea Ev E1 E2 E3 So' Np.
    assert (Gv : g p = v) by (destruct So' as [q [Q1 Q2]]; congruence).
    assert (Cp : cell w h p) by (apply Ca; rewrite Ea; left; auto).
    pose proof (proj1 (FV g Hg) p Cp) as Rv.
    assert (L : forall q, cell w h q -> (length (cand t' q) <= length (cand t q))%nat).
    { intros q Cq. apply sub_length; [apply ok_cand_sset; auto|].
      intros x Hx. destruct (coord_eq_dec q p) as [->|Nq].
      - apply E2 in Hx; subst x. rewrite <- Gv. apply (si_cand _ _ _ _ S); auto.
      - apply E3 in Hx; tauto. }
    unfold measure. apply list_sum_lt with (a := p).
    - intros q Hq. apply in_cells in Hq. unfold weight. rewrite E1 by auto. specialize (L q Hq).
      destruct (coord_eqb q p) eqn:Eq; [|lia]. apply coord_eqb_eq in Eq; subst q.
      destruct (v =? 0) eqn:Z0; b2p; [lia|]. lia.
    - apply in_cells; auto.
    - unfold weight. rewrite E1 by auto. specialize (L p Cp). rewrite coord_eqb_refl, Np.
      destruct (v =? 0) eqn:Z0; b2p; [lia|]. simpl. lia. }
  assert (First : exists p, In p (affected st)) by (destruct (affected st) as [|p ?]; [congruence|exists p; left; auto]).
  destruct First as [p0 P0].
  destruct (st_class st).
  - congruence.
  - destruct L3 as [p [v [A1 [A2 [A3 [A4 A5]]]]]]. destruct L2 as [q' [v' [B1 [B2 [B3 [B4 _]]]]]].
    eapply Single; eauto. congruence.
  - destruct L3 as [p [v [A1 [A2 [A3 [A4 A5]]]]]]. destruct L2 as [q' [v' [B1 [B2 [B3 [B4 _]]]]]].
    eapply Single; eauto. congruence.
  - destruct L3 as [E1 E2]. destruct L2 as [_ L2]. apply Shrink; auto.
    + intros q x Cq Hx. apply E2 in Hx; tauto.
    + destruct (L2 p0 P0) as [v [V1 V2]]. exists p0, v. splits; auto. rewrite E2 by auto. tauto.
  - destruct L3 as [E1 E2]. apply Shrink; auto.
    + intros q x Cq Hx. apply E2 in Hx; tauto.
    + destruct (L2 p0 P0) as [v [V1 V2]]. exists p0, v. splits; auto. rewrite E2 by auto. tauto.
  - destruct L3 as [E1 E2]. destruct L2 as [_ L2]. apply Shrink; auto.
    + intros q x Cq Hx. apply E2 in Hx; tauto.
    + destruct (L2 p0 P0) as [v [V1 V2]]. exists p0, v. splits; auto. rewrite E2 by auto. tauto.
  - destruct L3 as [E1 E2]. destruct L2 as [_ L2]. apply Shrink; auto.
    + intros q x Cq Hx. apply E2 in Hx; tauto.
    + destruct (L2 p0 P0) as [v [V1 V2]]. exists p0, v. splits; auto. rewrite E2 by auto. tauto.
  - destruct L3 as [p [v [A1 [A2 [A3 [A4 A5]]]]]]. destruct L2 as [q' [v' [B1 [B2 [B3 B4]]]]].
    eapply Single; eauto. destruct So as [q [Q1 Q2]].
    assert (q' = p) by congruence; subst q'. assert (q = p) by congruence; subst q.
    assert (Cp : cell w h p) by (apply Ca; rewrite A1; left; auto).
    destruct (si_num _ _ _ _ S g p Hg Cp); auto. exfalso; apply B4. congruence.
Qed.
End Apply.
