(** Lemmas for C109: what applying a step does. *)
From Verif Require Export SpecSteps LSolvers3.

Local Opaque MSudoku.surrounding_of.

Section Steps.
Variables w h : Z.

(** The actions a step has after it was applied to [s0]. *)
Definition acts_of (st : step) (s0 : sudoku) (acts : list action) : Prop :=
  forall s, ok_sudoku w h s -> exists t, foldM do_action acts s = Ok t /\ applied w h st s0 s t.

Lemma singles_acts : forall st s0 p l v l', ok_sudoku w h s0 -> affected st = p :: l -> values st = v :: l' -> cell w h p ->
  (st_class st = NakedSingle \/ st_class st = HiddenSingle \/ st_class st = Bruteforce) ->
  exists acts, build_single st s0 = Ok acts /\ acts <> [] /\ acts_of st s0 acts.
Proof.
  intros st s0 p l v l' O Ea Ev C Cl.
  destruct (build_single_ok w h (single_step NakedSingle (fst p) (snd p) v) s0 p v O C) as [rs [E Hl]].
  { destruct p; reflexivity. } { reflexivity. }
  assert (E' : build_single st s0 = build_single (single_step NakedSingle (fst p) (snd p) v) s0).
  { unfold build_single. rewrite Ea, Ev. destruct p; reflexivity. }
  rewrite E'. eexists. split; [exact E|]. split; [discriminate|].
  intros s Os. pose proof Os as O'. destruct O' as [W [Ew Eh]].
  assert (Fp : field s p) by (unfold field; rewrite Ew, Eh; auto).
  set (s1 := pset s p v). set (s2 := pcset s1 p [v]).
  assert (W1 : wf s1) by (apply pset_wf; auto).
  assert (F1 : field s1 p) by auto.
  assert (Zv : zsset [v]) by (repeat constructor).
  assert (W2 : wf s2) by (apply pcset_wf; auto).
  assert (O2 : ok_sudoku w h s2) by (apply ok_intro; auto).
  destruct (removes_ok w h (fun _ => [v]) rs s2 O2) as [t [Et [[Wt [Ewt Eht]] [N' C']]]].
  { intros q Hq; apply Hl in Hq; tauto. }
  exists t. split.
  { cbn [foldM do_action]. destruct p as [r c]; cbn [fst snd] in *.
    rewrite setitem_ok by auto. cbn [rbind]. rewrite set_candidates_ok by auto. cbn [rbind]. exact Et. }
  assert (Nt : forall q, cell w h q -> num t q = if coord_eqb q p then v else num s q).
  { intros q Cq. rewrite N'. unfold s2. rewrite num_pcset. unfold s1. apply num_pset; auto. unfold field; rewrite Ew, Eh; auto. }
  assert (Ct : forall q x, cell w h q -> q <> p -> (In x (cand t q) <-> In x (cand s q) /\ ~ (In q rs /\ In x [v]))).
  { intros q x Cq Nq. rewrite C' by auto. unfold s2. rewrite cand_pcset; auto.
    2:{ unfold field; simpl. rewrite Ew, Eh; auto. }
    rewrite coord_eqb_neq by auto. unfold s1. rewrite cand_pset. reflexivity. }
  assert (Cp : forall x, In x (cand t p) <-> x = v).
  { intros x. rewrite C' by auto. unfold s2. rewrite cand_pcset by auto. rewrite coord_eqb_refl.
    simpl. split; [intuition|]. intros ->; split; auto. intros [X _]. apply Hl in X. destruct X as [_ [[N _] _]]; auto. }
  assert (Wr : forall q u, puts st q u <-> q = p /\ u = v).
  { intros q u. unfold puts. rewrite Ea, Ev. destruct Cl as [-> |[-> | ->]];
      (split; [intros [a [b [X Y]]]; injection X as -> _; injection Y as -> _; auto|intros [-> ->]; eauto]). }
  assert (Re : forall q vs, replaces st q vs <-> q = p /\ vs = [v]).
  { intros q u. unfold replaces. rewrite Ea, Ev. destruct Cl as [-> |[-> | ->]];
      (split; [intros [a [b [d [X [Y Z]]]]]; injection X as -> _; injection Y as -> _; auto|intros [-> ->]; eauto 8]). }
  assert (Dr : forall q x, cell w h q -> (drops w h st s0 q x <-> In q rs /\ In x [v])).
  { intros q x Cq. rewrite Hl. unfold drops. rewrite Ea, Ev. simpl. destruct Cl as [-> |[-> | ->]];
      (split; [intros [[a [b [X Y]]] [[d Z] T]]; injection X as -> _; injection Z as -> _; auto|
               intros [[X [Y T]] [Z|[]]]; subst x; repeat split; eauto]). }
  split; auto. split; auto. split; auto. split; [|split; [|split]].
  - intros q u Cq H. apply Wr in H. destruct H as [-> ->]. rewrite Nt by auto. rewrite coord_eqb_refl. auto.
  - intros q Cq H. rewrite Nt by auto. destruct (coord_eqb q p) eqn:Eq; auto. apply coord_eqb_eq in Eq.
    destruct (H v). apply Wr. auto.
  - intros q vs x Cq H. apply Re in H. destruct H as [-> ->]. rewrite Cp. simpl. intuition.
  - intros q x Cq H. rewrite Dr by auto. apply Ct; auto. intros ->. apply (H [v]). apply Re; auto.
Qed.

Lemma removing_acts : forall st s0 (R : coord -> list Z),
  (forall p, In p (affected st) -> cell w h p) ->
  (forall q v, ~ puts st q v) -> (forall q vs, ~ replaces st q vs) ->
  (forall q x, cell w h q -> (drops w h st s0 q x <-> In q (affected st) /\ In x (R q))) ->
  acts_of st s0 (map (fun q => RemoveCandidates (fst q) (snd q) (R q)) (affected st)).
Proof.
  intros st s0 R Sa Hw Hr Hd s O. destruct (removes_ok w h R (affected st) s O Sa) as [t [E [[W [Ew Eh]] [N C]]]].
  exists t. split; auto. split; auto. split; auto. split; auto. split; [|split; [|split]].
  - intros q v _ X. destruct (Hw q v X).
  - intros; auto.
  - intros q vs x _ X. destruct (Hr q vs X).
  - intros q x Cq _. rewrite Hd by auto. auto.
Qed.

Lemma built : forall st s0, ok_sudoku w h s0 -> applicable w h st ->
  exists acts, build_actions st s0 = Ok acts /\ acts_of st s0 acts /\ (acts = [] -> affected st = []).
Proof.
  intros st s0 O A. unfold applicable in A. unfold build_actions. destruct (st_class st) eqn:Ec.
  - destruct A as [p [l [E C]]]. unfold build_calculate. rewrite E. unfold list_get; cbn -[sof_list].
    eexists. split; [reflexivity|]. split; [|discriminate]. intros s [W [Ew Eh]].
    assert (Fp : field s p) by (unfold field; rewrite Ew, Eh; auto).
    assert (Zv : zsset (sof_list zcmp (values st))) by apply (sof_list_sset _ zcmp_good).
    exists (pcset s p (sof_list zcmp (values st))). split.
    { cbn [foldM do_action]. destruct p as [r c]; cbn [fst snd]. rewrite set_candidates_ok by auto. reflexivity. }
    split; [apply pcset_wf; auto|]. split; auto. split; auto. unfold puts, replaces, drops. rewrite Ec, E. split; [|split; [|split]].
    + intros q v _ [].
    + intros; reflexivity.
    + intros q vs x Cq [a [X ->]]. injection X as -> _. rewrite cand_pcset by auto. rewrite coord_eqb_refl. apply (In_sof_list _ zcmp_good).
    + intros q x Cq H. rewrite cand_pcset; auto; [|unfold field; rewrite Ew, Eh; auto].
      rewrite coord_eqb_neq; [tauto|]. intros ->. apply (H (values st)). eauto.
  - destruct A as [p [l [v [l' [Ea [Ev C]]]]]]. destruct (singles_acts st s0 p l v l' O Ea Ev C) as [acts [X [Y T]]]; auto.
    exists acts. split; [exact X|]. split; [exact T|]. intros; contradiction.
  - destruct A as [p [l [v [l' [Ea [Ev C]]]]]]. destruct (singles_acts st s0 p l v l' O Ea Ev C) as [acts [X [Y T]]]; auto.
    exists acts. split; [exact X|]. split; [exact T|]. intros; contradiction.
  - unfold build_naked.
    rewrite (mapM_get w h s0 (fun ij c => RemoveCandidates (fst ij) (snd ij) (sinter zcmp (sof_list zcmp (values st)) c))) by auto.
    eexists. split; [reflexivity|]. split; [|intros X; apply map_eq_nil in X; auto].
    apply (removing_acts st s0 (fun q => sinter zcmp (sof_list zcmp (values st)) (cand s0 q))); auto; unfold puts, replaces, drops; rewrite Ec; auto.
    intros q x Cq. rewrite (In_sinter _ zcmp_good), (In_sof_list _ zcmp_good). tauto.
  - unfold build_hidden.
    rewrite (mapM_get w h s0 (fun ij c => RemoveCandidates (fst ij) (snd ij) (sdiff zcmp c (sof_list zcmp (values st))))) by auto.
    eexists. split; [reflexivity|]. split; [|intros X; apply map_eq_nil in X; auto].
    apply (removing_acts st s0 (fun q => sdiff zcmp (cand s0 q) (sof_list zcmp (values st)))); auto; unfold puts, replaces, drops; rewrite Ec; auto.
    intros q x Cq. rewrite (In_sdiff _ zcmp_good), (In_sof_list _ zcmp_good). tauto.
  - destruct A as [Nv A]. unfold build_pointing. destruct (values st) as [|v l] eqn:Ev; [contradiction|]. unfold list_get at 1; cbn [rbind].
    cbn -[sof_list]. eexists. split; [reflexivity|]. split; [|intros X; apply map_eq_nil in X; auto].
    apply (removing_acts st s0 (fun q => v :: l)); auto; unfold puts, replaces, drops; rewrite Ec; auto.
    rewrite Ev. intros; reflexivity.
  - unfold build_fish. eexists. split; [reflexivity|]. split; [|intros X; apply map_eq_nil in X; auto].
    apply (removing_acts st s0 (fun q => values st)); auto; unfold puts, replaces, drops; rewrite Ec; auto.
    intros; reflexivity.
  - destruct A as [p [l [v [l' [Ea [Ev C]]]]]]. destruct (singles_acts st s0 p l v l' O Ea Ev C) as [acts [X [Y T]]]; auto.
    exists acts. split; [exact X|]. split; [exact T|]. intros; contradiction.
Qed.

Definition with_actions (st : step) (acts : list action) : step :=
  {| st_class := st_class st; clues := clues st; affected := affected st; values := values st; actions := acts |}.

Lemma apply_fresh : forall st s, ok_sudoku w h s -> applicable w h st -> actions st = [] ->
  exists acts t, build_actions st s = Ok acts /\ apply st s = Ok (with_actions st acts, t) /\ applied w h st s s t /\ acts_of st s acts.
Proof.
  intros st s O A E. destruct (built st s O A) as [acts [B [X _]]]. destruct (X s O) as [t [F T]].
  exists acts, t. split; auto. split; auto. unfold apply. rewrite E, B. cbn [rbind]. rewrite F. reflexivity.
Qed.

(** What a step without actions to do would do. *)
Lemma no_actions : forall st s0, ok_sudoku w h s0 -> applicable w h st -> build_actions st s0 = Ok [] ->
  forall s, ok_sudoku w h s -> build_actions (with_actions st []) s = Ok [].
Proof.
  intros st s0 O A B s Os. destruct (built st s0 O A) as [acts [B' [_ E]]]. rewrite B in B'. injection B' as <-.
  specialize (E eq_refl). unfold build_actions, with_actions in *. cbn [st_class]. unfold applicable in A.
  destruct (st_class st); unfold build_calculate, build_single, build_naked, build_hidden, build_pointing, build_fish in *; cbn [clues affected values] in *.
  - destruct A as [p [l [X _]]]. rewrite X in *. discriminate B.
  - destruct A as [p [l [v [l' [X _]]]]]. congruence.
  - destruct A as [p [l [v [l' [X _]]]]]. congruence.
  - rewrite E. reflexivity.
  - rewrite E. reflexivity.
  - rewrite E in *. destruct A as [A _]. destruct (values st); [contradiction|reflexivity].
  - rewrite E. reflexivity.
  - destruct A as [p [l [v [l' [X _]]]]]. congruence.
Qed.

Lemma apply_again : forall st s0 st' u s, ok_sudoku w h s0 -> ok_sudoku w h s -> applicable w h st -> actions st = [] ->
  apply st s0 = Ok (st', u) -> exists t, apply st' s = Ok (st', t) /\ applied w h st s0 s t.
Proof.
  intros st s0 st' u s O0 O A E H. destruct (apply_fresh st s0 O0 A E) as [acts [t0 [B [X [_ Y]]]]]. rewrite X in H. injection H as <- <-.
  destruct (Y s O) as [t [F T]]. exists t. split; auto. unfold apply. cbn [with_actions actions st_class clues affected values].
  destruct acts as [|a l].
  - rewrite (no_actions st s0 O0 A B s O). cbn [rbind]. rewrite F. reflexivity.
  - cbn [rbind]. rewrite F. reflexivity.
Qed.

Lemma puts_dec : forall st q, (exists v, puts st q v) \/ (forall v, ~ puts st q v).
Proof.
  intros st q. unfold puts. destruct (st_class st); auto;
    (destruct (affected st) as [|p l]; [right; intros v [a [b [X _]]]; discriminate|];
     destruct (values st) as [|v l']; [right; intros v [a [b [_ X]]]; discriminate|];
     destruct (coord_eqb p q) eqn:Eq; [apply coord_eqb_eq in Eq; subst; left; eauto|];
     right; intros u [a [b [X _]]]; injection X as -> _; rewrite coord_eqb_refl in Eq; discriminate).
Qed.
Lemma replaces_dec : forall st q, (exists v, replaces st q v) \/ (forall v, ~ replaces st q v).
Proof.
  intros st q. unfold replaces. destruct (st_class st); auto.
  - destruct (clues st) as [|p l]; [right; intros v [a [X _]]; discriminate|].
    destruct (coord_eqb p q) eqn:Eq; [apply coord_eqb_eq in Eq; subst; left; eauto|].
    right; intros u [a [X _]]; injection X as -> _; rewrite coord_eqb_refl in Eq; discriminate.
  - destruct (affected st) as [|p l]; [right; intros v [a [b [c [X _]]]]; discriminate|].
    destruct (values st) as [|v l']; [right; intros v [a [b [c [_ [X _]]]]]; discriminate|].
    destruct (coord_eqb p q) eqn:Eq; [apply coord_eqb_eq in Eq; subst; left; eauto 8|].
    right; intros u [a [b [c [X _]]]]; injection X as -> _; rewrite coord_eqb_refl in Eq; discriminate.
  - destruct (affected st) as [|p l]; [right; intros v [a [b [c [X _]]]]; discriminate|].
    destruct (values st) as [|v l']; [right; intros v [a [b [c [_ [X _]]]]]; discriminate|].
    destruct (coord_eqb p q) eqn:Eq; [apply coord_eqb_eq in Eq; subst; left; eauto 8|].
    right; intros u [a [b [c [X _]]]]; injection X as -> _; rewrite coord_eqb_refl in Eq; discriminate.
  - destruct (affected st) as [|p l]; [right; intros v [a [b [c [X _]]]]; discriminate|].
    destruct (values st) as [|v l']; [right; intros v [a [b [c [_ [X _]]]]]; discriminate|].
    destruct (coord_eqb p q) eqn:Eq; [apply coord_eqb_eq in Eq; subst; left; eauto 8|].
    right; intros u [a [b [c [X _]]]]; injection X as -> _; rewrite coord_eqb_refl in Eq; discriminate.
Qed.

(** [applied] determines the result. *)
Lemma applied_same : forall st s0 s0' s s' t t', applied w h st s0 s t -> applied w h st s0' s' t' ->
  (forall q, cell w h q -> (forall v, ~ puts st q v) -> num s q = num s' q) ->
  (forall q x, cell w h q -> (forall v, ~ replaces st q v) ->
     (In x (cand s q) /\ ~ drops w h st s0 q x <-> In x (cand s' q) /\ ~ drops w h st s0' q x)) -> t = t'.
Proof.
  intros st s0 s0' s s' t t' [W [B1 [B2 [N1 [N2 [C1 C2]]]]]] [W' [B1' [B2' [N1' [N2' [C1' C2']]]]]] HN HC.
  assert (F : forall q, field t q <-> cell w h q) by (intros q; unfold field; rewrite B1, B2; reflexivity).
  apply sudoku_ext; auto; try congruence.
  - intros q Fq. apply F in Fq. destruct (puts_dec st q) as [[v V]|V].
    + rewrite (N1 q v), (N1' q v); auto.
    + rewrite N2, N2'; auto.
  - intros q Fq. pose proof Fq as Cq. apply F in Cq. apply (sset_ext zcmp zcmp_good); try (apply cand_sset; auto; unfold field; rewrite ?B1', ?B2'; auto).
    intros x. destruct (replaces_dec st q) as [[v V]|V].
    + rewrite (C1 q v x), (C1' q v x); auto. reflexivity.
    + rewrite (C2 q x), (C2' q x); auto.
Qed.

End Steps.

(** * apply_all of CalculateCandidates *)
Lemma calculate_all_steps : forall o s, wf s -> exists t, apply_all o CalculateCandidates s = Ok t /\ wf t /\ box_size t = box_size s /\
  (forall p, field s p -> num t p = num s p) /\
  (forall p, field s p -> cand s p <> [] -> cand t p = cand s p) /\
  (forall p, field s p -> cand s p = [] -> calc_candidates s (fst p) (snd p) = Ok (cand t p)).
Proof.
  intros o s W.
  assert (FV : forall f : grid, (fun _ : grid => False) f -> valid_grid (box_width s) (box_height s) f) by (intros f []).
  assert (S : WInv (box_width s) (box_height s) (fun _ => False) s) by (constructor; auto; intros ? ? []).
  destruct (calculate_drive (box_width s) (box_height s) (fun _ => False) FV s S) as [st [t [E [I [_ [N [C _]]]]]]].
  exists t. unfold apply_all. cbn [MSolvers.find]. rewrite E. cbn [rbind]. split; auto. destruct I as [W' Ew Eh _ _]. split; auto.
  split; [unfold box_size; congruence|]. split; [exact N|]. split.
  - intros p Fp H. rewrite C by auto. destruct (cand s p); auto; contradiction.
  - intros p Fp H. rewrite C, H by auto. destruct p. apply calc_candidates_ok; auto.
Qed.
