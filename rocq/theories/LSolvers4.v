(** solve(), apply_all and hints. *)
From Verif Require Export LSolvers3.

Local Opaque MSudoku.surrounding_of.

Definition none : grid -> Prop := fun _ => False.

(** * Changing the set of solutions of an invariant *)
Section Anti.
Variables w h : Z.
Lemma SInv_anti : forall (F F' : grid -> Prop) s, (forall g, F' g -> F g) -> SInv w h F s -> SInv w h F' s.
Proof. intros F F' s H [A B C D E]. constructor; auto. Qed.
Lemma WInv_anti : forall (F F' : grid -> Prop) s, (forall g, F' g -> F g) -> WInv w h F s -> WInv w h F' s.
Proof. intros F F' s H [A B C D E]. constructor; auto. Qed.

Lemma none_SInv : forall s, ok_sudoku w h s -> SInv w h none s.
Proof. intros s [W [Ew Eh]]. constructor; auto; intros g p []. Qed.
Lemma none_WInv : forall s, ok_sudoku w h s -> WInv w h none s.
Proof. intros s [W [Ew Eh]]. constructor; auto; intros g p []. Qed.
Lemma none_valid : forall g, none g -> valid_grid w h g.
Proof. intros g []. Qed.

Lemma one_SInv : forall s f, ok_sudoku w h s -> valid_grid w h f ->
  (forall p, cell w h p -> num s p = 0 \/ num s p = f p) ->
  (forall p, cell w h p -> In (f p) (cand s p)) -> SInv w h (eq f) s.
Proof. intros s f [W [Ew Eh]] V H1 H2. constructor; auto; intros g p <- C; auto. Qed.
End Anti.

Lemma filter_nothing : forall {A} (f : A -> bool) l, (forall x, In x l -> f x = false) -> filter f l = [].
Proof.
  intros A f l; induction l as [|x l IH]; intros H; simpl; auto.
  rewrite (H x (or_introl eq_refl)). apply IH. intros; apply H; right; auto.
Qed.

Section Solve.
Variables w h : Z.
Hypothesis Hw : 1 <= w.
Hypothesis Hh : 1 <= h.
Variable o : oracle.
Hypothesis Ho : oracle_ok o.

(** * Bruteforce *)
Lemma brute_aux : forall sol, ok_sudoku w h sol -> forall l s, ok_sudoku w h s ->
  (forall p, In p l -> cell w h p) ->
  exists st s',
    drive (do* st := gforgen (fun st rc =>
                   do* v := lift (getitem sol (fst rc) (snd rc)) in
                   do* s := yield (single_step Bruteforce (fst rc) (snd rc) v) in
                   Ret (s, tt))
                (gfor (fun s rc =>
          do* a := lift (getitem s (fst rc) (snd rc)) in
          do* b := lift (getitem sol (fst rc) (snd rc)) in
          if negb (a =? b) then yield rc else Ret s) l s) (s, tt) in
      Ret (fst st)) s = Ok (st, s') /\ ok_sudoku w h s' /\
    (forall q, cell w h q -> num s' q = if existsb (coord_eqb q) l then num sol q else num s q) /\
    (st = [] <-> forall p, In p l -> num s p = num sol p) /\
    (forall x, In x st -> st_class x = Bruteforce).
Proof.
  intros sol Os. pose proof Os as [Wsol [Ew2 Eh2]].
  induction l as [|p l IH]; intros s O Cl.
  - exists [], s. cbn. splits; auto; try (intros x []; fail).
    split; auto. intros _ p [].
  - assert (Cp : cell w h p) by (apply Cl; left; auto).
    assert (Cl' : forall q, In q l -> cell w h q) by (intros; apply Cl; right; auto).
    pose proof O as [W [Ew Eh]].
    assert (E1 : getitem s (fst p) (snd p) = Ok (num s p)).
    { destruct p; apply getitem_ok; auto. unfold field; rewrite Ew, Eh; auto. }
    assert (E2 : getitem sol (fst p) (snd p) = Ok (num sol p)).
    { destruct p; apply getitem_ok; auto. unfold field; rewrite Ew2, Eh2; auto. }
    cbn [gfor]. rewrite E1. cbn [lift gbind]. rewrite E2. cbn [lift gbind].
    destruct (num s p =? num sol p) eqn:E; cbn [negb gbind yield gforgen]; b2p.
    + destruct (IH s O Cl') as [st [u [F1 [F2 [F3 [F4 F5]]]]]].
      exists st, u. split; [exact F1|]. splits; auto.
      * intros q Cq. rewrite F3 by auto. cbn [existsb].
        destruct (coord_eqb q p) eqn:Eq; cbn [orb]; auto.
        apply coord_eqb_eq in Eq; subst q. destruct (existsb (coord_eqb p) l); auto.
      * split; [intros X q [<-|Hq]; auto; apply F4; auto|]. intros X; apply F4. intros; apply X; right; auto.
    + rewrite E2. cbn [lift gbind yield fst].
      set (st0 := single_step Bruteforce (fst p) (snd p) (num sol p)).
      assert (Ea : affected st0 = [p]) by (destruct p; auto).
      assert (Sh : shaped w h st0).
      { split; [rewrite Ea; intros q [<-|[]]; auto|]. simpl. exists p, (num sol p). destruct p; auto. }
      destruct (apply_ok w h st0 s O Sh eq_refl) as [st' [t' [G1 [G2 [G3 [G4 [G5 [G6 G7]]]]]]]].
      cbn [drive]. rewrite G1. cbn [rbind].
      destruct G7 as [W' [Ew' [Eh' G7]]]. rewrite G2 in G7. cbn [st_class st0 single_step new_step] in G7.
      destruct G7 as [p' [v' [A1 [A2 [A3 _]]]]].
      assert (p' = p) by congruence; subst p'.
      assert (v' = num sol p) by (rewrite G5 in A2; simpl in A2; congruence); subst v'.
      destruct (IH t' (ok_intro _ _ _ W' Ew' Eh') Cl') as [st [u [F1 [F2 [F3 [F4 F5]]]]]].
      match type of F1 with drive ?G _ = _ => match goal with |- context [drive ?G' t'] => change G' with G end end.
      rewrite F1. cbn [rbind]. exists (st' :: st), u. splits; auto.
      * intros q Cq. rewrite F3, A3 by auto. cbn [existsb].
        destruct (coord_eqb q p) eqn:Eq; cbn [orb]; auto.
        apply coord_eqb_eq in Eq; subst q. destruct (existsb (coord_eqb p) l); auto.
      * split; [discriminate|]. intros X. exfalso; apply E, X; left; auto.
      * intros x [<-|Hx]; auto.
Qed.

(** Either there is no solution and nothing happens, or a solution [f] is written. *)
Lemma brute_drive : forall s, ok_sudoku w h s ->
  ((forall f, ~ solution s f) /\ drive (bruteforce_find o s) s = Ok ([], s)) \/
  (exists f st s', solution s f /\ drive (bruteforce_find o s) s = Ok (st, s') /\ ok_sudoku w h s' /\
     (forall p, cell w h p -> num s' p = f p) /\
     (st = [] <-> forall p, cell w h p -> num s p = f p) /\
     (forall x, In x st -> st_class x = Bruteforce) /\
     ((forall p, cell w h p -> In (f p) (cand s p)) ->
        SInv w h (eq f) s' /\ chain (link w h (eq f) Bruteforce) s st s')).
Proof.
  intros s O. pose proof O as [W [Ew Eh]].
  destruct (bruteforce_cases o s Ho W) as [[H1 H2]|[sol [Ws [Bs [Ss E]]]]].
  - left; split; auto. rewrite H2. reflexivity.
  - right. unfold box_size in Bs. injection Bs as B1 B2.
    assert (Osol : ok_sudoku w h sol) by (apply ok_intro; auto; congruence).
    assert (Cc : forall p, In p (coords s) <-> cell w h p).
    { intros p. rewrite in_coords. unfold field; rewrite Ew, Eh; reflexivity. }
    destruct (brute_aux sol Osol (coords s) s O) as [st [u [F1 [F2 [F3 [F4 F5]]]]]].
    { intros p Hp; apply Cc; auto. }
    exists (num sol), st, u. split; auto. split; [rewrite E; exact F1|]. splits; auto.
    + intros p Cp. rewrite F3 by auto. rewrite existsb_coords; auto. apply in_coords, Cc; auto.
    + rewrite F4. split; intros X p Hp; apply X; apply Cc; auto.
    + intros Hc.
      assert (S : SInv w h (eq (num sol)) s).
      { apply one_SInv; auto; [rewrite <- Ew, <- Eh; apply Ss|].
        intros p Cp. apply Ss. unfold field; rewrite Ew, Eh; auto. }
      assert (FV : forall g, eq (num sol) g -> valid_grid w h g).
      { intros g <-. rewrite <- Ew, <- Eh; apply Ss. }
      destruct (drive_safe w h (eq (num sol)) FV Bruteforce (bruteforce_find o s) s (fun t r => r = t /\ SInv w h (eq (num sol)) t) S)
        as [l' [u' [G1 [G2 G3]]]].
      { rewrite E. apply bruteforce_safe; auto; [apply Osol|apply Osol|]. intros g p <- _; auto. }
      rewrite E in G1. unfold diff in G1.
      assert (X : Ok (l', u') = Ok (st, u)) by (rewrite <- G1; exact F1).
      injection X as -> ->. auto.
Qed.

(** * Deductive classes *)
Definition deductive (cls : solver) : Prop :=
  cls <> CalculateCandidates /\ cls <> Bruteforce /\ cls <> BasicFish 0.

Definition DED : list solver :=
  [ NakedSingle; HiddenSingle;
    NakedTuple 2; HiddenTuple 2; NakedTuple 3; HiddenTuple 3;
    NakedTuple 4; HiddenTuple 4; NakedTuple 5; HiddenTuple 5;
    PointingTuple 2; PointingTuple 3;
    BasicFish 2; BasicFish 3; BasicFish 4 ].

Lemma SOLVERS_eq : SOLVERS = CalculateCandidates :: DED ++ [Bruteforce].
Proof. reflexivity. Qed.

Lemma DED_deductive : forall cls, In cls DED -> deductive cls.
Proof.
  intros cls H. unfold deductive. simpl in H.
  repeat (destruct H as [<-|H]; [splits; discriminate|]). destruct H.
Qed.

Section F.
Variable F : grid -> Prop.
Hypothesis FV : forall g, F g -> valid_grid w h g.

Lemma ded_drive : forall cls s, deductive cls -> SInv w h F s ->
  exists l s', drive (MSolvers.find o cls s) s = Ok (l, s') /\ SInv w h F s' /\ chain (link w h F cls) s l s'.
Proof.
  intros cls s [D1 [D2 D3]] S. eapply drive_safe; eauto. apply find_safe; auto.
Qed.

Lemma ded_round : forall rest l s, (forall cls, In cls l -> deductive cls) -> SInv w h F s ->
  (exists cls st s', In cls l /\ st <> [] /\ solve_round o (l ++ rest) s = Ok (st, s') /\
      SInv w h F s' /\ chain (link w h F cls) s st s') \/
  solve_round o (l ++ rest) s = solve_round o rest s.
Proof.
  intros rest l; induction l as [|cls l IH]; intros s D S; [right; reflexivity|].
  destruct (ded_drive cls s (D cls (or_introl eq_refl)) S) as [st [s' [E [S' C]]]].
  cbn [app solve_round]. rewrite E. cbn [rbind]. destruct st as [|x st].
  - inv C. destruct (IH s') as [[cls' [st [u [H1 H2]]]]|H]; auto.
    + intros; apply D; right; auto.
    + left. exists cls', st, u. split; [right; auto|auto].
  - left. exists cls, (x :: st), s'. splits; auto; [left; auto|discriminate].
Qed.

(** * One round of solve() *)
Inductive round_result (s : sudoku) : list step -> sudoku -> Prop :=
| rr_calc : forall st s', st <> [] -> SInv w h F s' -> chain (link w h F CalculateCandidates) s st s' ->
    (forall p, cell w h p -> num s' p = num s p) ->
    (forall p, cell w h p -> cand s' p = match cand s p with [] => pcalc s p | c => c end) ->
    ~ (forall p, cell w h p -> cand s p <> []) ->
    round_result s st s'
| rr_ded : forall cls st s', In cls DED -> st <> [] ->
    (forall p, cell w h p -> cand s p <> []) -> SInv w h F s ->
    SInv w h F s' -> chain (link w h F cls) s st s' -> round_result s st s'
| rr_brute : forall f st s', st <> [] ->
    (forall p, cell w h p -> cand s p <> []) -> SInv w h F s ->
    solution s f -> ok_sudoku w h s' ->
    (forall p, cell w h p -> num s' p = f p) ->
    (forall x, In x st -> st_class x = Bruteforce) ->
    ((forall p, cell w h p -> In (f p) (cand s p)) ->
        SInv w h (eq f) s' /\ chain (link w h (eq f) Bruteforce) s st s') ->
    round_result s st s'
| rr_end : (forall p, cell w h p -> cand s p <> []) -> SInv w h F s ->
    ((forall f, ~ solution s f) \/ exists f, solution s f /\ forall p, cell w h p -> num s p = f p) ->
    round_result s [] s.

Lemma round_ok : forall s, WInv w h F s ->
  exists st s', solve_round o SOLVERS s = Ok (st, s') /\ round_result s st s'.
Proof.
  intros s Wi. rewrite SOLVERS_eq.
  destruct (calculate_drive w h F FV s Wi) as [st [s' [E [S' [C [Hn [Hc Hemp]]]]]]].
  cbn [solve_round]. change (MSolvers.find o CalculateCandidates s) with (calculate_find s).
  rewrite E. cbn [rbind]. destruct st as [|x st].
  - inv C. assert (He : forall p, cell w h p -> cand s' p <> []) by (apply Hemp; auto).
    destruct (ded_round [Bruteforce] DED s' DED_deductive S') as [[cls [st [u [H1 [H2 [H3 [H4 H5]]]]]]]|H].
    + exists st, u. split; auto. eapply rr_ded; eauto.
    + rewrite H. cbn [solve_round].
      change (MSolvers.find o Bruteforce s') with (bruteforce_find o s').
      destruct (brute_drive s' (SInv_ok _ _ _ _ S')) as [[B1 B2]|[f [st [u [B1 [B2 [B3 [B4 [B5 [B6 B7]]]]]]]]]].
      * rewrite B2. cbn [rbind]. exists [], s'; split; auto. apply rr_end; auto.
      * rewrite B2. cbn [rbind]. destruct st as [|y st].
        -- exists [], u; split; auto. pose proof (proj1 B5 eq_refl) as X.
           assert (u = s').
           { destruct (brute_drive s' (SInv_ok _ _ _ _ S')) as [[D1 D2]|_]; [congruence|].
             clear -B2. destruct (bruteforce_find o s') as [r|a k|e]; cbn [drive] in B2.
             - congruence.
             - destruct (apply a s') as [[a' s2]|]; [|discriminate]. cbn [rbind] in B2.
               destruct (drive (k s2) s2) as [[l' s3]|]; [|discriminate]. cbn [rbind] in B2. discriminate.
             - discriminate. }
           subst u. apply rr_end; auto. right; exists f; auto.
        -- exists (y :: st), u; split; auto. eapply rr_brute; eauto. discriminate.
  - exists (x :: st), s'. split; auto. eapply rr_calc; eauto; try discriminate.
    intros X. apply Hemp in X; discriminate.
Qed.
End F.

Lemma chain_class : forall (F : grid -> Prop) cls s l t, chain (link w h F cls) s l t ->
  forall x, In x l -> st_class x = cls.
Proof.
  intros F cls s l t C. apply (chain_forall (link w h F cls) (fun x => st_class x = cls) s l t); auto.
  intros a b c L; apply L.
Qed.

(** * Monotone numbers *)
Definition some_link (F : grid -> Prop) (s : sudoku) (st : step) (t : sudoku) : Prop :=
  exists cls, cls <> Bruteforce /\ link w h F cls s st t.

Lemma some_chain : forall F cls s l t, cls <> Bruteforce -> chain (link w h F cls) s l t ->
  chain (some_link F) s l t.
Proof. intros F cls s l t N. apply chain_impl. intros a b c H. exists cls; auto. Qed.

Lemma chain_num : forall F s l t, chain (some_link F) s l t ->
  forall p, cell w h p -> num s p <> 0 -> num t p = num s p.
Proof.
  intros F s l t C; induction C as [s|s st t l u [cls [N L]] C IH]; intros p Cp Np; auto.
  pose proof (link_num w h F cls s st t N L p Cp Np) as E. rewrite IH; auto. congruence.
Qed.

Lemma chain_wi : forall F s l t, chain (some_link F) s l t -> WInv w h F s -> WInv w h F t.
Proof.
  intros F s l t C; induction C as [s|s st t l u [cls [N L]] C IH]; intros Wi; auto.
  apply IH. apply L.
Qed.

Lemma chain_replay : forall F s l t, chain (some_link F) s l t -> replay s l = Ok t.
Proof.
  intros F s l t C; induction C as [s|s st t l u [cls [N L]] C IH]; unfold replay; cbn [foldM]; auto.
  destruct L as [_ [_ [_ [_ [_ [_ [_ [_ L]]]]]]]]. rewrite L. exact IH.
Qed.

Lemma chain_solutions : forall F s l t, (forall f, F f <-> solution s f) -> ok_sudoku w h s ->
  WInv w h F s -> chain (some_link F) s l t -> forall f, solution t f <-> solution s f.
Proof.
  intros F s l t HF O Wi C f. pose proof (chain_wi F s l t C Wi) as Wt.
  pose proof O as [W [Ew Eh]]. pose proof (WInv_ok _ _ _ _ Wt) as [Wt' [Ew' Eh']]. split.
  - intros [V E]. split; [rewrite Ew, Eh, <- Ew', <- Eh'; auto|].
    intros p Fp. unfold field in Fp; rewrite Ew, Eh in Fp.
    destruct (Z.eq_dec (num s p) 0) as [Z0|Z0]; auto. right.
    rewrite <- (chain_num F s l t C p Fp Z0).
    destruct (E p) as [X|X]; auto; [unfold field; rewrite Ew', Eh'; auto|].
    exfalso; apply Z0. rewrite <- (chain_num F s l t C p Fp Z0); auto.
  - intros Hs. split; [rewrite Ew', Eh', <- Ew, <- Eh; apply Hs|].
    intros p Fp. unfold field in Fp; rewrite Ew', Eh' in Fp.
    apply (wi_num _ _ _ _ Wt); auto. apply HF; auto.
Qed.

(** * Rounds *)
Lemma rounds_ok : forall (F : grid -> Prop) k s, (forall g, F g -> valid_grid w h g) -> WInv w h F s ->
  exists l t, rounds k o s = Ok (l, t) /\ ok_sudoku w h t /\
   (((forall st, In st l -> st_class st <> Bruteforce) /\ WInv w h F t /\ chain (some_link F) s l t) \/
    (exists l1 b l2 t1, l = l1 ++ b :: l2 /\ st_class b = Bruteforce /\ chain (some_link F) s l1 t1)).
Proof.
  intros F k s FV Wi. induction k as [|k IH]; cbn [rounds].
  - exists [], s. split; auto. split; [apply (WInv_ok _ _ _ _ Wi)|]. left. split; [intros st []|]. split; auto. constructor.
  - destruct IH as [l [t [E [O D]]]]. rewrite E. cbn [rbind].
    destruct D as [[D1 [D2 D3]]|[l1 [b [l2 [t1 [D1 [D2 D3]]]]]]].
    + destruct (round_ok F FV t D2) as [st [u [E2 R]]]. rewrite E2. cbn [rbind].
      exists (l ++ st), u. split; auto.
      inversion R as [st' u' Ns Su C Hn Hc Hx | cls st' u' Hin Ns Hc St Su C
                     | f st' u' Ns Hc St Sol Ou Hn Hb C | Hc St Hd]; subst.
      * split; [apply (SInv_ok _ _ _ _ Su)|]. left. splits.
        -- intros x Hx'. apply in_app_iff in Hx'. destruct Hx' as [Hx'|Hx']; auto.
           rewrite (chain_class _ _ _ _ _ C x Hx'). discriminate.
        -- apply SInv_WInv; auto.
        -- eapply chain_app; eauto. eapply some_chain; eauto. discriminate.
      * split; [apply (SInv_ok _ _ _ _ Su)|]. left.
        destruct (DED_deductive cls Hin) as [_ [Nb _]]. splits.
        -- intros x Hx'. apply in_app_iff in Hx'. destruct Hx' as [Hx'|Hx']; auto.
           rewrite (chain_class _ _ _ _ _ C x Hx'). auto.
        -- apply SInv_WInv; auto.
        -- eapply chain_app; eauto. eapply some_chain; eauto.
      * split; auto. right. destruct st as [|b st]; [congruence|].
        exists l, b, st, t. splits; auto. apply Hb; left; auto.
      * split; auto. left. rewrite app_nil_r. auto.
    + destruct (round_ok none (none_valid w h) t (none_WInv _ _ _ O)) as [st [u [E2 R]]].
      rewrite E2. cbn [rbind]. exists (l ++ st), u. split; auto. split.
      * inversion R; subst; try (eapply SInv_ok; eauto; fail); auto.
      * right. exists l1, b, (l2 ++ st), t1. splits; auto. rewrite D1, <- app_assoc. reflexivity.
Qed.

(** * Solvable sudokus *)
Record Good (t : sudoku) : Prop := {
  gd_inv : SInv w h (solution t) t;
  gd_sol : exists f, solution t f
}.

Lemma gd_valid : forall t g, ok_sudoku w h t -> solution t g -> valid_grid w h g.
Proof. intros t g [W [<- <-]] [V _]; auto. Qed.

Lemma gd_ne : forall t p, Good t -> cell w h p -> cand t p <> [].
Proof.
  intros t p [S [f Hf]] Cp X. pose proof (si_cand _ _ _ _ S f p Hf Cp) as Y. rewrite X in Y; destruct Y.
Qed.

Lemma good_size : forall t, Good t -> (Z.to_nat (w * h) * Z.to_nat (w * h) <= measure w h t)%nat.
Proof.
  intros t G. unfold measure.
  assert (E : (Z.to_nat (w * h) * Z.to_nat (w * h))%nat =
     list_sum (map (fun _ : coord => 1%nat) (list_prod (py_range (w * h)) (py_range (w * h))))).
  { assert (L : forall l : list coord, list_sum (map (fun _ => 1%nat) l) = length l).
    { induction l; simpl; auto. }
    rewrite L. unfold coord. rewrite prod_length, !length_py_range. reflexivity. }
  rewrite E. apply list_sum_le. intros p Hp. apply in_cells in Hp.
  unfold weight. pose proof (gd_ne t p G Hp). destruct (cand t p); [congruence|]. simpl; lia.
Qed.

Lemma chain_measure : forall (F : grid -> Prop) cls g s l t, (forall g, F g -> valid_grid w h g) ->
  cls <> CalculateCandidates -> F g -> SInv w h F s ->
  chain (link w h F cls) s l t -> (length l + measure w h t <= measure w h s)%nat.
Proof.
  intros F cls g s l t FV N Hg S C; revert S; induction C as [s|s st t l u L C IH]; intros S; simpl; auto.
  pose proof (link_measure w h F FV cls s st t g N Hg S L) as M.
  assert (S' : SInv w h F t).
  { destruct L as [L1 [L2 [L3 [L4 [L5 [L6 [L7 [L8 L9]]]]]]]]. eapply effect_SInv; eauto. }
  specialize (IH S'). lia.
Qed.

Lemma chain_writes : forall F cls s l t, chain (link w h F cls) s l t ->
  (forall st, In st l -> writes (st_class st) = false) -> forall p, cell w h p -> num t p = num s p.
Proof.
  intros F cls s l t C; induction C as [s|s st t l u L C IH]; intros H p Cp; auto.
  rewrite IH; auto; [|intros; apply H; right; auto].
  eapply link_num_eq; eauto. pose proof L as [_ [_ [<- _]]]. apply H; left; auto.
Qed.

Lemma good_ded : forall cls s l t, Good s -> cls <> Bruteforce ->
  SInv w h (solution s) t -> chain (link w h (solution s) cls) s l t ->
  Good t /\ (forall f, solution t f -> solution s f).
Proof.
  intros cls s l t [S [f Hf]] N St C.
  pose proof (chain_solutions (solution s) s l t (fun f => iff_refl _) (SInv_ok _ _ _ _ S)
     (SInv_WInv _ _ _ _ S) (some_chain _ _ _ _ _ N C)) as E.
  split; [|apply E]. constructor.
  - eapply SInv_anti; [|exact St]. apply E.
  - exists f. apply E; auto.
Qed.

Lemma good_brute : forall f s t, SInv w h (eq f) t -> ok_sudoku w h s -> solution s f ->
  (forall p, cell w h p -> num t p = f p) ->
  Good t /\ solution t f /\ (forall g, solution t g -> solution s g).
Proof.
  intros f s t S O Hf E. pose proof O as [W [Ew Eh]]. pose proof (SInv_ok _ _ _ _ S) as [Wt [Ew' Eh']].
  assert (V : valid_grid w h f) by (rewrite <- Ew, <- Eh; apply Hf).
  assert (St : solution t f).
  { split; [rewrite Ew', Eh'; auto|]. intros p Fp. right. apply E. unfold field in Fp; rewrite Ew', Eh' in Fp; auto. }
  assert (Un : forall g p, solution t g -> cell w h p -> g p = f p).
  { intros g p [_ Hg] Cp. destruct (Hg p) as [X|X]; [unfold field; rewrite Ew', Eh'; auto| |].
    - rewrite E in X by auto. pose proof (proj1 V p Cp). lia.
    - rewrite <- X; auto. }
  splits; auto.
  - constructor; [|exists f; auto]. constructor; auto.
    + intros g p Hg Cp. right. rewrite E by auto. symmetry; auto.
    + intros g p Hg Cp. rewrite (Un g p Hg Cp). apply (si_cand _ _ _ _ S); auto.
  - intros g Hg. split; [rewrite Ew, Eh, <- Ew', <- Eh'; apply Hg|].
    intros p Fp. pose proof Fp as Cp; unfold field in Cp; rewrite Ew, Eh in Cp.
    rewrite (Un g p Hg Cp). apply Hf; auto.
Qed.

Lemma loop_ok : forall n t, Good t -> (measure w h t <= n)%nat ->
  exists l u, (forall fuel, (n < fuel)%nat -> solve_loop fuel o t = Ok (l, u)) /\
   Good u /\ solution t (num u) /\ (length l + measure w h u <= measure w h t)%nat /\
   (forall st, In st l -> In (st_class st) SOLVERS /\ st_class st <> CalculateCandidates) /\
   ((forall st, In st l -> writes (st_class st) = false) -> forall p, cell w h p -> num u p = num t p).
Proof.
  induction n as [n IH] using lt_wf_ind. intros t G Hn. pose proof G as [S [f0 Hf0]].
  pose proof (SInv_ok _ _ _ _ S) as O. pose proof O as [W [Ew Eh]].
  assert (FV : forall g, solution t g -> valid_grid w h g) by (intros; eapply gd_valid; eauto).
  destruct (round_ok (solution t) FV t (SInv_WInv _ _ _ _ S)) as [st [u [E2 R]]].
  assert (Step : forall cls, st <> [] -> cls <> CalculateCandidates -> In cls SOLVERS -> Good u ->
     (forall f, solution u f -> solution t f) -> (length st + measure w h u <= measure w h t)%nat ->
     (forall x, In x st -> st_class x = cls) ->
     ((forall st0, In st0 st -> writes (st_class st0) = false) -> forall p, cell w h p -> num u p = num t p) ->
     exists l u, (forall fuel, (n < fuel)%nat -> solve_loop fuel o t = Ok (l, u)) /\
       Good u /\ solution t (num u) /\ (length l + measure w h u <= measure w h t)%nat /\
       (forall st, In st l -> In (st_class st) SOLVERS /\ st_class st <> CalculateCandidates) /\
       ((forall st, In st l -> writes (st_class st) = false) -> forall p, cell w h p -> num u p = num t p)).
  { intros cls Ns Nc Hin Gu Hsol M Hcls Hwr.
    assert (L : (1 <= length st)%nat) by (destruct st; [congruence|simpl; lia]).
    destruct (IH (measure w h u)) with (t := u) as [l [v [A1 [A2 [A3 [A4 [A5 A6]]]]]]]; auto; [lia|].
    exists (st ++ l), v. splits; auto.
    - intros fuel Hf. destruct fuel as [|fuel]; [lia|]. cbn [solve_loop]. rewrite E2. cbn [rbind].
      destruct st as [|x st]; [congruence|]. rewrite A1 by lia. reflexivity.
    - rewrite app_length. lia.
    - intros x Hx. apply in_app_iff in Hx. destruct Hx as [Hx|Hx]; auto. rewrite (Hcls x Hx). auto.
    - intros H p Cp. rewrite A6; auto; [apply Hwr; auto|]; intros x Hx; apply H, in_app_iff; auto. }
  inversion R as [st' u' Ns Su C Hn' Hc Hx | cls st' u' Hin Ns Hc St Su C
                     | f st' u' Ns Hc St Sol Ou Hn' Hb C | Hc St Hd]; subst.
  - exfalso. apply Hx. intros p Cp. apply gd_ne; auto.
  - destruct (DED_deductive cls Hin) as [N1 [N2 _]].
    destruct (good_ded cls t st u G N2 Su C) as [Gu Hsol].
    apply (Step cls); auto.
    + rewrite SOLVERS_eq. right. apply in_app_iff; auto.
    + eapply chain_measure; eauto.
    + apply (chain_class _ _ _ _ _ C).
    + eapply chain_writes; eauto.
  - destruct C as [Su C]. { intros p Cp. apply (si_cand _ _ _ _ S); auto. }
    destruct (good_brute f t u Su O Sol Hn') as [Gu [_ Hsol]].
    apply (Step Bruteforce); auto.
    + discriminate.
    + rewrite SOLVERS_eq. right. apply in_app_iff; right; left; auto.
    + eapply chain_measure with (F := eq f) (g := f); eauto.
      * intros g <-. apply FV; auto.
      * discriminate.
      * eapply SInv_anti; [|exact S]. intros g <-; auto.
    + eapply chain_writes; eauto.
  - exists [], u. splits; auto.
    + intros fuel Hf. destruct fuel as [|fuel]; [lia|]. cbn [solve_loop]. rewrite E2. reflexivity.
    + destruct Hd as [Hd|[f [Hd1 Hd2]]]; [exfalso; eapply Hd; eauto|].
      assert (V : valid_grid w h f) by auto. split; [rewrite Ew, Eh; split|].
      * intros p Cp. rewrite Hd2 by auto. apply V; auto.
      * intros p q Cp Cq P. rewrite !Hd2 by auto. apply V; auto.
      * intros p Fp; auto.
    + intros x [].
Qed.

(** * The start of solve() *)
Lemma solve_start : forall s, ok_sudoku w h s ->
  exists s0, ((let* c := copy s false in init_candidates c true) = Ok s0 /\
    forall fuel, solve fuel o s = solve_loop fuel o s0) /\ ok_sudoku w h s0 /\
    (forall p, cell w h p -> num s0 p = num s p) /\
    (forall p, cell w h p -> cand s0 p = if num s p =? 0 then [] else [num s p]) /\
    WInv w h (solution s) s0.
Proof.
  intros s [W [Ew Eh]].
  destruct (copy_ok s false W) as [c [E1 [W1 [Ew1 [Eh1 [N1 C1]]]]]].
  destruct (init_candidates_ok c true W1) as [s0 [E2 [W2 [Ew2 [Eh2 [N2 C2]]]]]].
  assert (F1 : forall p, cell w h p -> field s p) by (intros; unfold field; rewrite Ew, Eh; auto).
  assert (F2 : forall p, cell w h p -> field c p) by (intros; unfold field; rewrite Ew1, Eh1, Ew, Eh; auto).
  assert (Hn : forall p, cell w h p -> num s0 p = num s p) by (intros; rewrite N2, N1; auto).
  assert (Hc : forall p, cell w h p -> cand s0 p = if num s p =? 0 then [] else [num s p]).
  { intros p Cp. rewrite C2 by auto. cbn [andb]. rewrite N1 by auto.
    destruct (num s p =? 0) eqn:E; [apply C1; auto|].
    unfold pcalc. rewrite N1 by auto. rewrite E. reflexivity. }
  exists s0. splits; auto.
  - rewrite E1; auto.
  - intros fuel. unfold solve. rewrite E1. cbn [rbind]. rewrite E2. reflexivity.
  - apply ok_intro; auto; congruence.
  - constructor; auto; try congruence.
    + intros g p Hg Cp. rewrite Hn by auto. apply Hg; auto.
    + intros g p Hg Cp. rewrite Hc by auto. destruct (num s p =? 0) eqn:E; [congruence|]. b2p.
      intros _. left. destruct (proj2 Hg p (F1 p Cp)); congruence.
Qed.

Lemma solutions_eq : forall s t, ok_sudoku w h s -> ok_sudoku w h t ->
  (forall p, cell w h p -> num t p = num s p) -> forall f, solution t f <-> solution s f.
Proof.
  intros s t [W [Ew Eh]] [W' [Ew' Eh']] H f. unfold solution, extends, field. rewrite Ew, Eh, Ew', Eh'.
  split; intros [V X]; split; auto; intros p Cp; specialize (X p Cp); rewrite H in * by auto; auto.
Qed.

Definition N2 : nat := (Z.to_nat (w * h) * Z.to_nat (w * h))%nat.
Definition empties (s : sudoku) : nat := length (filter (fun p => num s p =? 0) (coords s)).

Lemma pcalc_length : forall s p, ok_sudoku w h s -> cell w h p ->
  (length (pcalc s p) <= if Z.eqb (num s p) 0 then Z.to_nat (w * h) else 1)%nat.
Proof.
  intros s p [W [Ew Eh]] Cp. unfold pcalc. destruct (num s p =? 0); [|simpl; lia].
  etransitivity; [apply filter_length_le|]. unfold numbers. rewrite length_py_range2. rewrite Ew, Eh.
  replace (w * h + 1 - 1) with (w * h) by lia. lia.
Qed.

(** The measure after the candidates have been calculated. *)
Lemma start_measure : forall s t, ok_sudoku w h s ->
  (forall p, cell w h p -> num t p = num s p) ->
  (forall p, cell w h p -> (length (cand t p) <= if Z.eqb (num s p) 0 then Z.to_nat (w * h) else 1)%nat) ->
  (measure w h t <= N2 + Z.to_nat (w * h) * empties s)%nat.
Proof.
  intros s t [W [Ew Eh]] H1 H2.
  assert (Ec : list_prod (py_range (w * h)) (py_range (w * h)) = coords s).
  { unfold coords, indices. rewrite Ew, Eh. reflexivity. }
  unfold measure, empties. rewrite Ec.
  assert (L : N2 = length (coords s)).
  { unfold N2. rewrite <- Ec. unfold coord. rewrite prod_length, !length_py_range. reflexivity. }
  rewrite L.
  assert (G : forall l, (forall p, In p l -> cell w h p) ->
    (list_sum (map (weight t) l) <= length l + Z.to_nat (w * h) * length (filter (fun p => Z.eqb (num s p) 0) l))%nat).
  { induction l as [|p l IH]; intros Hl; [simpl; lia|].
    pose proof (Hl p (or_introl eq_refl)) as Cp. specialize (IH (fun q Hq => Hl q (or_intror Hq))).
    change (list_sum (map (weight t) (p :: l))) with (weight t p + list_sum (map (weight t) l))%nat.
    cbn [filter length]. specialize (H2 p Cp). unfold weight at 1. rewrite H1 by auto.
    destruct (num s p =? 0); cbn [length]; lia. }
  apply G. intros p Hp. rewrite <- Ec in Hp. apply in_cells in Hp; auto.
Qed.

Definition bound (s : sudoku) : nat := (N2 + Z.to_nat (w * h) * empties s + 2)%nat.

Lemma solve_ok : forall s, ok_sudoku w h s -> (exists f, solution s f) ->
  exists lc l u, (forall fuel, (bound s <= fuel)%nat -> solve fuel o s = Ok (lc ++ l, u)) /\
   ok_sudoku w h u /\ solution s (num u) /\
   (forall st, In st lc -> st_class st = CalculateCandidates) /\
   (forall st, In st l -> In (st_class st) SOLVERS /\ st_class st <> CalculateCandidates) /\
   (length l <= Z.to_nat (w * h) * empties s)%nat /\
   ((forall st, In st l -> writes (st_class st) = false) -> forall p, cell w h p -> num s p = num u p) /\
   ((forall p, cell w h p -> num s p <> 0) -> lc ++ l = []).
Proof.
  intros s O [f0 Hf0]. pose proof O as [W [Ew Eh]].
  destruct (solve_start s O) as [s0 [[_ E0] [O0 [N0 [C0 W0]]]]].
  pose proof (solutions_eq s s0 O O0 N0) as Sol0.
  assert (FV : forall g, solution s g -> valid_grid w h g) by (intros g Hg; exact (gd_valid s g O Hg)).
  assert (E00 : empties s0 = empties s).
  { unfold empties. replace (coords s0) with (coords s).
    2:{ unfold coords, indices. destruct O0 as [_ [-> ->]]. rewrite Ew, Eh; auto. }
    apply (f_equal (@length _)). apply filter_ext_in. intros p Hp. apply in_coords in Hp.
    unfold field in Hp; rewrite Ew, Eh in Hp. rewrite N0; auto. }
  destruct (calculate_drive w h (solution s) FV s0 W0) as [st [s1 [E [S1 [C [Hn [Hc Hemp]]]]]]].
  pose proof (SInv_ok _ _ _ _ S1) as O1.
  assert (Sol1 : forall f, solution s1 f <-> solution s f).
  { intros f. rewrite <- Sol0. apply solutions_eq; auto. }
  assert (G1 : Good s1).
  { constructor; [|exists f0; apply Sol1; auto]. eapply SInv_anti; [|exact S1]. intros g Hg; apply Sol1; auto. }
  assert (M1 : (measure w h s1 <= N2 + Z.to_nat (w * h) * empties s)%nat).
  { rewrite <- E00. apply start_measure; auto.
    intros p Cp. rewrite Hc by auto. rewrite C0 by auto. rewrite <- (N0 p Cp).
    destruct (num s0 p =? 0) eqn:Z0; [|simpl; lia].
    pose proof (pcalc_length s0 p O0 Cp) as X. rewrite Z0 in X; auto. }
  destruct (loop_ok _ s1 G1 M1) as [l [u [A1 [A2 [A3 [A4 [A5 A6]]]]]]].
  pose proof (good_size u A2) as M2. fold N2 in M2.
  assert (Done : (forall p, cell w h p -> num s p <> 0) -> st ++ l = []).
  { intros X. assert (st = []).
    { apply Hemp. intros p Cp. rewrite C0 by auto. specialize (X p Cp). destruct (num s p =? 0) eqn:Z0; b2p; [lia|discriminate]. }
    subst st. simpl. destruct l; auto. exfalso.
    assert (empties s = 0)%nat.
    { unfold empties. replace (filter (fun p => num s p =? 0) (coords s)) with (@nil coord); auto.
      symmetry. apply filter_nothing. intros p Hp. apply in_coords in Hp. unfold field in Hp; rewrite Ew, Eh in Hp.
      specialize (X p Hp). apply Z.eqb_neq; auto. }
    simpl in A4. lia. }
  exists st, l, u. splits; auto.
  - intros fuel Hf. rewrite E0. unfold bound in Hf. destruct st as [|x st].
    + inv C. apply A1. lia.
    + destruct fuel as [|fuel]; [lia|]. cbn [solve_loop]. rewrite SOLVERS_eq. cbn [solve_round].
      change (MSolvers.find o CalculateCandidates s0) with (calculate_find s0). rewrite E. cbn [rbind].
      rewrite A1 by lia. reflexivity.
  - apply (SInv_ok _ _ _ _ (gd_inv _ A2)).
  - apply Sol1; auto.
  - apply (chain_class _ _ _ _ _ C).
  - unfold N2 in *. lia.
  - intros X p Cp. rewrite A6, Hn, N0; auto.
Qed.

(** * Divergence *)
Lemma solve_diverges : forall s, ok_sudoku w h s ->
  (exists p, cell w h p /\ num s p = 0 /\
     forall v, 1 <= v <= w * h -> exists q, cell w h q /\ peers w h p q /\ num s q = v) ->
  forall fuel, solve fuel o s = Err OutOfFuel.
Proof.
  intros s O [p0 [C0 [Z0 H0]]] fuel.
  destruct (solve_start s O) as [s0 [[_ E0] [O0 [N0 [D0 W0]]]]]. rewrite E0.
  assert (P0 : forall t, ok_sudoku w h t -> (forall p, cell w h p -> num t p = num s p) -> pcalc t p0 = []).
  { intros t [Wt [Ewt Eht]] Ht. destruct (pcalc t p0) as [|v vs] eqn:E; auto. exfalso.
    assert (X : In v (pcalc t p0)) by (rewrite E; left; auto).
    apply in_pcalc_empty in X; auto.
    - destruct X as [X1 X2]. unfold NN in X1. rewrite Ewt, Eht in X1, X2. destruct (H0 v X1) as [q [Q1 [Q2 Q3]]].
      eapply X2; eauto. unfold field; rewrite Ewt, Eht; auto. rewrite Ht; auto.
    - unfold field; rewrite Ewt, Eht; auto.
    - rewrite Ht; auto. }
  assert (G : forall fuel t, ok_sudoku w h t -> (forall p, cell w h p -> num t p = num s p) ->
     cand t p0 = [] -> solve_loop fuel o t = Err OutOfFuel).
  { clear fuel. induction fuel as [|fuel IH]; intros t Ot Ht Hc; [reflexivity|].
    cbn [solve_loop]. rewrite SOLVERS_eq. cbn [solve_round].
    change (MSolvers.find o CalculateCandidates t) with (calculate_find t).
    destruct (calculate_drive w h none (none_valid w h) t (none_WInv _ _ _ Ot))
      as [st [t' [E [S' [C [Hn [Hcc Hemp]]]]]]].
    rewrite E. cbn [rbind]. destruct st as [|x st].
    - exfalso. apply (proj1 Hemp eq_refl p0); auto.
    - cbn [rbind]. rewrite IH; auto.
      + apply (SInv_ok _ _ _ _ S').
      + intros p Cp. rewrite Hn; auto.
      + rewrite Hcc by auto. rewrite Hc. apply P0; auto. }
  apply G; auto. rewrite D0 by auto. rewrite Z0. reflexivity.
Qed.

(** * apply_all of every class *)
Lemma apply_all_ok : forall s, ok_sudoku w h s -> (exists f, solution s f) ->
  (forall p, cell w h p -> cand s p = []) ->
  exists t, foldM (fun s cls => apply_all o cls s) SOLVERS s = Ok t /\ ok_sudoku w h t /\ solution s (num t).
Proof.
  intros s O [f0 Hf0] Hc. pose proof O as [W [Ew Eh]].
  assert (FV : forall g, solution s g -> valid_grid w h g) by (intros g Hg; exact (gd_valid s g O Hg)).
  assert (W0 : WInv w h (solution s) s).
  { constructor; auto.
    - intros g p Hg Cp. apply Hg. unfold field; rewrite Ew, Eh; auto.
    - intros g p Hg Cp X. rewrite Hc in X by auto. congruence. }
  destruct (calculate_drive w h (solution s) FV s W0) as [st [s1 [E [S1 [C [Hn [Hcc Hemp]]]]]]].
  rewrite SOLVERS_eq. cbn [foldM]. unfold apply_all at 1.
  change (MSolvers.find o CalculateCandidates s) with (calculate_find s). rewrite E. cbn [rbind].
  assert (D : forall l t, (forall cls, In cls l -> deductive cls) -> SInv w h (solution s) t ->
     (forall f, solution t f -> solution s f) ->
     exists u, foldM (fun s cls => apply_all o cls s) (l ++ [Bruteforce]) t = Ok u /\ ok_sudoku w h u /\ solution s (num u)).
  { induction l as [|cls l IH]; intros t Dl St Hs.
    - cbn [app foldM]. unfold apply_all.
      change (MSolvers.find o Bruteforce t) with (bruteforce_find o t).
      pose proof (SInv_ok _ _ _ _ St) as Ot. pose proof Ot as [Wt [Ewt Eht]].
      destruct (brute_drive t Ot) as [[B1 B2]|[f [st' [u [B1 [B2 [B3 [B4 _]]]]]]]].
      + exfalso. apply (B1 f0). apply (WInv_solution w h (solution s) FV); auto. apply SInv_WInv; auto.
      + rewrite B2. cbn [rbind]. exists u. splits; auto. apply Hs.
        assert (V : valid_grid w h f) by (rewrite <- Ewt, <- Eht; apply B1). split.
        * rewrite Ewt, Eht. split.
          -- intros p Cp. rewrite B4 by auto. apply V; auto.
          -- intros p q Cp Cq P. rewrite !B4 by auto. apply V; auto.
        * intros p Fp. rewrite B4 by (unfold field in Fp; rewrite Ewt, Eht in Fp; auto). apply B1; auto.
    - destruct (Dl cls (or_introl eq_refl)) as [D1 [D2 D3]].
      destruct (ded_drive (solution s) FV cls t (Dl cls (or_introl eq_refl)) St) as [l' [t' [E' [S' C']]]].
      cbn [app foldM]. unfold apply_all at 1. rewrite E'. cbn [rbind]. apply IH; auto.
      { intros; apply Dl; right; auto. }
      intros f Hf. apply Hs. pose proof (SInv_ok _ _ _ _ St) as [Wt [Ewt Eht]].
      pose proof (SInv_ok _ _ _ _ S') as [Wt' [Ewt' Eht']].
      split; [rewrite Ewt, Eht, <- Ewt', <- Eht'; apply Hf|].
      intros p Fp. destruct (Z.eq_dec (num t p) 0) as [Zp|Zp]; auto. right.
      assert (Cp : cell w h p) by (unfold field in Fp; rewrite Ewt, Eht in Fp; auto).
      pose proof (chain_num _ _ _ _ (some_chain _ _ _ _ _ D2 C') p Cp Zp) as X.
      destruct (proj2 Hf p) as [Y|Y]; [unfold field; rewrite Ewt', Eht'; auto| |]; congruence. }
  apply D; auto.
  - apply DED_deductive.
  - intros f. apply (proj1 (solutions_eq s s1 O (SInv_ok _ _ _ _ S1) Hn f)).
Qed.
End Solve.
