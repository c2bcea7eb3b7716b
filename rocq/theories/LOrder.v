(** The order in which Python iterates over sets (the oracle) does not decide what solve(), hints() and
    rate() find for a sudoku that has a solution. *)
From Verif Require Export SpecOrder LSolvers4.

Local Opaque MSudoku.surrounding_of.

(** * Generators that do the same *)
Section Same.
Context {A : Type}.
Variable I : sudoku -> Prop.

(** [gsame P g g' cur]: [g] and [g'], running while the sudoku is [cur], yield and raise the same, whatever the
    consumer does within [I], and return the same [r] at [t], with [P t r]. *)
Fixpoint gsame {R} (P : sudoku -> R -> Prop) (g g' : gen sudoku A R) (cur : sudoku) : Prop :=
  match g, g' with
  | Ret r, Ret r' => r = r' /\ P cur r
  | Raise e, Raise e' => e = e'
  | Yield a k, Yield a' k' => a = a' /\ forall s', I s' -> gsame P (k s') (k' s') s'
  | _, _ => False
  end.

Lemma gsame_bind : forall {R R'} (P1 : sudoku -> R -> Prop) (P2 : sudoku -> R' -> Prop) (g g' : gen sudoku A R) f f' cur,
  gsame P1 g g' cur -> (forall t r, P1 t r -> gsame P2 (f r) (f' r) t) -> gsame P2 (gbind g f) (gbind g' f') cur.
Proof.
  intros R R' P1 P2 g; induction g as [r|a k IH|e]; intros [r'|a' k'|e'] f f' cur H Hf; simpl in *; try contradiction; auto.
  - destruct H as [-> H]; auto.
  - destruct H as [-> H]; split; auto.
Qed.

Lemma gsame_lift : forall {R R'} (P : sudoku -> R' -> Prop) (m m' : res R) r (f f' : R -> gen sudoku A R') cur,
  m = Ok r -> m' = Ok r -> gsame P (f r) (f' r) cur -> gsame P (gbind (lift m) f) (gbind (lift m') f') cur.
Proof. intros; subst; auto. Qed.

Lemma gsame_refl : forall {R} Q (P : sudoku -> R -> Prop) (g : gen sudoku A R) cur,
  gsafe I Q P g cur -> gsame P g g cur.
Proof.
  intros R Q P g; induction g as [r|a k IH|e]; intros cur H; simpl in *; auto.
  destruct H as [_ H]; split; auto.
Qed.

Lemma gsame_weaken : forall {R} (P P' : sudoku -> R -> Prop) (g g' : gen sudoku A R) cur,
  gsame P g g' cur -> (forall t r, P t r -> P' t r) -> gsame P' g g' cur.
Proof.
  intros R P P' g; induction g as [r|a k IH|e]; intros [r'|a' k'|e'] cur H HP; simpl in *; try contradiction; auto.
  - destruct H; auto.
  - destruct H as [-> H]; split; auto.
Qed.

Lemma gsame_gfor : forall {S B} (J : S -> sudoku -> Prop) (f f' : S -> B -> gen sudoku A S) l acc cur,
  (forall x acc cur, In x l -> J acc cur -> gsame (fun t acc' => J acc' t) (f acc x) (f' acc x) cur) ->
  J acc cur -> gsame (fun t acc' => J acc' t) (gfor f l acc) (gfor f' l acc) cur.
Proof.
  intros S B J f f' l; induction l as [|x l IH]; intros acc cur H HJ; simpl; auto.
  eapply gsame_bind; [apply H; [left; auto|auto]|].
  intros t r Hr; apply IH; auto. intros; apply H; auto. right; auto.
Qed.
End Same.

Lemma gsame_gforgen : forall {A B R S} I (Qi : sudoku -> B -> Prop)
    (Pi : sudoku -> R -> Prop) (J : sudoku * S -> Prop)
    (body body' : (sudoku * S) -> B -> gen sudoku A (sudoku * S)) (inner : gen sudoku B R) st,
  gsafe I Qi Pi inner (fst st) ->
  (forall st b, J st -> Qi (fst st) b ->
     gsame I (fun t st' => fst st' = t /\ I t /\ J st') (body st b) (body' st b) (fst st)) ->
  I (fst st) -> J st ->
  gsame I (fun t st' => fst st' = t /\ I t /\ J st') (gforgen body inner st) (gforgen body' inner st) (fst st).
Proof.
  intros A B R S I Qi Pi J body body' inner.
  induction inner as [r|b k IH|e]; intros st Hi Hb HI HJ; simpl in *; auto.
  destruct Hi as [H1 H2]. eapply gsame_bind; [apply Hb; auto|].
  intros t st' [E [H3 H4]]; subst t. apply IH; auto.
Qed.

Lemma same_elements : forall (x : Z) l l', Permutation l l' -> (forall y, In y l -> y = x) -> l = l'.
Proof.
  assert (E : forall (x : Z) l, (forall y, In y l -> y = x) -> l = repeat x (length l)).
  { intros x l; induction l as [|a l IH]; intros H; simpl; auto.
    rewrite (H a (or_introl eq_refl)), <- IH; auto. intros; apply H; right; auto. }
  intros x l l' P H. rewrite (E x l H), (E x l').
  - rewrite (Permutation_length P); auto.
  - intros y Hy. apply H. eapply Permutation_in; [symmetry; exact P|exact Hy].
Qed.

Section Order.
Variables w h : Z.
Hypothesis Hw : 1 <= w.
Hypothesis Hh : 1 <= h.
Variables o o' : oracle.
Hypothesis Ho : oracle_ok o.
Hypothesis Ho' : oracle_ok o'.

Section F.
Variable F : grid -> Prop.
Hypothesis FV : forall g, F g -> valid_grid w h g.
Variable f0 : grid.
Hypothesis Hf0 : F f0.
Notation inv := (SInv w h F).

Lemma hidden_single_same : forall s, inv s ->
  gsame inv (fun t r => r = t /\ inv t) (hidden_single_find o s) (hidden_single_find o' s) s.
Proof.
  intros s S. unfold hidden_single_find.
  eapply gsame_bind.
  - apply (gsame_gforgen inv (fun t p => cell w h p /\ num t p = 0) (fun t r => r = t /\ inv t)
           (fun st : sudoku * list coord => inv (fst st))) with (st := (s, [])); auto; [apply empty_safe; auto|].
    intros [cur y] p HJ [Cp Ep]; cbn [fst] in *.
    set (J2 := fun (st : sudoku * list coord * bool) t => fst (fst st) = t /\ inv t).
    eapply gsame_bind.
    + apply (gsame_gfor inv (A := step) J2); [|subst J2; simpl; auto].
      intros f [[s1 y1] found] t Hf [E1 S1]; cbn [fst snd] in *; subst t.
      destruct found; [unfold J2; simpl; auto|].
      destruct (rel_any w h Hw Hh F FV s1 f) as [u [_ Hu]]; auto; [simpl in *; tauto|].
      destruct (unit_func_spec s1 f u (fst p) (snd p) false (si_wf _ _ _ _ S1) Hu) as [others [Eo [_ Hl]]].
      { apply (si_field w h Hw Hh F FV); auto; destruct p; auto. }
      eapply gsame_lift; [exact Eo|exact Eo|].
      destruct (hidden_candidates_ok w h Hw Hh F FV s1 others S1) as [cs [Ec Hcs]].
      { intros q Hq; apply Hl in Hq. apply (si_field w h Hw Hh F FV s1); tauto. }
      eapply gsame_lift; [exact Ec|exact Ec|].
      assert (Eq : o_hidden o s1 p cs = o_hidden o' s1 p cs).
      { apply (same_elements (f0 p)).
        - transitivity cs; [apply Ho|symmetry; apply Ho'].
        - intros v Hv. assert (Hv' : In v cs) by (eapply Permutation_in; [apply Ho|exact Hv]).
          apply Hcs in Hv'. destruct Hv' as [V1 V2]. symmetry.
          eapply (hidden_single_sound w h Hw Hh F FV s1); eauto. }
      rewrite Eq. apply (gsame_gfor inv (A := step) J2); [|unfold J2; simpl; auto].
      intros v [[s2 y2] fd] t Hv [E2 S2]; cbn [fst snd] in *; subst t.
      destruct (list_in coord_eqb p y2); simpl; unfold J2; simpl; auto.
    + intros t [[s1 y1] found] [E1 S1]; cbn [fst snd] in *; subst; simpl; auto.
  - intros t [s1 y1] [E1 [S1 _]]; cbn [fst] in *; subst; simpl; auto.
Qed.

Lemma find_same : forall cls s, cls <> Bruteforce -> cls <> BasicFish 0 -> inv s ->
  gsame inv (fun t r => r = t /\ inv t) (MSolvers.find o cls s) (MSolvers.find o' cls s) s.
Proof.
  intros cls s N1 N2 S. assert (D : cls = HiddenSingle \/ cls <> HiddenSingle) by (destruct cls; auto; right; discriminate). destruct D as [-> | N].
  - apply hidden_single_same; auto.
  - assert (E : MSolvers.find o' cls s = MSolvers.find o cls s) by (destruct cls; auto; congruence).
    rewrite E. eapply gsame_refl. apply find_safe; auto.
Qed.

Lemma drive_same : forall cls g g' s P P', inv s -> gsame inv P' g g' s ->
  gsafe inv (step_good w h F cls) P g s -> drive g s = drive g' s.
Proof.
  intros cls g; induction g as [r|a k IH|e]; intros [r'|a' k'|e'] s P P' S H G; simpl in H; try contradiction; cbn [drive]; auto.
  - destruct H as [-> H]. destruct G as [G1 G2].
    destruct (good_apply w h F FV cls s a' S G1) as [st' [t' [E [S' L]]]]. rewrite E. cbn [rbind].
    erewrite IH; eauto.
Qed.

Lemma ded_drive_same : forall cls s, deductive cls -> inv s ->
  drive (MSolvers.find o cls s) s = drive (MSolvers.find o' cls s) s.
Proof.
  intros cls s [D1 [D2 D3]] S. eapply drive_same; eauto.
  - apply find_same; auto.
  - apply find_safe; auto.
Qed.

Lemma ded_round_same : forall (E : res (list step * sudoku) -> res (list step * sudoku) -> Prop) rest l s, (forall x, E x x) ->
  (forall cls, In cls l -> deductive cls) -> inv s ->
  E (solve_round o rest s) (solve_round o' rest s) ->
  E (solve_round o (l ++ rest) s) (solve_round o' (l ++ rest) s).
Proof.
  intros E rest l s R D S H. revert D. induction l as [|cls l IH]; intros D; auto.
  cbn [app solve_round]. rewrite <- (ded_drive_same cls s); auto; [|apply D; left; auto].
  destruct (ded_drive w h Hw Hh o Ho F FV cls s (D cls (or_introl eq_refl)) S) as [st [s' [E' [S' C]]]].
  rewrite E'. cbn [rbind]. destruct st as [|x st]; auto.
  inv C. apply IH. intros; apply D; right; auto.
Qed.
End F.

(** * Bruteforce *)
Notation write_all sol l s :=
  (do* st := gforgen (fun st rc =>
                   do* v := lift (getitem sol (fst rc) (snd rc)) in
                   do* s := yield (single_step Bruteforce (fst rc) (snd rc) v) in
                   Ret (s, tt))
                (gfor (fun s rc =>
          do* a := lift (getitem s (fst rc) (snd rc)) in
          do* b := lift (getitem sol (fst rc) (snd rc)) in
          if negb (a =? b) then yield rc else Ret s) l s) (s, tt) in
      Ret (fst st)).

Definition agree (f g : grid) : Prop := forall p, cell w h p -> f p = g p.

Lemma ok_get : forall s p, ok_sudoku w h s -> cell w h p -> getitem s (fst p) (snd p) = Ok (num s p).
Proof. intros s [r c] [W [Ew Eh]] C. apply getitem_ok; auto. unfold field; rewrite Ew, Eh; auto. Qed.

Lemma write_apply : forall s p v, ok_sudoku w h s -> cell w h p ->
  exists st' t', apply (single_step Bruteforce (fst p) (snd p) v) s = Ok (st', t') /\ ok_sudoku w h t' /\
    forall q, cell w h q -> num t' q = if coord_eqb q p then v else num s q.
Proof.
  intros s p v O Cp. set (st0 := single_step Bruteforce (fst p) (snd p) v).
  assert (Ea : affected st0 = [p]) by (destruct p; auto).
  assert (Sh : shaped w h st0).
  { split; [rewrite Ea; intros q [<-|[]]; auto|]. simpl. exists p, v. destruct p; auto. }
  destruct (apply_ok w h st0 s O Sh eq_refl) as [st' [t' [G1 [G2 [G3 [G4 [G5 [G6 G7]]]]]]]].
  exists st', t'. split; auto.
  destruct G7 as [W' [Ew' [Eh' G7]]]. rewrite G2 in G7. cbn [st_class st0 single_step new_step] in G7.
  destruct G7 as [p' [v' [A1 [A2 [A3 _]]]]].
  assert (p' = p) by congruence; subst p'.
  assert (v' = v) by (rewrite G5 in A2; simpl in A2; congruence); subst v'.
  split; auto. apply ok_intro; auto.
Qed.

(** What is written depends on the numbers of the solution only. *)
Lemma write_same : forall sol sol', ok_sudoku w h sol -> ok_sudoku w h sol' -> agree (num sol) (num sol') ->
  forall l s, ok_sudoku w h s -> (forall p, In p l -> cell w h p) ->
  drive (write_all sol l s) s = drive (write_all sol' l s) s.
Proof.
  intros sol sol' O1 O2 A. induction l as [|p l IH]; intros s O Cl; auto.
  assert (Cp : cell w h p) by (apply Cl; left; auto).
  assert (Cl' : forall q, In q l -> cell w h q) by (intros; apply Cl; right; auto).
  pose proof (ok_get s p O Cp) as E0. pose proof (ok_get sol p O1 Cp) as E1. pose proof (ok_get sol' p O2 Cp) as E2.
  rewrite <- (A p Cp) in E2.
  cbn [gfor]. rewrite E0. cbn [lift gbind]. rewrite E1, E2. cbn [lift gbind].
  destruct (num s p =? num sol p); cbn [negb gbind yield gforgen].
  - exact (IH s O Cl').
  - rewrite E1, E2. cbn [lift gbind yield fst drive].
    destruct (write_apply s p (num sol p) O Cp) as [st' [t' [G1 [G2 _]]]]. rewrite G1. cbn [rbind].
    specialize (IH t' G2 Cl').
    match type of IH with ?X = ?Y =>
      match goal with |- (let* _ := ?A in _) = (let* _ := ?B in _) => change A with X; change B with Y end end.
    rewrite IH. reflexivity.
Qed.

(** One step for every number that is written. *)
Lemma write_length : forall sol, ok_sudoku w h sol -> forall l s st u, ok_sudoku w h s ->
  (forall p, In p l -> cell w h p) -> NoDup l -> drive (write_all sol l s) s = Ok (st, u) ->
  length st = length (filter (fun p => negb (num s p =? num sol p)) l).
Proof.
  intros sol O1. induction l as [|p l IH]; intros s st u O Cl N H.
  - cbn in H. injection H as <- <-. reflexivity.
  - assert (Cp : cell w h p) by (apply Cl; left; auto).
    assert (Cl' : forall q, In q l -> cell w h q) by (intros; apply Cl; right; auto).
    pose proof (ok_get s p O Cp) as E0. pose proof (ok_get sol p O1 Cp) as E1. inversion N as [|x y N1 N2]; subst.
    cbn [gfor] in H. rewrite E0 in H. cbn [lift gbind] in H. rewrite E1 in H. cbn [lift gbind] in H. cbn [filter].
    destruct (num s p =? num sol p); cbn [negb gbind yield gforgen] in *.
    + exact (IH s st u O Cl' N2 H).
    + rewrite E1 in H. cbn [lift gbind yield fst drive] in H.
      destruct (write_apply s p (num sol p) O Cp) as [st' [t' [G1 [G2 G3]]]]. rewrite G1 in H. cbn [rbind] in H.
      match type of H with (let* _ := ?A in _) = _ => change A with (drive (write_all sol l t') t') in H end.
      destruct (drive (write_all sol l t') t') as [[l' u']|] eqn:E; [|discriminate]. cbn [rbind] in H.
      injection H as <- <-. cbn [length]. rewrite (IH t' l' u' G2 Cl' N2 E). do 2 f_equal.
      apply filter_ext_in. intros q Hq. rewrite G3 by auto.
      destruct (coord_eqb q p) eqn:Eq; auto. apply coord_eqb_eq in Eq; subst; contradiction.
Qed.

Lemma brute_find_cases : forall oo s, oracle_ok oo -> ok_sudoku w h s -> (exists f, solution s f) ->
  exists sol, ok_sudoku w h sol /\ solution s (num sol) /\
    bruteforce_find oo s = write_all sol (coords s) s.
Proof.
  intros oo s Hoo O [f Hf]. pose proof O as [W [Ew Eh]].
  destruct (bruteforce_cases oo s Hoo W) as [[H1 H2]|[sol [Ws [Bs [Ss E]]]]]; [exfalso; eapply H1; eauto|].
  unfold box_size in Bs. injection Bs as B1 B2.
  exists sol. split; [apply ok_intro; auto; congruence|]. split; auto.
Qed.

Lemma coords_cells : forall s, ok_sudoku w h s -> forall p, In p (coords s) <-> cell w h p.
Proof. intros s [W [Ew Eh]] p. rewrite in_coords. unfold field; rewrite Ew, Eh; reflexivity. Qed.

Lemma brute_length : forall oo s st u, oracle_ok oo -> ok_sudoku w h s -> (exists f, solution s f) ->
  drive (bruteforce_find oo s) s = Ok (st, u) ->
  length st = length (filter (fun p => num s p =? 0) (coords s)).
Proof.
  intros oo s st u Hoo O X H. pose proof O as [W [Ew Eh]].
  destruct (brute_find_cases oo s Hoo O X) as [sol [Osol [Hs E]]]. rewrite E in H.
  rewrite (write_length sol Osol (coords s) s st u); auto.
  - f_equal. apply filter_ext_in. intros p Hp. apply (coords_cells s O) in Hp.
    destruct Hs as [V Hs]. rewrite Ew, Eh in V. pose proof (proj1 V p Hp) as B.
    destruct (Hs p) as [Y|Y]; [unfold field; rewrite Ew, Eh; auto| |].
    + rewrite Y. destruct (0 =? num sol p) eqn:Z0; auto. b2p. lia.
    + rewrite Y, Z.eqb_refl. cbn [negb]. symmetry. apply Z.eqb_neq. lia.
  - intros p Hp. apply (coords_cells s O); auto.
  - apply NoDup_coords.
Qed.

Definition uniq (s : sudoku) : Prop := forall f g, solution s f -> solution s g -> agree f g.

Lemma brute_same : forall s, ok_sudoku w h s -> (exists f, solution s f) -> uniq s ->
  drive (bruteforce_find o s) s = drive (bruteforce_find o' s) s.
Proof.
  intros s O X U.
  destruct (brute_find_cases o s Ho O X) as [sol [O1 [H1 E1]]].
  destruct (brute_find_cases o' s Ho' O X) as [sol' [O2 [H2 E2]]].
  rewrite E1, E2. apply write_same; auto. intros p Hp. apply (coords_cells s O); auto.
Qed.

(** * The candidates of filled fields *)
Definition tidy (s : sudoku) : Prop := forall p x, cell w h p -> num s p <> 0 -> In x (cand s p) -> x = num s p.

Lemma chain_tidy : forall F cls s l t, cls <> CalculateCandidates -> chain (link w h F cls) s l t -> tidy s -> tidy t.
Proof.
  intros F cls s l t N C; induction C as [s|s st t l u L C IH]; intros T; auto. apply IH.
  destruct L as [_ [_ [L1 [_ [_ [_ [L3 _]]]]]]]. destruct L3 as [_ [_ [_ L3]]]. rewrite <- L1 in N.
  intros q x Cq Nq Hx. destruct (st_class st); try congruence;
    try (destruct L3 as [N1 C1]; rewrite N1 in * by auto; apply T; auto; apply C1 in Hx; auto; tauto);
    destruct L3 as [p [v [A1 [A2 [A3 [A4 A5]]]]]]; rewrite A3 in * by auto;
    (destruct (coord_eqb q p) eqn:E;
     [apply coord_eqb_eq in E; subst q; apply A4; auto
     |apply T; auto; apply A5 in Hx; auto; [tauto|intros ->; rewrite (proj2 (coord_eqb_eq p p)) in E by auto; discriminate]]).
Qed.

(** * solve() *)
Definition done (u : sudoku) : Prop := Good w h u /\ tidy u /\ forall p, cell w h p -> num u p <> 0.

Lemma done_measure : forall u, done u -> measure w h u = (Z.to_nat (w * h) * Z.to_nat (w * h))%nat.
Proof.
  intros u [G [T Nz]]. apply Nat.le_antisymm; [|apply good_size; auto].
  assert (E : (Z.to_nat (w * h) * Z.to_nat (w * h))%nat =
     list_sum (map (fun _ : coord => 1%nat) (list_prod (py_range (w * h)) (py_range (w * h))))).
  { assert (L : forall l : list coord, list_sum (map (fun _ => 1%nat) l) = length l).
    { induction l; simpl; auto. }
    rewrite L. unfold coord. rewrite prod_length, !length_py_range. reflexivity. }
  rewrite E. unfold measure. apply list_sum_le. intros p Hp. apply in_cells in Hp.
  unfold weight. rewrite (proj2 (Z.eqb_neq _ _) (Nz p Hp)).
  assert (S : sset zcmp (cand u p)) by (destruct (SInv_ok _ _ _ _ (gd_inv _ _ _ G)) as [W [Ew Eh]]; apply cand_sset; auto; unfold field; rewrite Ew, Eh; auto).
  destruct (cand u p) as [|a [|b l]] eqn:E'; simpl; try lia. exfalso.
  assert (a = num u p) by (apply T; auto; rewrite E'; left; auto).
  assert (b = num u p) by (apply T; auto; rewrite E'; right; left; auto).
  subst. pose proof (sset_NoDup _ zcmp_good _ S) as N. inversion N as [|x y N1 N2]; subst.
  apply N1. left; auto.
Qed.

Lemma done_round : forall oo u, oracle_ok oo -> done u -> solve_round oo SOLVERS u = Ok ([], u).
Proof.
  intros oo u Hoo D. pose proof (done_measure u D) as M. pose proof D as [G [T Nz]].
  pose proof G as [S [f0 Hf0]]. pose proof (SInv_ok _ _ _ _ S) as O.
  assert (FV : forall g, solution u g -> valid_grid w h g) by (intros; eapply gd_valid; eauto).
  destruct (round_ok w h Hw Hh oo Hoo (solution u) FV u (SInv_WInv _ _ _ _ S)) as [st [v [E R]]].
  rewrite E. inversion R as [st' u' Ns Su C Hn' Hc Hx | cls st' u' Hin Ns Hc St Su C
                     | f st' u' Ns Hc St Sol Ou Hn' Hb C | Hc St Hd]; subst; auto; exfalso.
  - apply Hx. intros p Cp. apply (gd_ne w h); auto.
  - destruct (DED_deductive cls Hin) as [N1 [N2 _]].
    destruct (good_ded w h cls u st v G N2 Su C) as [Gv _].
    pose proof (chain_measure w h _ cls f0 _ _ _ FV N1 Hf0 S C) as M1. pose proof (good_size w h Hw Hh v Gv).
    destruct st; [congruence|]. simpl in M1. lia.
  - destruct C as [Su C]. { intros p Cp. apply (si_cand _ _ _ _ S); auto. }
    destruct (good_brute w h f u v Su O Sol Hn') as [Gv _].
    assert (M1 : (length st + measure w h v <= measure w h u)%nat).
    { eapply chain_measure with (F := eq f) (g := f); eauto.
      * intros g <-. apply FV; auto.
      * discriminate.
      * eapply SInv_anti; [|exact S]. intros g <-; auto. }
    pose proof (good_size w h Hw Hh v Gv). destruct st; [congruence|]. simpl in M1. lia.
Qed.

(** The same for one round. *)
Definition alike_round (x y : res (list step * sudoku)) : Prop :=
  x = y \/ exists b b' u u', x = Ok (b, u) /\ y = Ok (b', u') /\ b <> [] /\ b' <> [] /\
     brutes b /\ brutes b' /\ length b = length b' /\ done u /\ done u'.

Lemma brute_done : forall oo s st u, oracle_ok oo -> Good w h s -> tidy s ->
  drive (bruteforce_find oo s) s = Ok (st, u) -> brutes st /\ done u.
Proof.
  intros oo s st u Hoo G T E. pose proof G as [S [f0 Hf0]]. pose proof (SInv_ok _ _ _ _ S) as O.
  destruct (brute_drive w h Hw Hh oo Hoo s O) as [[B1 _]|[f [st' [u' [B1 [B2 [B3 [B4 [B5 [B6 B7]]]]]]]]]].
  { exfalso; eapply B1; eauto. }
  assert (X : Ok (st', u') = Ok (st, u)) by congruence. injection X as -> ->. split; auto.
  destruct B7 as [Su C]. { intros p Cp. apply (si_cand _ _ _ _ S); auto. }
  destruct (good_brute w h f s u Su O B1 B4) as [Gu _].
  split; auto. split; [eapply chain_tidy; eauto; discriminate|].
  intros p Cp. rewrite B4 by auto. pose proof (proj1 (gd_valid w h Hw Hh s f O B1) p Cp). lia.
Qed.

Lemma round_same : forall s, Good w h s -> tidy s ->
  alike_round (solve_round o SOLVERS s) (solve_round o' SOLVERS s) /\
  (uniq s -> solve_round o SOLVERS s = solve_round o' SOLVERS s).
Proof.
  intros s G T. pose proof G as [S [f0 Hf0]]. pose proof (SInv_ok _ _ _ _ S) as O.
  assert (FV : forall g, solution s g -> valid_grid w h g) by (intros; eapply gd_valid; eauto).
  rewrite SOLVERS_eq. cbn [solve_round].
  change (MSolvers.find o CalculateCandidates s) with (calculate_find s).
  change (MSolvers.find o' CalculateCandidates s) with (calculate_find s).
  destruct (calculate_drive w h (solution s) FV s (SInv_WInv _ _ _ _ S)) as [st [s' [E [S' [C [Hn [Hc Hemp]]]]]]].
  assert (st = []) by (apply Hemp; intros p Cp; apply (gd_ne w h); auto). subst st. inv C.
  rewrite E. cbn [rbind].
  apply (ded_round_same (solution s') FV f0 Hf0 (fun x y => alike_round x y /\ (uniq s' -> x = y))
           [Bruteforce] DED s'); auto.
  - intros x. split; auto. left; auto.
  - apply DED_deductive.
  - cbn [solve_round].
    change (MSolvers.find o Bruteforce s') with (bruteforce_find o s').
    change (MSolvers.find o' Bruteforce s') with (bruteforce_find o' s').
    assert (X : exists f, solution s' f) by eauto.
    split; [|intros U; rewrite (brute_same s' O X U); reflexivity].
    destruct (brute_drive w h Hw Hh o Ho s' O) as [[B1 _]|[f [st [u [_ [B _]]]]]]; [exfalso; eapply B1; eauto|].
    destruct (brute_drive w h Hw Hh o' Ho' s' O) as [[B1 _]|[f' [st' [u' [_ [B' _]]]]]]; [exfalso; eapply B1; eauto|].
    rewrite B, B'. cbn [rbind].
    pose proof (brute_length o s' st u Ho O X B) as L. pose proof (brute_length o' s' st' u' Ho' O X B') as L'.
    destruct (brute_done o s' st u Ho G T B) as [D1 D2]. destruct (brute_done o' s' st' u' Ho' G T B') as [D1' D2'].
    destruct st as [|a st], st' as [|a' st']; simpl in L, L'; try lia.
    + left. f_equal. f_equal.
      destruct (brute_find_cases o s' Ho O X) as [sol [_ [_ Z]]]. destruct (brute_find_cases o' s' Ho' O X) as [sol' [_ [_ Z']]].
      assert (N : forall g v, drive g s' = Ok ([], v) -> v = s').
      { clear. intros g v H. destruct g as [r|a k|e]; cbn [drive] in H.
        - congruence.
        - destruct (apply a s') as [[a' s2]|]; [|discriminate]. cbn [rbind] in H.
          destruct (drive (k s2) s2) as [[l' s3]|]; discriminate.
        - discriminate. }
      rewrite (N _ _ B), (N _ _ B'). reflexivity.
    + right. exists (a :: st), (a' :: st'), u, u'. splits; auto; try discriminate. simpl; lia.
Qed.

Lemma loop_same : forall fuel s, Good w h s -> tidy s ->
  alike (solve_loop fuel o s) (solve_loop fuel o' s) /\ (uniq s -> solve_loop fuel o s = solve_loop fuel o' s).
Proof.
  induction fuel as [|fuel IH]; intros s G T; [split; auto; left; auto|].
  cbn [solve_loop]. destruct (round_same s G T) as [R U].
  pose proof G as [S [f0 Hf0]]. pose proof (SInv_ok _ _ _ _ S) as O.
  assert (FV : forall g, solution s g -> valid_grid w h g) by (intros; eapply gd_valid; eauto).
  destruct (round_ok w h Hw Hh o Ho (solution s) FV s (SInv_WInv _ _ _ _ S)) as [st [v [E RR]]].
  rewrite E in *.
  assert (Next : st <> [] -> Good w h v /\ tidy v /\ (forall g, solution v g -> solution s g)).
  { intros Ns. inversion RR as [st' u' Ns' Su C Hn' Hc Hx | cls st' u' Hin Ns' Hc St Su C
                     | f st' u' Ns' Hc St Sol Ou Hn' Hb C | Hc St Hd]; subst.
    - exfalso. apply Hx. intros p Cp. apply (gd_ne w h); auto.
    - destruct (DED_deductive cls Hin) as [N1 [N2 _]].
      destruct (good_ded w h cls s st v G N2 Su C) as [Gv Hsol]. splits; auto. eapply chain_tidy; eauto.
    - destruct C as [Su C]. { intros p Cp. apply (si_cand _ _ _ _ S); auto. }
      destruct (good_brute w h f s v Su O Sol Hn') as [Gu [_ Hsol]]. splits; auto. eapply chain_tidy; eauto. discriminate.
    - congruence. }
  destruct R as [R|R].
  - rewrite <- R in *. cbn [rbind]. destruct st as [|a st]; [split; auto; left; auto|].
    destruct Next as [Gv [Tv Hsol]]; [discriminate|]. destruct (IH v Gv Tv) as [A1 A2]. split.
    + destruct A1 as [A1|[c [b [b' [u [u' [A1 [A3 A4]]]]]]]].
      * left. rewrite A1. reflexivity.
      * right. exists ((a :: st) ++ c), b, b', u, u'. rewrite A1, A3. cbn [rbind]. rewrite <- !app_assoc. auto.
    + intros Us. rewrite A2; auto. intros f g Hf Hg. apply Us; auto.
  - split; [|intros Us; rewrite U; auto].
    + destruct R as [b [b' [u [u' [R1 [R2 [R3 [R4 [R5 [R6 [R7 [R8 R9]]]]]]]]]]]].
      injection R1 as -> ->. rewrite R2. cbn [rbind].
      destruct b as [|x b]; [congruence|]. destruct b' as [|x' b']; [congruence|].
      destruct fuel as [|fuel]; [left; reflexivity|]. cbn [solve_loop].
      rewrite (done_round o u), (done_round o' u') by auto. cbn [rbind]. rewrite !app_nil_r.
      right. exists [], (x :: b), (x' :: b'), u, u'. auto 10.
    + destruct R as [b [b' [u [u' [R1 [R2 _]]]]]]. specialize (U Us). rewrite <- U.
      cbn [rbind]. destruct st as [|a st]; [reflexivity|].
      destruct Next as [Gv [Tv Hsol]]; [discriminate|]. destruct (IH v Gv Tv) as [A1 A2].
      rewrite A2; auto. intros f g Hf Hg. apply Us; auto.
Qed.

Lemma solve_same : forall fuel s, ok_sudoku w h s -> (exists f, solution s f) ->
  alike (solve fuel o s) (solve fuel o' s) /\ (uniq s -> solve fuel o s = solve fuel o' s).
Proof.
  intros fuel s O [f0 Hf0]. pose proof O as [W [Ew Eh]].
  destruct (solve_start w h o s O) as [s0 [[A0 E0] [O0 [N0 [C0 W0]]]]].
  destruct (solve_start w h o' s O) as [s0' [[A0' E0'] _]].
  assert (s0' = s0) by congruence. subst s0'. rewrite E0, E0'.
  pose proof (solutions_eq w h s s0 O O0 N0) as Sol0.
  assert (FV : forall g, solution s g -> valid_grid w h g) by (intros g Hg; exact (gd_valid w h Hw Hh s g O Hg)).
  destruct (calculate_drive w h (solution s) FV s0 W0) as [st [s1 [E [S1 [C [Hn [Hc Hemp]]]]]]].
  pose proof (SInv_ok _ _ _ _ S1) as O1.
  assert (Sol1 : forall f, solution s1 f <-> solution s f).
  { intros f. rewrite <- Sol0. apply solutions_eq with (w := w) (h := h); auto. }
  assert (G1 : Good w h s1).
  { constructor; [|exists f0; apply Sol1; auto]. eapply SInv_anti; [|exact S1]. intros g Hg; apply Sol1; auto. }
  assert (T1 : tidy s1).
  { intros p x Cp Np Hx. rewrite Hn, N0 in * by auto. rewrite Hc, C0 in Hx by auto.
    rewrite (proj2 (Z.eqb_neq _ _) Np) in Hx. destruct Hx as [<-|[]]; auto. }
  destruct st as [|x st].
  - inv C. destruct (loop_same fuel s1 G1 T1) as [L1 L2]. split; auto.
    intros U; apply L2. intros f g Hf Hg. apply U; apply Sol1; auto.
  - destruct fuel as [|fuel]; [split; auto; left; auto|].
    cbn [solve_loop]. rewrite SOLVERS_eq. cbn [solve_round].
    change (MSolvers.find o CalculateCandidates s0) with (calculate_find s0).
    change (MSolvers.find o' CalculateCandidates s0) with (calculate_find s0). rewrite E. cbn [rbind].
    destruct (loop_same fuel s1 G1 T1) as [L1 L2]. split.
    + destruct L1 as [L1|[c [b [b' [u [u' [L1 [L3 L4]]]]]]]].
      * left. rewrite L1. reflexivity.
      * right. exists ((x :: st) ++ c), b, b', u, u'. rewrite L1, L3. cbn [rbind]. rewrite <- !app_assoc. auto.
    + intros U. rewrite L2; auto. intros f g Hf Hg. apply U; apply Sol1; auto.
Qed.
End Order.
