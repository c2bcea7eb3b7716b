(** Lemmas for C131: more numbers asked for, more numbers in the puzzle. *)
From Verif Require Export LGenerate LGenerate2.

Section Loop2.
Variables (w h : Z) (y : symmetry) (f : Z -> Z -> Z -> Z -> list coord) (sol : sudoku) (o : generate_oracle).
Hypothesis Ef : symmetry_func y = Ok f.
Hypothesis Wsol : wf sol.
Hypothesis Bsol : box_size sol = (w, h).
Hypothesis Vsol : valid_grid w h (num sol).
Hypothesis Ho : forall k p l, Permutation (go_ord o k p l) l.

Definition part_of (s t : sudoku) : Prop := forall p, cell w h p -> num s p = 0 \/ num s p = num t p.

Lemma part_trans : forall s t u, part_of s t -> part_of t u -> part_of s u.
Proof.
  intros s t u A B p Hp. destruct (A p Hp) as [E|E]; [auto|].
  destruct (B p Hp) as [E'|E']; [left; congruence | right; congruence].
Qed.

Lemma minus_part : forall s s1 c, (forall q, cell w h q -> num s1 q = minus w h f (num s) c q) -> part_of s1 s.
Proof. intros s s1 c H p Hp. rewrite H by auto. unfold minus. destruct (inclass _ _ _ _ _); auto. Qed.

Lemma LI_le : forall m m' cs cnt s, m <= m' -> LI w h y f sol m' cs cnt s -> LI w h y f sol m cs cnt s.
Proof.
  intros m m' cs cnt s Hm [[W [Ew [Eh [Hs [HU [Hmin [Hsym Hc]]]]]]] H]. split; auto.
  unfold LGenerate.good; splits; auto. lia.
Qed.

(** A run only empties fields. *)
Lemma loop_part : forall m fuel k cs cnt s t, (length cs < fuel)%nat -> LI w h y f sol m cs cnt s ->
  generate_loop fuel o k f m sol cs cnt s = Ok t -> part_of t s.
Proof.
  induction fuel as [|fuel IH]; intros k cs cnt s t Hlen HL E; [lia|].
  destruct cs as [|c0 cs0] eqn:Ecs.
  { cbn in E. injection E as <-. intros p Hp; auto. }
  destruct (loop_step w h y f sol m o Ef Wsol Bsol Vsol Ho fuel k c0 cs0 cs cnt s Ecs)
    as [cs' [s1 [_ [Hl [W1 [Ew1 [Eh1 [Hn1 HC]]]]]]]]; [subst; auto|].
  rewrite <- Ecs in *. destruct HC as [[Hs E']|[[_ [_ [E' HL']]]|[_ [_ [E' HL']]]]]; rewrite E' in E.
  - injection E as <-. intros p Hp; auto.
  - apply IH in E; auto; [|lia]. eapply part_trans; [exact E|]. eapply minus_part; eauto.
  - apply IH in E; auto. lia.
Qed.

(** The two runs go the same way until the one that wants more numbers stops. *)
Lemma loop_mono : forall m m' o', (forall k p l, Permutation (go_ord o' k p l) l) -> m <= m' ->
  forall fuel k cs cnt s t t', (length cs < fuel)%nat -> LI w h y f sol m' cs cnt s ->
  generate_loop fuel o k f m sol cs cnt s = Ok t -> generate_loop fuel o' k f m' sol cs cnt s = Ok t' ->
  part_of t t'.
Proof.
  intros m m' o' Ho' Hm. induction fuel as [|fuel IH]; intros k cs cnt s t t' Hlen HL' E E'; [lia|].
  pose proof (LI_le _ _ _ _ _ Hm HL') as HL.
  pose proof (loop_part m (S fuel) k cs cnt s t Hlen HL E) as HP.
  destruct cs as [|c0 cs0] eqn:Ecs.
  { cbn in E'. injection E' as <-. auto. }
  destruct (loop_step w h y f sol m o Ef Wsol Bsol Vsol Ho fuel k c0 cs0 cs cnt s Ecs)
    as [cs1 [s1 [C1 [Hl [W1 [Ew1 [Eh1 [Hn1 HC]]]]]]]]; [subst; auto|].
  destruct (loop_step w h y f sol m' o' Ef Wsol Bsol Vsol Ho' fuel k c0 cs0 cs cnt s Ecs)
    as [cs2 [s2 [C2 [_ [W2 [Ew2 [Eh2 [Hn2 HC']]]]]]]]; [subst; auto|].
  rewrite <- Ecs in *. rewrite <- C1 in C2. subst cs2.
  assert (Nf : nfilled s1 = nfilled s2).
  { apply Z.le_antisymm; apply (nfilled_le w h); auto; intros p Hp; rewrite Hn1, Hn2 by auto; auto. }
  destruct HC' as [[Hs' G']|[[Hm' [U' [G' HL2]]]|[Hm' [U' [G' HL2]]]]]; rewrite G' in E'.
  - injection E' as <-. exact HP.
  - destruct HC as [[Hs G]|[[_ [U [G HL1]]]|[_ [U [G HL1]]]]]; rewrite G in E; [lia| |contradiction].
    assert (X : s1 = s2).
    { destruct HL1 as [[_ [_ [_ [_ [_ [_ [_ Hc1]]]]]]] _]. destruct HL2 as [[_ [_ [_ [_ [_ [_ [_ Hc2]]]]]]] _].
      apply sudoku_ext; auto; try congruence.
      - intros q Fq. unfold field in Fq; rewrite Ew1, Eh1 in Fq. rewrite Hn1, Hn2; auto.
      - intros q Fq. rewrite Hc1 by auto. symmetry; apply Hc2. unfold field in *; rewrite Ew1, Eh1 in Fq; rewrite Ew2, Eh2; auto. }
    subst s2. apply (IH (S k) cs1 (nfilled s1) s1 t t'); auto. lia.
  - destruct HC as [[Hs G]|[[_ [U [G HL1]]]|[_ [U [G HL1]]]]]; rewrite G in E; [lia|contradiction|].
    apply (IH (S k) cs1 cnt s t t'); auto. lia.
Qed.
End Loop2.

(** * generate *)
Lemma C131_generate_proof : forall co sh ord ord' m m' y w h s s', 1 <= w -> 1 <= h ->
  create_admissible co -> (forall l, Permutation (sh l) l) ->
  (forall k p l, Permutation (ord k p l) l) -> (forall k p l, Permutation (ord' k p l) l) -> m <= m' ->
  generate {| go_create := co; go_shuffle := sh; go_ord := ord |} m y (w, h) = Ok s ->
  generate {| go_create := co; go_shuffle := sh; go_ord := ord' |} m' y (w, h) = Ok s' ->
  forall p, cell w h p -> num s p = 0 \/ num s p = num s' p.
Proof.
  intros co sh ord ord' m m' y w h s s' Hw Hh Hco Hsh Hord Hord' Hm E E'.
  set (o := {| go_create := co; go_shuffle := sh; go_ord := ord |}) in *.
  set (o' := {| go_create := co; go_shuffle := sh; go_ord := ord' |}) in *.
  assert (Ha : generate_admissible o) by (split; [|split]; auto).
  assert (Ha' : generate_admissible o') by (split; [|split]; auto).
  assert (Hm' : m' <= w ^ 2 * h ^ 2).
  { unfold generate in E'. cbn [fst snd] in E'. destruct (w ^ 2 * h ^ 2 <? m') eqn:B; [discriminate|]. b2p; lia. }
  destruct (symmetry_func y) as [f|e] eqn:Ef.
  2: { exfalso. unfold generate in E. rewrite Ef in E. cbn [fst snd rbind] in E. destruct (w ^ 2 * h ^ 2 <? m); [|destruct e]; discriminate. }
  destruct Hco as [H1 H2]. destruct (C28_proof co w h Hw Hh H1 H2) as [sol [Esol _]].
  destruct (generate_init o' m' y w h f sol Hw Hh Ha' Hm' Ef Esol) as [Ws [Bs [V [s0 [Ew [Eh [Hn [Eg [HL Ec]]]]]]]]].
  cbv zeta in *. rewrite Eg in E'.
  assert (Eg0 : generate o m y (w, h) = generate_loop (S (length (sh (coords s0)))) o 0 f m sol (sh (coords s0)) (sudoku_len s0) s0).
  { unfold generate. cbn [fst snd]. replace (w ^ 2 * h ^ 2 <? m) with false by (symmetry; apply Z.ltb_ge; lia).
    rewrite Ef. cbn [rbind]. cbn [go_create o]. rewrite Esol. cbn [rbind]. rewrite Ec. reflexivity. }
  rewrite Eg0 in E. cbn [go_shuffle o'] in *.
  exact (loop_mono w h y f sol o Ef Ws Bs V Hord m m' o' Hord' Hm _ 0%nat _ _ _ s s' (Nat.lt_succ_diag_r _) HL E E').
Qed.

Lemma made : forall o m y w h s, 1 <= w -> 1 <= h -> generate_admissible o -> generate o m y (w, h) = Ok s ->
  wf s /\ box_width s = w /\ box_height s = h /\ (forall p, field s p -> cand s p = []).
Proof.
  intros o m y w h s Hw Hh Ha E.
  assert (Hm : m <= w ^ 2 * h ^ 2).
  { unfold generate in E. cbn [fst snd] in E. destruct (w ^ 2 * h ^ 2 <? m) eqn:B; [discriminate|]. b2p; lia. }
  assert (Hy : y <> SymOther).
  { intros ->. unfold generate in E. cbn [symmetry_func fst snd] in E. destruct (w ^ 2 * h ^ 2 <? m); discriminate. }
  destruct (C29_proof o m y w h Hw Hh Ha Hm Hy) as [t [Et [W [B [_ [_ [_ Hc]]]]]]].
  rewrite E in Et. injection Et as <-. unfold box_size in B; injection B as B1 B2. splits; auto.
Qed.

Lemma C131_count_proof : forall co sh ord ord' m m' y w h s s' n n', 1 <= w -> 1 <= h ->
  create_admissible co -> (forall l, Permutation (sh l) l) ->
  (forall k p l, Permutation (ord k p l) l) -> (forall k p l, Permutation (ord' k p l) l) -> m <= m' ->
  generate {| go_create := co; go_shuffle := sh; go_ord := ord |} m y (w, h) = Ok s ->
  generate {| go_create := co; go_shuffle := sh; go_ord := ord' |} m' y (w, h) = Ok s' ->
  count s = Ok n -> count s' = Ok n' -> n <= n'.
Proof.
  intros co sh ord ord' m m' y w h s s' n n' Hw Hh Hco Hsh Hord Hord' Hm E E' C C'.
  pose proof (C131_generate_proof _ _ _ _ _ _ _ _ _ _ _ Hw Hh Hco Hsh Hord Hord' Hm E E') as HP.
  destruct (made {| go_create := co; go_shuffle := sh; go_ord := ord |} _ _ _ _ _ Hw Hh (conj Hco (conj Hsh Hord)) E) as [W [Ew [Eh _]]].
  destruct (made {| go_create := co; go_shuffle := sh; go_ord := ord' |} _ _ _ _ _ Hw Hh (conj Hco (conj Hsh Hord')) E') as [W' [Ew' [Eh' _]]].
  rewrite count_nfilled in C by auto. rewrite count_nfilled in C' by auto. injection C as <-. injection C' as <-.
  apply (nfilled_le w h); auto. intros q Hq Hz. destruct (HP q Hq); congruence.
Qed.

(** The order in which the uniqueness checks search does not matter. *)
Lemma C131_order_proof : forall co sh ord ord' m y w h, 1 <= w -> 1 <= h ->
  create_admissible co -> (forall l, Permutation (sh l) l) ->
  (forall k p l, Permutation (ord k p l) l) -> (forall k p l, Permutation (ord' k p l) l) ->
  generate {| go_create := co; go_shuffle := sh; go_ord := ord |} m y (w, h) =
  generate {| go_create := co; go_shuffle := sh; go_ord := ord' |} m y (w, h).
Proof.
  intros co sh ord ord' m y w h Hw Hh Hco Hsh Hord Hord'.
  set (o := {| go_create := co; go_shuffle := sh; go_ord := ord |}) in *.
  set (o' := {| go_create := co; go_shuffle := sh; go_ord := ord' |}) in *.
  assert (Ha : generate_admissible o) by (split; [|split]; auto).
  assert (Ha' : generate_admissible o') by (split; [|split]; auto).
  destruct (Z_le_gt_dec m (w ^ 2 * h ^ 2)) as [Hm|Hm].
  2: { unfold generate. cbn [fst snd]. replace (w ^ 2 * h ^ 2 <? m) with true by (symmetry; apply Z.ltb_lt; lia). auto. }
  destruct (symmetry_func y) as [f|e] eqn:Ef.
  2: { unfold generate. rewrite Ef. cbn [fst snd]. destruct (w ^ 2 * h ^ 2 <? m); auto. }
  assert (Hy : y <> SymOther) by (intros ->; discriminate).
  destruct (C29_proof o m y w h Hw Hh Ha Hm Hy) as [s [E _]].
  destruct (C29_proof o' m y w h Hw Hh Ha' Hm Hy) as [s' [E' _]].
  rewrite E, E'. f_equal.
  destruct (made _ _ _ _ _ _ Hw Hh Ha E) as [W [Ew [Eh Hc]]].
  destruct (made _ _ _ _ _ _ Hw Hh Ha' E') as [W' [Ew' [Eh' Hc']]].
  pose proof (C131_generate_proof co sh ord ord' m m y w h s s' Hw Hh Hco Hsh Hord Hord' (Z.le_refl _) E E') as H1.
  pose proof (C131_generate_proof co sh ord' ord m m y w h s' s Hw Hh Hco Hsh Hord' Hord (Z.le_refl _) E' E) as H2.
  apply sudoku_ext; auto; try congruence.
  - intros p Fp. unfold field in Fp. rewrite Ew, Eh in Fp. destruct (H1 p Fp) as [Z0|]; auto.
    destruct (H2 p Fp) as [Z1|]; congruence.
  - intros p Fp. rewrite Hc by auto. symmetry; apply Hc'. unfold field in *. rewrite Ew, Eh in Fp. rewrite Ew', Eh'; auto.
Qed.

(** * generate_from_template *)
Definition wider (template template' : sudoku) : Prop :=
  box_size template' = box_size template /\
  forall p, field template p -> num template p <> 0 -> num template' p <> 0.

Lemma attempt_wider : forall o template template' t a a', wider template template' -> wf template ->
  create_admissible (fst (o t)) ->
  attempt o template t a -> attempt o template' t a' -> unique_solution a -> unique_solution a'.
Proof.
  intros o tp tp' t a a' [B Hw] W [H1 H2] [Wa [Ba [sol [Es [Z1 N1]]]]] [Wa' [Ba' [sol' [Es' [Z2 N2]]]]] U.
  rewrite B, Es in Es'. injection Es' as <-.
  pose proof (wf_w _ W) as Pw. pose proof (wf_h _ W) as Ph. destruct (C28_proof (fst (o t)) (box_width tp) (box_height tp)) as [sol' [Es' [_ [_ [_ [V _]]]]]]; auto.
  unfold box_size in *. rewrite Es in Es'. injection Es' as <-.
  injection B as B1 B2. injection Ba as A1 A2. injection Ba' as A3 A4.
  apply (proj1 (ugiven_unique a)) in U. apply (proj2 (ugiven_unique a')). rewrite A3, A4, B1, B2. rewrite A1, A2 in U.
  assert (F : forall p, field tp' p <-> field tp p) by (intros; unfold field; rewrite B1, B2; tauto).
  apply (ugiven_mono _ _ _ (num a) (num sol)); auto.
  - intros p Hp. destruct (Z.eq_dec (num tp' p) 0) as [E|E].
    + left. apply Z2; auto. apply F; auto.
    + right. apply N2; auto. apply F; auto.
  - intros p Hp. destruct (Z.eq_dec (num tp p) 0) as [E|E]; [left; apply Z1; auto|].
    right. rewrite N1 by auto. symmetry. apply N2; [apply F; auto|]. auto.
Qed.

Lemma C131_template_proof : forall fuel o template template' tries s, wf template -> wf template' ->
  wider template template' ->
  (forall t, create_admissible (fst (o t)) /\ (forall p l, Permutation (snd (o t) p l) l)) ->
  generate_from_template fuel o template tries = Ok s ->
  exists fuel' s' t', generate_from_template fuel' o template' tries = Ok s' /\ attempt o template' t' s' /\
    forall t a, 0 <= t -> attempt o template t a -> unique_solution a -> t' <= t.
Proof.
  intros fuel o tp tp' tries s W W' HW Ho E.
  destruct (C34_success_proof fuel o tp tries s W Ho E) as [_ [_ [U [_ [t [Ht [Ht' [At _]]]]]]]].
  assert (NF : ~ exists a, attempt o tp' t a /\ ~ unique_solution a).
  { intros [a [Aa Na]]. apply Na. apply (attempt_wider o tp tp' t s a); auto. apply Ho. }
  assert (G : exists fuel' s', generate_from_template fuel' o tp' tries = Ok s').
  { destruct (Z_lt_ge_dec tries 0) as [Neg|Pos].
  - destruct (C34_negative_proof (Z.to_nat (t + 1)) o tp' tries W' Neg Ho) as [[s' E']|[_ F]]; eauto.
    exfalso; apply NF, F. lia.
  - destruct (C34_failure_proof (Z.to_nat tries) o tp' tries W') as [[[s' E']|E'] I]; auto; try lia; eauto.
    exfalso. apply NF. apply (proj1 I E'). lia. }
  destruct G as [fuel' [s' E']]. exists fuel', s'.
  destruct (C34_success_proof fuel' o tp' tries s' W' Ho E') as [_ [_ [U' [_ [t' [Ht1 [_ [At' F]]]]]]]].
  exists t'. splits; auto. intros i a Hi Ai Ui. destruct (Z_le_gt_dec t' i) as [|Hlt]; auto. exfalso.
  destruct (F i) as [a' [Aa Na]]; [lia|]. apply Na. apply (attempt_wider o tp tp' i a a'); auto. apply Ho.
Qed.
