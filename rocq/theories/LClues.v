(** Lemmas for C127: symmetries of a puzzle with a unique solution. *)
From Verif Require Export SpecClues LEquiv LGenerate2 LSmall.

Lemma C127_symmetry_proof : forall fm fi nm ni s f p, unique_solution s -> solution s f -> equivalent fm fi nm ni s s -> field s p -> f (fm p) = nm (f p).
Proof.
  intros fm fi nm ni s f p [u [Hu U]] Hf E Fp. destruct (eq_to _ _ _ _ _ _ E p Fp) as [Fq Eq].
  pose proof (proj1 (C99_solutions_proof fm fi nm ni s s f E) Hf) as Hg.
  rewrite (U f Hf (fm p) Fq), <- (U _ Hg (fm p) Fq), Eq. reflexivity.
Qed.

(** Exchange two numbers. *)
Definition sw (a b x : Z) : Z := if x =? a then b else if x =? b then a else x.
Lemma sw_cases : forall a b x, (x = a /\ sw a b x = b) \/ (x = b /\ sw a b x = a) \/ (x <> a /\ x <> b /\ sw a b x = x).
Proof. intros a b x. unfold sw. destruct (x =? a) eqn:E1; b2p; [auto|]. destruct (x =? b) eqn:E2; b2p; auto. Qed.
Lemma sw_sw : forall a b x, sw a b (sw a b x) = x.
Proof. intros a b x. destruct (sw_cases a b x) as [[H E]|[[H E]|[H1 [H2 E]]]], (sw_cases a b (sw a b x)) as [[H' E']|[[H' E']|[H1' [H2' E']]]]; lia. Qed.

(** A movement of the puzzle onto itself that changes every solution. *)
Definition moves (s : sudoku) (fm : coord -> coord) (nm : Z -> Z) : Prop :=
  equivalent fm fm nm nm s s /\ forall g, valid_grid (box_width s) (box_height s) g -> exists p, field s p /\ nm (g (fm p)) <> g p.

Lemma swap_move : forall s a b, wf s -> 1 <= a <= box_width s * box_height s -> 1 <= b <= box_width s * box_height s -> a <> b ->
  (forall p, field s p -> num s p <> a /\ num s p <> b) -> moves s (fun p => p) (sw a b).
Proof.
  intros s a b W Ha Hb D X. split.
  - apply C99_relabel_proof; auto.
    + intros v. split; apply sw_sw.
    + destruct (sw_cases a b 0) as [[H E]|[[H E]|[_ [_ E]]]]; lia.
    + intros v. destruct (sw_cases a b v) as [[H E]|[[H E]|[_ [_ E]]]]; rewrite E; lia.
    + intros p Fp. specialize (X p Fp). destruct (sw_cases a b (num s p)) as [[H E]|[[H E]|[_ [_ E]]]]; lia.
  - intros f V. destruct (first_row_has _ _ f a (wf_w _ W) (wf_h _ W) V Ha) as [c [Rc Ec]].
    exists (0, c). split; [split; cbn [fst snd]; lia|]. rewrite Ec. destruct (sw_cases a b a) as [[H E0]|[[H E0]|[H _]]]; lia.
Qed.

Lemma moves_not : forall s fm nm, moves s fm nm -> ~ unique_solution s.
Proof.
  intros s fm nm [E M] U. pose proof U as [f [Hf _]]. destruct (M f (proj1 Hf)) as [p [Fp X]]. apply X.
  pose proof (C127_symmetry_proof _ _ _ _ s f p U Hf E Fp) as Y. rewrite Y. apply (eq_ren _ _ _ _ _ _ E).
Qed.

Lemma C127_numbers_proof : forall s a b, wf s -> unique_solution s -> 1 <= a <= box_width s * box_height s -> 1 <= b <= box_width s * box_height s -> a <> b ->
  exists p, field s p /\ (num s p = a \/ num s p = b).
Proof.
  intros s a b W U Ha Hb D.
  destruct (existsb (fun p => (num s p =? a) || (num s p =? b)) (coords s)) eqn:X.
  { apply existsb_exists in X as [p [Hp X]]. exists p. split; [apply in_coords; auto|]. apply orb_prop in X. destruct X; b2p; auto. }
  exfalso. rewrite existsb_false_iff in X. apply (moves_not s (fun p => p) (sw a b)); auto. apply swap_move; auto.
  intros p Fp. specialize (X p (proj2 (in_coords s p) Fp)). apply orb_false_elim in X as [X1 X2]. b2p. auto.
Qed.

Lemma lines_move : forall s f f' p,
  block_perm (box_width s * box_height s) (box_height s) f f -> block_perm (box_width s * box_height s) (box_width s) f' f' ->
  (forall r c, field s (r, c) -> num s (f r, f' c) = num s (r, c)) -> field s p -> peers (box_width s) (box_height s) p (f (fst p), f' (snd p)) ->
  exists fm nm, moves s fm nm.
Proof.
  intros s f f' p B B' Hn Fp P. pose proof (C99_lines_proof f f f' f' s s eq_refl B B' Hn) as E. eexists. eexists. split; [exact E|].
  intros g V. exists p. split; auto. cbv beta. destruct (eq_to _ _ _ _ _ _ E p Fp) as [Fq _]. intros X. apply (proj2 V p (f (fst p), f' (snd p))); auto.
Qed.

Lemma id_perm : forall n b, block_perm n b (fun x => x) (fun x => x).
Proof. intros n b. split; [auto|]. split; [auto|]. tauto. Qed.
Lemma sw_perm : forall n b x y, 0 <= x < n -> 0 <= y < n -> x / b = y / b -> block_perm n b (sw x y) (sw x y).
Proof.
  intros n b x y Hx Hy E.
  assert (D : forall i, sw x y i / b = i / b) by (intros i; destruct (sw_cases x y i) as [[-> ->]|[[-> ->]|[_ [_ ->]]]]; auto).
  assert (R : forall i, 0 <= i < n -> 0 <= sw x y i < n) by (intros i Hi; destruct (sw_cases x y i) as [[-> ->]|[[-> ->]|[_ [_ ->]]]]; auto).
  split; [|split]; intros i; try (intros Hi; split; [auto|apply sw_sw]). intros j _ _. rewrite !D. tauto.
Qed.

(** Exchange two blocks of b neighbours. *)
Definition swb (b x y i : Z) : Z := sw x y (i / b) * b + i mod b.
Lemma swb_div : forall b x y i, 1 <= b -> swb b x y i / b = sw x y (i / b) /\ swb b x y i mod b = i mod b.
Proof.
  intros b x y i Hb. unfold swb. pose proof (Z.mod_pos_bound i b ltac:(lia)) as M. split.
  - rewrite Z.add_comm, Z.div_add by lia. rewrite (Z.div_small (i mod b)) by lia. lia.
  - rewrite Z.add_comm, Z.mod_add by lia. apply Z.mod_small; lia.
Qed.
Lemma swb_swb : forall b x y i, 1 <= b -> swb b x y (swb b x y i) = i.
Proof.
  intros b x y i Hb. destruct (swb_div b x y i Hb) as [E1 E2]. unfold swb at 1. rewrite E1, E2, sw_sw. pose proof (Z.div_mod i b ltac:(lia)). lia.
Qed.
Lemma swb_perm : forall m b x y, 1 <= b -> 0 <= x < m -> 0 <= y < m -> block_perm (m * b) b (swb b x y) (swb b x y).
Proof.
  intros m b x y Hb Hx Hy.
  assert (R : forall i, 0 <= i < m * b -> 0 <= swb b x y i < m * b).
  { intros i Hi. unfold swb. pose proof (Z.mod_pos_bound i b ltac:(lia)) as M.
    assert (0 <= i / b < m) by (split; [apply Z.div_pos; lia|apply Z.div_lt_upper_bound; lia]).
    assert (0 <= sw x y (i / b) < m) by (destruct (sw_cases x y (i / b)) as [[_ ->]|[[_ ->]|[_ [_ ->]]]]; auto). nia. }
  split; [|split]; intros i; try (intros Hi; split; [auto|apply swb_swb; auto]). intros j _ _.
  rewrite !(proj1 (swb_div b x y _ Hb)). split; [congruence|]. intros E. rewrite <- (sw_sw x y (i / b)), E, sw_sw. auto.
Qed.

Lemma few_absent : forall s n, wf s -> count s = Ok n -> n < box_width s * box_height s - 1 ->
  exists a b, 1 <= a <= box_width s * box_height s /\ 1 <= b <= box_width s * box_height s /\ a <> b /\ forall p, field s p -> num s p <> a /\ num s p <> b.
Proof.
  intros s n W En L. rewrite count_nfilled in En by auto. injection En as <-.
  set (N := box_width s * box_height s) in *.
  set (fl := filter (fun p => negb (num s p =? 0)) (coords s)). change (nfilled s) with (Z.of_nat (length fl)) in L.
  set (l := map (num s) fl).
  assert (Hl : forall v p, v <> 0 -> field s p -> num s p = v -> In v l).
  { intros v p Nv Fp E. unfold l, fl. apply in_map_iff. exists p. split; auto. apply filter_In. split; [apply in_coords; auto|]. rewrite E. destruct (v =? 0) eqn:X; auto. b2p. lia. }
  set (ab := filter (fun v => negb (existsb (Z.eqb v) l)) (py_range2 1 (N + 1))).
  assert (Hab : forall v, In v ab -> 1 <= v <= N /\ forall p, field s p -> num s p <> v).
  { intros v Hv. apply filter_In in Hv as [Hv X]. apply in_py_range2 in Hv. split; [lia|]. intros p Fp E. apply negb_true_iff in X.
    rewrite existsb_false_iff in X. specialize (X v (Hl v p ltac:(lia) Fp E)). rewrite Z.eqb_refl in X. discriminate. }
  assert (Nab : NoDup ab) by (apply NoDup_filter, NoDup_py_range2).
  assert (I : incl (py_range2 1 (N + 1)) (ab ++ l)).
  { intros v Hv. apply in_or_app. destruct (existsb (Z.eqb v) l) eqn:X; [right|left; apply filter_In; split; auto; rewrite X; auto].
    apply existsb_exists in X as [z [Hz E]]. b2p. subst. auto. }
  apply NoDup_incl_length in I; [|apply NoDup_py_range2]. rewrite length_py_range2, app_length in I. unfold l in I. rewrite map_length in I. clearbody fl ab. clear l Hl.
  destruct ab as [|a [|b ab]]; cbn [length] in I; try lia.
  destruct (Hab a (or_introl eq_refl)) as [Ra Xa]. destruct (Hab b (or_intror (or_introl eq_refl))) as [Rb Xb].
  exists a, b. split; auto. split; auto. split; auto. intros ->. inversion Nab as [|x y Hx _]; subst. apply Hx. left; auto.
Qed.

Lemma poor_moves : forall s, wf s -> poor s -> exists fm nm, moves s fm nm.
Proof.
  intros s W P. pose proof (wf_w _ W) as Hw. pose proof (wf_h _ W) as Hh.
  destruct P as [n E L|r r' Hr Hr' D B E1 E2|c c' Hc Hc' D B E1 E2|b b' Hb Hb' D E|b b' Hb Hb' D E].
  - destruct (few_absent s n W E L) as [a [b [Ha [Hb [D X]]]]]. exists (fun p => p), (sw a b). apply swap_move; auto.
  - assert (Fp : field s (r, 0)) by (split; cbn [fst snd]; nia).
    apply (lines_move s (sw r r') (fun x => x) (r, 0) (sw_perm _ _ _ _ Hr Hr' B) (id_perm _ _)); auto.
    + intros i c Fi. destruct (sw_cases r r' i) as [[-> ->]|[[-> ->]|[_ [_ ->]]]]; auto.
      * rewrite (E1 c Fi), (E2 c); auto. destruct Fi; split; auto.
      * rewrite (E2 c Fi), (E1 c); auto. destruct Fi; split; auto.
    + cbn [fst snd]. destruct (sw_cases r r' r) as [[_ ->]|[[X _]|[X _]]]; try congruence. split; [congruence|]. right; left. reflexivity.
  - assert (Fp : field s (0, c)) by (split; cbn [fst snd]; nia).
    apply (lines_move s (fun x => x) (sw c c') (0, c) (id_perm _ _) (sw_perm _ _ _ _ Hc Hc' B)); auto.
    + intros i j Fi. destruct (sw_cases c c' j) as [[-> ->]|[[-> ->]|[_ [_ ->]]]]; auto.
      * rewrite (E1 i Fi), (E2 i); auto. destruct Fi; split; auto.
      * rewrite (E2 i Fi), (E1 i); auto. destruct Fi; split; auto.
    + cbn [fst snd]. destruct (sw_cases c c' c) as [[_ ->]|[[X _]|[X _]]]; try congruence. split; [congruence|]. left. reflexivity.
  - assert (B := swb_perm (box_width s) (box_height s) b b' Hh Hb Hb').
    assert (Q : b * box_height s / box_height s = b) by (apply Z.div_mul; lia).
    assert (Fp : field s (b * box_height s, 0)) by (split; cbn [fst snd]; nia).
    assert (Dv : forall i, swb (box_height s) b b' i / box_height s = sw b b' (i / box_height s)) by (intros; apply swb_div; auto).
    apply (lines_move s _ (fun x => x) (b * box_height s, 0) B (id_perm _ _)); auto.
    + intros i c Fi. pose proof Fi as [F1 F2]. cbn [fst snd] in *. destruct (proj1 B i F1) as [R _].
      assert (Fj : field s (swb (box_height s) b b' i, c)) by (split; cbn [fst snd]; auto).
      destruct (sw_cases b b' (i / box_height s)) as [[X Y]|[[X Y]|[X1 [X2 Y]]]].
      * rewrite (E i ltac:(auto) c Fi). apply E; auto. rewrite Dv. auto.
      * rewrite (E i ltac:(auto) c Fi). apply E; auto. rewrite Dv. auto.
      * f_equal. f_equal. unfold swb. rewrite Y. pose proof (Z.div_mod i (box_height s) ltac:(lia)). lia.
    + cbn [fst snd]. assert (Ne : b * box_height s <> swb (box_height s) b b' (b * box_height s)).
      { intros X. pose proof (Dv (b * box_height s)) as Y. rewrite <- X, Q in Y. destruct (sw_cases b b' b) as [[_ Z]|[[Z _]|[Z _]]]; congruence. }
      split; [congruence|]. right; left. reflexivity.
  - assert (B := swb_perm (box_height s) (box_width s) b b' Hw Hb Hb'). rewrite Z.mul_comm in B.
    assert (Q : b * box_width s / box_width s = b) by (apply Z.div_mul; lia).
    assert (Fp : field s (0, b * box_width s)) by (split; cbn [fst snd]; nia).
    assert (Dv : forall i, swb (box_width s) b b' i / box_width s = sw b b' (i / box_width s)) by (intros; apply swb_div; auto).
    apply (lines_move s (fun x => x) _ (0, b * box_width s) (id_perm _ _) B); auto.
    + intros i c Fi. pose proof Fi as [F1 F2]. cbn [fst snd] in *. destruct (proj1 B c F2) as [R _].
      assert (Fj : field s (i, swb (box_width s) b b' c)) by (split; cbn [fst snd]; auto).
      destruct (sw_cases b b' (c / box_width s)) as [[X Y]|[[X Y]|[X1 [X2 Y]]]].
      * rewrite (E c ltac:(auto) i Fi). apply E; auto. rewrite Dv. auto.
      * rewrite (E c ltac:(auto) i Fi). apply E; auto. rewrite Dv. auto.
      * f_equal. f_equal. unfold swb. rewrite Y. pose proof (Z.div_mod c (box_width s) ltac:(lia)). lia.
    + cbn [fst snd]. assert (Ne : b * box_width s <> swb (box_width s) b b' (b * box_width s)).
      { intros X. pose proof (Dv (b * box_width s)) as Y. rewrite <- X, Q in Y. destruct (sw_cases b b' b) as [[_ Z]|[[Z _]|[Z _]]]; congruence. }
      split; [congruence|]. left. reflexivity.
Qed.

Lemma C127_poor_proof : forall s, wf s -> unique_solution s -> ~ poor s.
Proof. intros s W U P. destruct (poor_moves s W P) as [fm [nm M]]. apply (moves_not s fm nm M U). Qed.

Lemma poor_pattern : forall s t, wf s -> wf t -> box_width t = box_width s -> box_height t = box_height s ->
  (forall p, field s p -> (num t p = 0 <-> num s p = 0)) -> poor s -> poor t.
Proof.
  intros s t W Wt Ew Eh H P.
  assert (Fs : forall p, field t p <-> field s p) by (intros p; unfold field; rewrite Ew, Eh; tauto).
  assert (Re : forall r, row_empty s r -> row_empty t r) by (intros r E c Ft; apply Fs in Ft; apply H; auto).
  assert (Ce : forall c, column_empty s c -> column_empty t c) by (intros c E r Ft; apply Fs in Ft; apply H; auto).
  destruct P as [n E L|r r' Hr Hr' D B E1 E2|c c' Hc Hc' D B E1 E2|b b' Hb Hb' D E|b b' Hb Hb' D E].
  - apply (poor_count t n); [|rewrite Ew, Eh; auto]. rewrite <- E, !count_nfilled by auto. f_equal.
    unfold nfilled. f_equal. replace (coords t) with (coords s) by (unfold coords, indices; rewrite Ew, Eh; auto).
    apply filter_ext_in. intros p Hp. apply in_coords in Hp. specialize (H p Hp). f_equal.
    destruct (num t p =? 0) eqn:X, (num s p =? 0) eqn:Y; auto; b2p; tauto.
  - apply (poor_rows t r r'); rewrite ?Ew, ?Eh; auto.
  - apply (poor_columns t c c'); rewrite ?Ew, ?Eh; auto.
  - apply (poor_bands t b b'); rewrite ?Ew, ?Eh; auto.
  - apply (poor_stacks t b b'); rewrite ?Ew, ?Eh; auto.
Qed.

Lemma C127_is_unique_proof : forall ord s, (forall p l, Permutation (ord p l) l) -> wf s -> poor s -> is_unique ord s = Ok false.
Proof.
  intros ord s Ho W P. destruct (C27_proof ord s Ho W) as [b [E H]]. destruct b; auto. exfalso. apply (C127_poor_proof s W); auto. apply H; auto.
Qed.

Lemma C127_template_proof : forall fuel o template tries, wf template -> poor template ->
  (forall t, create_admissible (fst (o t)) /\ (forall p l, Permutation (snd (o t) p l) l)) ->
  (0 <= tries <= Z.of_nat fuel -> generate_from_template fuel o template tries = Err RuntimeError) /\
  (tries < 0 -> generate_from_template fuel o template tries = Err OutOfFuel).
Proof.
  intros fuel o template tries W P Ho.
  assert (X : forall s, generate_from_template fuel o template tries <> Ok s).
  { intros s E. destruct (C34_success_proof _ _ _ _ _ W Ho E) as [Ws [B [U [H _]]]]. apply (C127_poor_proof s Ws U).
    unfold box_size in B. injection B as B1 B2. apply (poor_pattern template s); auto. }
  split; intros Ht.
  - destruct (C34_failure_proof fuel o template tries W ltac:(lia) ltac:(lia) Ho) as [[[s E]|E] _]; auto. destruct (X s E).
  - destruct (C34_negative_proof fuel o template tries W Ht Ho) as [[s E]|[E _]]; auto. destruct (X s E).
Qed.

Lemma C127_generate_proof : forall o min_count y w h s, 1 <= w -> 1 <= h -> generate_admissible o -> min_count <= w ^ 2 * h ^ 2 -> y <> SymOther ->
  generate o min_count y (w, h) = Ok s -> ~ poor s /\ exists n, count s = Ok n /\ w * h - 1 <= n.
Proof.
  intros o m y w h s Hw Hh Ha Hm Hy E. destruct (C29_proof o m y w h Hw Hh Ha Hm Hy) as [s' [E' [W [B [U _]]]]].
  assert (s' = s) by congruence. subst s'. split; [apply C127_poor_proof; auto|].
  rewrite count_nfilled by auto. eexists. split; [reflexivity|]. unfold box_size in B. injection B as <- <-.
  destruct (Z_lt_le_dec (nfilled s) (box_width s * box_height s - 1)) as [L|]; auto. exfalso. apply (C127_poor_proof s W U).
  apply (poor_count s (nfilled s)); auto. apply count_nfilled; auto.
Qed.
