(** Lemmas for C123: with at most four rows, the clues of a sudoku with a unique solution lead to all fields by singles. *)
From Verif Require Export LForced LSizes LSmallData.

Local Opaque MSudoku.surrounding_of.

(** * Singles and closed sets *)
Lemma peers_turn : forall w h p q, peers w h p q -> peers w h q p.
Proof. intros w h p q [D H]. split; [congruence|]. unfold same_row, same_col, same_box in *. intuition congruence. Qed.
Lemma stuck_closed_set : forall w h u g o, 1 <= w -> 1 <= h -> oracle_ok o -> kept w h u -> solution u g -> stuck 1 u ->
  closed_set w h g (fun p => num u p <> 0).
Proof.
  intros w h u g o Hw Hh Ho K Hg St. pose proof (stuck_closed w h Hw Hh o 1 u Ho K St) as Cl. pose proof (kept_ok w h u K) as [W [Ew Eh]].
  pose proof K as [G [Td [C1 C2]]]. pose proof G as [SI _].
  pose proof (Cl NakedSingle 1 eq_refl ltac:(lia)) as N1. pose proof (Cl HiddenSingle 1 eq_refl ltac:(lia)) as N2.
  pose proof (proj1 Hg) as V. rewrite Ew, Eh in V.
  assert (Nu : forall p, cell w h p -> num u p <> 0 -> num u p = g p).
  { intros p Cp Np. destruct (proj2 Hg p) as [X|X]; [unfold field; rewrite Ew, Eh; auto|congruence|auto]. }
  split.
  - intros p Cp H Z0.
    assert (Only : forall x, In x (cand u p) -> x = g p).
    { intros x Hx. destruct (Z.eq_dec x (g p)) as [|D]; auto. exfalso. destruct (H x (C2 p x Cp Hx) D) as [q [Cq [Nq [Pq Eq]]]].
      apply (C1 q p x Cq Cp (peers_turn _ _ _ _ Pq) Nq Hx). rewrite (Nu q Cq Nq). congruence. }
    assert (Fp : field u p) by (unfold field; rewrite Ew, Eh; auto).
    assert (Nd : NoDup (cand u p)) by (apply (sset_NoDup _ zcmp_good); apply cand_sset; auto).
    pose proof (kept_ne w h u p K Fp) as Ne.
    destruct (cand u p) as [|a [|b l]] eqn:E; [congruence| |].
    + pose proof (kept_single w h o u K N1 p a Cp E) as X. pose proof (C2 p a Cp) as Y. rewrite E in Y. specialize (Y (or_introl eq_refl)). lia.
    + inversion Nd as [|x y Q1 Q2]; subst. apply Q1. left. rewrite (Only a), (Only b); simpl; auto.
  - intros k p Cp H Z0.
    assert (Fp : field u p) by (unfold field; rewrite Ew, Eh; auto).
    destruct (hidden_single_all o u Ho W) as [fs [ys [A [[_ B] D]]]]. unfold all_steps in *. rewrite N2 in A. injection A as <-.
    assert (fs = []) by (inversion D; reflexivity). subst fs. apply (proj2 (B p)). split; auto. split; auto. exists k, (g p). split; [rewrite Ew, Eh; apply V; auto|].
    intros q [Fq Tq] Dq Hq. unfold field in Fq. rewrite Ew, Eh in Fq.
    assert (T : tog w h k p q) by (destruct k; simpl in *; rewrite ?Ew, ?Eh in Tq; unfold same_row, same_col, same_box in *; intuition congruence).
    assert (Pq : peers w h p q) by (apply tog_peers; split; [congruence|exists k; auto]).
    destruct (H q Fq T Dq) as [Nq|[x [Cx [Nx [Px Ex]]]]].
    + pose proof (Td q (g p) Fq Nq Hq) as X. rewrite (Nu q Fq Nq) in X. exact (proj2 V p q Cp Fq Pq X).
    + apply (C1 x q (g p) Cx Fq (peers_turn _ _ _ _ Px) Nx Hq). rewrite (Nu x Cx Nx). congruence.
Qed.

(** * Filled sudokus with few rows *)
Definition sq (N : Z) (l : list Z) : grid := fun p => nth (Z.to_nat (fst p * N + snd p)) l 0.
Definition at_ (l : list Z) (i : Z) : Z := nth (Z.to_nat i) l (-1).
Definition kindb (w h : Z) (x : list Z * list (list Z)) : bool := forcedb 40 w h (sq (w * h) (fst x)) (map (sq (w * h)) (snd x)).

Definition cellb (w h : Z) (p : coord) : bool := (0 <=? fst p) && (fst p <? w * h) && (0 <=? snd p) && (snd p <? w * h).
Lemma cellb_ok : forall w h p, cellb w h p = true -> cell w h p.
Proof. intros w h p H. unfold cellb in H. unfold cell. rewrite !andb_true_iff, !Z.leb_le, !Z.ltb_lt in H. lia. Qed.

Definition moveb (w h : Z) (fm fi : coord -> coord) (nm ni : Z -> Z) (g g' : grid) : bool :=
  forallb (fun p => g' p =? nm (g (fm p))) (cells w h) &&
  forallb (fun p => cellb w h (fm p) && coord_eqb (fi (fm p)) p && cellb w h (fi p) && coord_eqb (fm (fi p)) p) (cells w h) &&
  forallb (fun v => (1 <=? nm v) && (nm v <=? w * h) && (ni (nm v) =? v) && (1 <=? ni v) && (ni v <=? w * h) && (nm (ni v) =? v)) (map (fun i => i + 1) (py_range (w * h))) &&
  forallb (fun k => forallb (fun p => forallb (fun q => Bool.eqb (togb w h k p q) (togb w h k (fm p) (fm q))) (cells w h)) (cells w h)) [KRow; KCol; KBox] &&
  valid_gridb w h g.
Lemma moveb_ok : forall w h fm fi nm ni g g', moveb w h fm fi nm ni g g' = true -> forced w h g' -> forced w h g.
Proof.
  intros w h fm fi nm ni g g' H Fo. unfold moveb in H. rewrite !andb_true_iff, !forallb_forall in H. destruct H as [[[[Hg Hc] Hn] Hk] V].
  apply valid_gridb_ok in V.
  assert (Num : forall v, 1 <= v <= w * h -> (1 <= nm v <= w * h /\ ni (nm v) = v) /\ 1 <= ni v <= w * h /\ nm (ni v) = v).
  { intros v Rv. assert (I : In v (map (fun i => i + 1) (py_range (w * h)))) by (apply in_map_iff; exists (v - 1); rewrite in_py_range; lia).
    specialize (Hn v I). rewrite !andb_true_iff, !Z.leb_le, !Z.eqb_eq in Hn. tauto. }
  assert (Cel : forall p, cell w h p -> (cell w h (fm p) /\ fi (fm p) = p) /\ cell w h (fi p) /\ fm (fi p) = p).
  { intros p Cp. specialize (Hc p (proj2 (in_cells w h p) Cp)). rewrite !andb_true_iff in Hc. destruct Hc as [[[A B] C] D].
    apply cellb_ok in A. apply cellb_ok in C. apply coord_eqb_eq in B. apply coord_eqb_eq in D. auto. }
  apply (forced_move w h w h fm fi nm ni false g g'); auto; try (intros; apply Cel; auto; fail); try (intros; apply Num; auto; fail).
  - intros k p q Cp Cq. assert (Ik : In k [KRow; KCol; KBox]) by (destruct k; simpl; auto).
    specialize (Hk k Ik). rewrite forallb_forall in Hk. specialize (Hk p (proj2 (in_cells w h p) Cp)). rewrite forallb_forall in Hk.
    specialize (Hk q (proj2 (in_cells w h q) Cq)). apply Bool.eqb_prop in Hk.
    change (turned false k) with k. rewrite <- !togb_ok, Hk. tauto.
  - intros p Cp. apply Z.eqb_eq. apply Hg. apply in_cells; auto.
Qed.

Definition wit := (nat * list Z * list Z * list Z * list Z * list Z * list Z)%type.
Definition witb (w h : Z) (kinds : list (list Z * list (list Z))) (g : grid) (x : wit) : bool :=
  match x with
  | (k, r, r', c, c', n, n') =>
      match nth_error kinds k with
      | Some y => moveb w h (fun p => (at_ r (fst p), at_ c (snd p))) (fun p => (at_ r' (fst p), at_ c' (snd p)))
                    (fun v => at_ n (v - 1)) (fun v => at_ n' (v - 1)) g (sq (w * h) (fst y))
      | None => false
      end
  end.
(** The sudoku of which only the first row is filled. *)
Definition first_row (w h : Z) : sudoku :=
  of_rows w h (map (fun r => if r =? 0 then map (fun i => i + 1) (py_range (w * h)) else map (fun _ => 0) (py_range (w * h))) (py_range (w * h))).
Definition id_ord (s : sudoku) (l : list Z) : list Z := l.
Definition smallb (w h : Z) (kinds : list (list Z * list (list Z))) (wits : list wit) : bool :=
  forallb (kindb w h) kinds && wfb (first_row w h) && (box_width (first_row w h) =? w) && (box_height (first_row w h) =? h) &&
  forallb (fun p => if fst p =? 0 then num (first_row w h) p =? snd p + 1 else num (first_row w h) p =? 0) (cells w h) &&
  forallb (fun y => existsb (witb w h kinds (num y)) wits) (gyields (bruteforce id_ord (first_row w h)) tt).

Lemma forced_same : forall w h g g', valid_grid w h g -> same_grid w h g' g -> forced w h g' -> forced w h g.
Proof.
  intros w h g g' V S1 H. apply (forced_move w h w h (fun p => p) (fun p => p) (fun v => v) (fun v => v) false g g'); auto.
  intros [] p q _ _; simpl; tauto.
Qed.

(** The first row of a filled sudoku contains every number. *)
Lemma first_row_has : forall w h g v, 1 <= w -> 1 <= h -> valid_grid w h g -> 1 <= v <= w * h -> exists c, 0 <= c < w * h /\ g (0, c) = v.
Proof.
  intros w h g v Hw Hh V Rv. set (N := w * h) in *.
  assert (Nd : NoDup (map (fun c => g (0, c)) (py_range N))).
  { apply map_nodup_in; [apply NoDup_py_range|]. intros a b Ha Hb E. rewrite in_py_range in *. destruct (Z.eq_dec a b) as [|D]; auto. exfalso.
    apply (proj2 V (0, a) (0, b)); auto; try (split; simpl; lia). split; [congruence|]. left. reflexivity. }
  assert (I : incl (map (fun i => i + 1) (py_range N)) (map (fun c => g (0, c)) (py_range N))).
  { apply NoDup_length_incl; auto; [rewrite !map_length; lia|]. intros x Hx. apply in_map_iff in Hx. destruct Hx as [c [<- Hc]]. rewrite in_py_range in Hc.
    assert (1 <= g (0, c) <= N) by (apply (proj1 V); split; simpl; lia). apply in_map_iff. exists (g (0, c) - 1). rewrite in_py_range. lia. }
  specialize (I v). rewrite !in_map_iff in I. destruct I as [c [A B]]; [exists (v - 1); rewrite in_py_range; lia|].
  rewrite in_py_range in B. exists c. auto.
Qed.
Definition place (w h : Z) (g : grid) (v : Z) : Z :=
  match List.find (fun c => g (0, c) =? v) (py_range (w * h)) with Some c => c + 1 | None => 0 end.

Lemma smallb_ok : forall w h kinds wits, 1 <= w -> 1 <= h -> smallb w h kinds wits = true -> forall g, valid_grid w h g -> forced w h g.
Proof.
  intros w h kinds wits Hw Hh H g V. unfold smallb in H. rewrite !andb_true_iff, !Z.eqb_eq, !forallb_forall in H.
  destruct H as [[[[[Hk Hwf] Ew] Eh] Hn] Hy]. apply wfb_ok in Hwf. set (s0 := first_row w h) in *.
  assert (Hp : forall v, 1 <= v <= w * h -> 1 <= place w h g v <= w * h /\ g (0, place w h g v - 1) = v).
  { intros v Rv. unfold place. destruct (first_row_has w h g v Hw Hh V Rv) as [c [Rc Ec]].
    destruct (List.find _ _) as [d|] eqn:Ef.
    - apply find_some in Ef. destruct Ef as [A B]. rewrite in_py_range in A. apply Z.eqb_eq in B. split; [lia|]. replace (d + 1 - 1) with d by lia. exact B.
    - exfalso. pose proof (find_none _ _ Ef c (proj2 (in_py_range _ _) Rc)) as X. apply Z.eqb_neq in X. auto. }
  assert (Hi : forall v, 1 <= v <= w * h -> 1 <= g (0, v - 1) <= w * h /\ place w h g (g (0, v - 1)) = v).
  { intros v Rv. assert (R1 : 1 <= g (0, v - 1) <= w * h) by (apply (proj1 V); split; simpl; lia). split; auto.
    destruct (Hp _ R1) as [A B]. destruct (Z.eq_dec (place w h g (g (0, v - 1))) v) as [|D]; auto. exfalso.
    apply (proj2 V (0, place w h g (g (0, v - 1)) - 1) (0, v - 1)); auto; try (split; simpl; lia).
    split; [intros X; injection X; lia|]. left; reflexivity. }
  set (g1 := fun p => place w h g (g p)).
  assert (V1 : valid_grid w h g1).
  { split.
    - intros p Cp. apply Hp. apply V; auto.
    - intros p q Cp Cq Pq E. apply (proj2 V p q Cp Cq Pq). unfold g1 in E.
      rewrite <- (proj2 (Hp (g p) (proj1 V p Cp))), <- (proj2 (Hp (g q) (proj1 V q Cq))), E. reflexivity. }
  assert (F1 : forced w h g1).
  { assert (Cm : completion s0 g1).
    { split.
      - intros p Fp. unfold field in Fp. rewrite Ew, Eh in *. split; [|intros _; apply V1; auto]. specialize (Hn p (proj2 (in_cells w h p) Fp)).
        destruct (fst p =? 0) eqn:E0; [|apply Z.eqb_eq in Hn; congruence]. intros _. apply Z.eqb_eq in E0. apply Z.eqb_eq in Hn. rewrite Hn.
        destruct p as [r c]. cbn [fst snd] in *. subst r. unfold g1. destruct Fp as [_ Fc]. cbn [snd] in Fc.
        destruct (Hi (c + 1)) as [_ X]; [lia|]. replace (c + 1 - 1) with c in X by lia. exact X.
      - intros p q Fp Fq. unfold field in *. rewrite Ew, Eh in *. apply (proj2 V1); auto. }
    destruct (C19_proof id_ord s0 (fun _ l => Permutation_refl l) Hwf) as [_ [Bx [En _]]]. destruct (En g1 Cm) as [y [Iy Sy]].
    specialize (Hy y Iy). apply existsb_exists in Hy. destruct Hy as [[[[[[[k r] r'] c] c'] n] n'] [_ Hx]]. unfold witb in Hx.
    destruct (nth_error kinds k) as [z|] eqn:Ez; [|discriminate].
    apply moveb_ok in Hx; [|apply (forcedb_ok 40 w h _ (map (sq (w * h)) (snd z))); apply Hk; eapply nth_error_In; eauto].
    apply (forced_same w h g1 (num y)); auto. destruct (Bx y Iy) as [_ [Bs _]]. unfold box_size in Bs.
    intros p Cp. apply Sy. unfold field. replace (box_width y) with w by congruence. replace (box_height y) with h by congruence. exact Cp. }
  apply (forced_move w h w h (fun p => p) (fun p => p) (place w h g) (fun v => g (0, v - 1)) false g g1); auto.
  intros [] p q _ _; simpl; tauto.
Qed.

(** * The result *)
Lemma small_4_1 : smallb 4 1 kinds_4_1 moves_4_1 = true.
Proof. vm_compute. reflexivity. Qed.
Lemma small_2_2 : smallb 2 2 kinds_2_2 moves_2_2 = true.
Proof. vm_compute. reflexivity. Qed.
Lemma small_3_1 : smallb 3 1 kinds_3_1 moves_3_1 = true.
Proof. vm_compute. reflexivity. Qed.
Lemma small_2_1 : smallb 2 1 kinds_2_1 moves_2_1 = true.
Proof. vm_compute. reflexivity. Qed.
Lemma small_1_1 : smallb 1 1 kinds_1_1 moves_1_1 = true.
Proof. vm_compute. reflexivity. Qed.

Lemma transpose_forced : forall N g, 1 <= N -> (forall g, valid_grid N 1 g -> forced N 1 g) -> valid_grid 1 N g -> forced 1 N g.
Proof.
  intros N g HN H V.
  assert (Tc : forall p, cell 1 N p <-> cell N 1 (snd p, fst p)) by (intros p; unfold cell; cbn [fst snd]; lia).
  assert (Tt : forall k p q, cell N 1 p -> cell N 1 q -> (tog N 1 k p q <-> tog 1 N (turned true k) (snd p, fst p) (snd q, fst q))).
  { intros [] [a b] [c d] _ _; simpl; unfold same_row, same_col, same_box; cbn [fst snd]; tauto. }
  assert (Tp : forall p q, cell N 1 p -> cell N 1 q -> peers N 1 p q -> peers 1 N (snd p, fst p) (snd q, fst q)).
  { intros p q Cp Cq. rewrite !tog_peers. intros [D [k T]]. split; [intros E; injection E as E1 E2; apply D; destruct p, q; simpl in *; congruence|].
    exists (turned true k). apply Tt; auto. }
  apply (forced_move 1 N N 1 (fun p => (snd p, fst p)) (fun p => (snd p, fst p)) (fun v => v) (fun v => v) true g (fun p => g (snd p, fst p))); auto; try lia.
  - intros [a b] C. split; auto. rewrite Tc. exact C.
  - intros [a b] C. split; auto. rewrite Tc in C. exact C.
  - apply H. split.
    + intros p Cp. replace (N * 1) with (1 * N) by lia. apply V. rewrite Tc. destruct p; exact Cp.
    + intros p q Cp Cq Pq. apply V; [rewrite Tc; destruct p; exact Cp|rewrite Tc; destruct q; exact Cq|apply Tp; auto].
Qed.
Lemma small_forced : forall w h g, 1 <= w -> 1 <= h -> w * h <= 4 -> valid_grid w h g -> forced w h g.
Proof.
  intros w h g Hw Hh L V.
  assert (X : forall N g, 1 <= N <= 4 -> valid_grid N 1 g -> forced N 1 g).
  { intros N g0 R. assert (N = 1 \/ N = 2 \/ N = 3 \/ N = 4) as [->|[->|[->| ->]]] by lia.
    - apply (smallb_ok 1 1 kinds_1_1 moves_1_1); [lia|lia|exact small_1_1].
    - apply (smallb_ok 2 1 kinds_2_1 moves_2_1); [lia|lia|exact small_2_1].
    - apply (smallb_ok 3 1 kinds_3_1 moves_3_1); [lia|lia|exact small_3_1].
    - apply (smallb_ok 4 1 kinds_4_1 moves_4_1); [lia|lia|exact small_4_1]. }
  destruct (Z.eq_dec h 1) as [->|H1]; [apply X; auto; lia|].
  destruct (Z.eq_dec w 1) as [->|W1]; [apply transpose_forced; auto; intros; apply X; auto; lia|].
  assert (w = 2) by nia. assert (h = 2) by nia. subst. exact (smallb_ok 2 2 kinds_2_2 moves_2_2 Hw Hh small_2_2 g V).
Qed.

Lemma unique_solvable : forall o s t f, oracle_ok o -> wf s -> solution s f -> unique_solution s -> box_width s * box_height s <= 4 -> init_candidates s false = Ok t ->
  solvable_with 1 t.
Proof.
  intros o s t f Ho W Hf Un L Et.
  set (w := box_width s) in *. set (h := box_height s) in *. assert (O : ok_sudoku w h s) by (split; auto).
  assert (Hw : 1 <= w) by apply (wf_w _ W). assert (Hh : 1 <= h) by apply (wf_h _ W).
  pose proof (start_kept w h Hw Hh s t f O Hf Et) as Kt.
  destruct (C118_end_proof o s t f 1 Ho W Hf Et) as [u [P St]].
  destruct (play_kept w h Hw Hh 1 t u P Kt) as [Ku Lu]. pose proof (kept_ok w h t Kt) as Ot. pose proof (kept_ok w h u Ku) as [Wu [Ewu Ehu]].
  destruct (start_cand s t W Et) as [_ [_ [_ [Nt _]]]].
  pose proof (solutions_eq w h s t O Ot (fun p _ => Nt p)) as Sol.
  assert (Ft : solution t f) by (apply Sol; auto).
  assert (Fu : solution u f) by (apply (play_solutions w h 1 t u); auto; lia).
  exists u. split; auto. intros p Fp. unfold field in Fp. rewrite Ewu, Ehu in Fp. revert p Fp.
  apply (small_forced w h f Hw Hh L (proj1 Hf) (filter (fun p => negb (num s p =? 0)) (cells w h))).
  - intros p Hp. apply filter_In in Hp. destruct Hp as [Cp Np]. apply in_cells in Cp. split; auto. apply negb_true_iff, Z.eqb_neq in Np.
    assert (Fp : field s p) by exact Cp. assert (Fp1 : field u p) by (unfold field; rewrite Ewu, Ehu; auto).
    assert (Ec : cand u p = [num s p]).
    { pose proof (kept_ne w h u p Ku Fp1) as Ne. assert (Nd : NoDup (cand u p)) by (apply (sset_NoDup _ zcmp_good); apply cand_sset; auto).
      assert (Only : forall x, In x (cand u p) -> x = num s p).
      { intros x Hx. apply (Lu p x Cp) in Hx. rewrite <- Nt. apply (proj1 (proj2 Kt)); auto. rewrite Nt; auto. }
      destruct (cand u p) as [|a [|b l]]; [congruence|rewrite (Only a); simpl; auto|].
      exfalso. inversion Nd as [|x y Q1 Q2]; subst. apply Q1. left. rewrite (Only a), (Only b); simpl; auto. }
    rewrite (kept_single w h o u Ku (stuck_closed w h Hw Hh o 1 u Ho Ku St NakedSingle 1 eq_refl ltac:(lia)) p _ Cp Ec). exact Np.
  - apply (stuck_closed_set w h u f o); auto.
  - intros f' Vf Hc. destruct Un as [x [Hx Ux]].
    assert (Hf' : solution s f').
    { split; auto. intros p Fp. destruct (Z.eq_dec (num s p) 0) as [|N0]; auto. right.
      rewrite (Hc p); [|apply filter_In; split; [apply in_cells; auto|apply negb_true_iff, Z.eqb_neq; auto]].
      destruct (proj2 Hf p Fp) as [X|X]; [congruence|auto]. }
    intros p Cp. rewrite (Ux f' Hf' p Cp), (Ux f Hf p Cp). reflexivity.
Qed.
