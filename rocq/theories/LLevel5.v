(** Lemmas for C120: a sudoku in which nothing is left to be found is moved to another box size or arrangement. *)
From Verif Require Export LLevel4 LEquiv SpecAlike.

Local Opaque MSudoku.surrounding_of.

Lemma alike_sym : forall fm fi nm ni s t, alike fm fi nm ni s t -> alike fi fm ni nm t s.
Proof.
  intros fm fi nm ni s t [E [b U]]. split; [apply equivalent_sym; auto|]. exists b. intros k p q Fp Fq.
  destruct (eq_from _ _ _ _ _ _ E p Fp) as [F1 I1]. destruct (eq_from _ _ _ _ _ _ E q Fq) as [F2 I2].
  rewrite (U (turned b k) (fi p) (fi q)) by auto. rewrite I1, I2. destruct b, k; reflexivity.
Qed.

(** The candidates of [T], moved back. *)
Definition pull (w h : Z) (fm : coord -> coord) (ni : Z -> Z) (T : sudoku) : sudoku :=
  {| box_width := w; box_height := h;
     s_numbers := map (fun _ => map (fun _ => 0) (py_range (w * h))) (py_range (w * h));
     s_candidates := map (fun r => map (fun c => sof_list zcmp (map ni (cand T (fm (r, c))))) (py_range (w * h))) (py_range (w * h)) |}.

Lemma pull_wf : forall w h fm ni T, 1 <= w -> 1 <= h -> wf (pull w h fm ni T).
Proof.
  intros w h fm ni T Hw Hh. constructor; cbn [pull box_width box_height s_numbers s_candidates]; auto.
  - rewrite map_length, length_py_range. auto.
  - intros row H. apply in_map_iff in H. destruct H as [x [<- _]]. rewrite map_length, length_py_range. auto.
  - rewrite map_length, length_py_range. auto.
  - intros row H. apply in_map_iff in H. destruct H as [x [<- _]]. rewrite map_length, length_py_range. auto.
  - intros row c H Hc. apply in_map_iff in H. destruct H as [x [<- _]]. apply in_map_iff in Hc. destruct Hc as [y [<- _]].
    apply zsorted_sset. apply sof_list_sset. apply zcmp_good.
Qed.

Lemma pull_cand : forall w h fm ni T p, cell w h p -> cand (pull w h fm ni T) p = sof_list zcmp (map ni (cand T (fm p))).
Proof.
  intros w h fm ni T [r c] [Hr Hc]. cbn [fst snd] in *. unfold cand at 1, get_candidates. cbn [pull s_candidates fst snd].
  rewrite (list_get_ok _ r []) by (unfold py_len; rewrite map_length, length_py_range; lia). cbn [rbind].
  rewrite (nth_indep _ [] (map (fun c => sof_list zcmp (map ni (cand T (fm (0, c))))) (py_range (w * h)))) by (rewrite map_length, length_py_range; lia).
  rewrite (map_nth (fun r => map (fun c => sof_list zcmp (map ni (cand T (fm (r, c))))) (py_range (w * h)))).
  rewrite (nth_py_range) by lia. rewrite Z2Nat.id by lia.
  rewrite (list_get_ok (A := zset) _ c []) by (unfold py_len; rewrite map_length, length_py_range; lia).
  rewrite (nth_indep (A := zset) _ [] (sof_list zcmp (map ni (cand T (fm (r, 0)))))) by (rewrite map_length, length_py_range; lia).
  rewrite (map_nth (fun c => sof_list zcmp (map ni (cand T (fm (r, c)))))). rewrite nth_py_range by lia. rewrite Z2Nat.id by lia. reflexivity.
Qed.

Section Pull.
Variables s T : sudoku.
Variables (fm fi : coord -> coord) (nm ni : Z -> Z) (b : bool).
Hypothesis WT : wf T.
Hypothesis Ws : wf s.
Hypothesis Es : box_width T * box_height T = box_width s * box_height s.
Hypothesis To : forall p, field s p -> field T (fm p) /\ fi (fm p) = p.
Hypothesis Fr : forall q, field T q -> field s (fi q) /\ fm (fi q) = q.
Hypothesis Pe : forall p q, field s p -> field s q ->
    (peers (box_width s) (box_height s) p q <-> peers (box_width T) (box_height T) (fm p) (fm q)).
Hypothesis Re : forall v, ni (nm v) = v /\ nm (ni v) = v.
Hypothesis Ra : forall v, 1 <= v <= box_width s * box_height s <-> 1 <= nm v <= box_width s * box_height s.
Hypothesis U : forall k p q, field s p -> field s q -> (together s k p q <-> together T (turned b k) (fm p) (fm q)).
Let P := pull (box_width s) (box_height s) fm ni T.

Lemma pw : wf P.
Proof. apply pull_wf; apply Ws. Qed.
Lemma pf : forall p, field P p <-> field s p.
Proof. intros p. reflexivity. Qed.
Lemma in_pull : forall p x, field s p -> (In x (cand P p) <-> In (nm x) (cand T (fm p))).
Proof.
  intros p x Fp. unfold P. rewrite pull_cand by exact Fp. rewrite (In_sof_list _ zcmp_good), in_map_iff. split.
  - intros [y [<- Hy]]. rewrite (proj2 (Re y)). auto.
  - intros H. exists (nm x). split; [apply Re|auto].
Qed.
Lemma inj_n : forall a c, nm a = nm c -> a = c.
Proof. intros a c H. rewrite <- (proj1 (Re a)), <- (proj1 (Re c)). congruence. Qed.
Lemma inj_f : forall p q, field s p -> field s q -> fm p = fm q -> p = q.
Proof. intros p q Fp Fq H. rewrite <- (proj2 (To p Fp)), <- (proj2 (To q Fq)). congruence. Qed.
Lemma only : forall (l : zset) v, zsset l -> (forall x, In x l <-> x = v) -> l = [v].
Proof.
  intros l v Sl H. apply (sset_ext _ zcmp_good); auto; [repeat constructor|]. intros x. rewrite H. simpl. split; [auto|intros [X|[]]; auto].
Qed.
Lemma pull_one : forall p v, field s p -> (cand P p = [v] <-> cand T (fm p) = [nm v]).
Proof.
  intros p v Fp. split; intros E.
  - apply only; [apply cand_sset; auto; apply To; auto|]. intros y. rewrite <- (proj2 (Re y)) at 1. rewrite <- in_pull by auto. rewrite E. simpl.
    split; [intros [X|[]]; rewrite X; symmetry; apply Re|]. intros ->. left. symmetry. apply Re.
  - apply only; [apply cand_sset; [apply pw|exact Fp]|]. intros x. rewrite in_pull by auto. rewrite E. simpl.
    split; [intros [X|[]]; apply inj_n; auto|intros ->; auto].
Qed.
Lemma pull_unit : forall k q0 p, field s q0 -> field s p -> (unit_at P k q0 p <-> unit_at T (turned b k) (fm q0) (fm p)).
Proof.
  intros k q0 p F0 Fp. unfold unit_at. change (together P k p q0) with (together s k p q0). rewrite (U k p q0) by auto.
  split; intros [A B]; (split; [|exact B]); [apply To; auto|exact Fp].
Qed.
(** Fields of [T] come from fields of [P]. *)
Lemma back : forall q, field T q -> exists p, field s p /\ fm p = q.
Proof. intros q Fq. exists (fi q). apply Fr; auto. Qed.

Lemma pull_single : keeps_single T -> keeps_single P.
Proof.
  intros [K1 K2]. split.
  - intros p q v Fp Fq E Pq. rewrite in_pull by exact Fq. apply pull_one in E; [|exact Fp].
    apply (K1 (fm p) (fm q) (nm v)); auto; try (apply To; auto). apply Pe; auto.
  - intros p k v Fp Hv H. apply pull_one; [exact Fp|]. apply (K2 (fm p) (turned b k)); [apply To; auto|rewrite Es; apply (proj1 (Ra _)); auto|].
    intros q' Uq Nq. destruct (back q' (proj1 Uq)) as [q [Fq <-]]. rewrite <- in_pull by auto. apply H; [apply pull_unit; auto|]. intros ->. auto.
Qed.

Lemma pull_naked : forall n, keeps_naked T n -> keeps_naked P n.
Proof.
  intros n K k q0 fields vals L F0 Nf Uf Lv Hv q v Uq Nq Hvq. assert (Fs : forall p, In p fields -> field s p) by (intros p Hp; apply (Uf p Hp)).
  pose proof (proj1 Uq) as Fq. rewrite in_pull by exact Fq.
  apply (K (turned b k) (fm q0) (map fm fields) (map nm vals)); rewrite ?map_length; auto.
  - apply To; auto.
  - clear -Nf Fs To. induction Nf as [|p l Np Nl IH]; simpl; constructor.
    + intros H. apply in_map_iff in H. destruct H as [p' [E H]]. apply Np. rewrite <- (inj_f p' p); simpl in *; auto.
    + apply IH. intros; apply Fs; right; auto.
  - intros p' Hp'. apply in_map_iff in Hp'. destruct Hp' as [p [<- Hp]]. apply pull_unit; auto.
  - intros p' x Hp' Hx. apply in_map_iff in Hp'. destruct Hp' as [p [<- Hp]]. rewrite <- (proj2 (Re x)) in Hx. apply in_pull in Hx; auto.
    apply in_map_iff. exists (ni x). split; [apply Re|]. apply (Hv p); auto.
  - apply pull_unit; auto.
  - intros H. apply in_map_iff in H. destruct H as [p [E Hp]]. apply Nq. rewrite <- (inj_f p q); auto.
  - apply in_map; auto.
Qed.

Lemma pull_hidden : forall n, keeps_hidden T n -> keeps_hidden P n.
Proof.
  intros n K k q0 nums fields L F0 Nn Rn Lf Hf q x Uq Hq Hx. pose proof (proj1 Uq) as Fq. apply in_pull in Hx; [|exact Fq].
  assert (X : In (nm x) (map nm nums)); [|apply in_map_iff in X; destruct X as [y [E Hy]]; apply inj_n in E; subst; auto].
  apply (K (turned b k) (fm q0) (map nm nums) (map fm fields)) with (q := fm q); rewrite ?map_length; auto.
  - apply To; auto.
  - clear -Nn Re. induction Nn as [|v l Nv Nl IH]; simpl; constructor; auto.
    intros H. apply in_map_iff in H. destruct H as [y [E Hy]]. apply inj_n in E. subst; auto.
  - intros v Hv. apply in_map_iff in Hv. destruct Hv as [y [<- Hy]]. rewrite Es. apply (proj1 (Ra _)). apply Rn; auto.
  - intros p' v' Up Hv Hc. destruct (back p' (proj1 Up)) as [p [Fp <-]]. apply in_map_iff in Hv. destruct Hv as [y [<- Hy]].
    apply in_map. apply (Hf p y); auto; [apply pull_unit; auto|apply in_pull; auto].
  - apply pull_unit; auto.
  - apply in_map; auto.
Qed.

Lemma together_trans : forall (S : sudoku) k p q r, together S k p r -> together S k q r -> together S k p q.
Proof. intros S [] p q r; unfold together, same_row, same_col, same_box; [congruence|congruence|]. intros [A B] [C D]. split; congruence. Qed.
Lemma pull_pointing : forall n, keeps_pointing T n -> keeps_pointing P n.
Proof.
  intros n K k k2 q0 q2 c clues X F0 Hc L Hu Ht q Uq Nq. pose proof (proj1 Uq) as Fq. rewrite in_pull by exact Fq.
  set (N := box_width s * box_height s). set (fd := fun p : coord => ((0 <=? fst p) && (fst p <? N)) && ((0 <=? snd p) && (snd p <? N))).
  assert (Fd : forall p, fd p = true <-> field s p) by (intros p; unfold fd, field, cell; fold N; rewrite !andb_true_iff, !Z.leb_le, !Z.ltb_lt; tauto).
  apply (K (turned b k) (turned b k2) (fm q0) (fm q) (nm c) (map fm (filter fd clues))); rewrite ?map_length.
  - clear -X. unfold crossing in *. destruct b; destruct X as [[-> ->]|[[-> ->]|[[-> ->]|[-> ->]]]]; simpl; tauto.
  - apply To; auto.
  - rewrite Es. apply (proj1 (Ra _)); auto.
  - apply Nat.le_trans with (2 := L). clear. induction clues as [|p l IH]; simpl; auto. destruct (fd p); simpl; lia.
  - intros p' Up Hp. destruct (back p' (proj1 Up)) as [p [Fp <-]]. apply in_map. apply filter_In. split; [|apply Fd; auto].
    apply Hu; [apply pull_unit; auto|apply in_pull; auto].
  - intros p' Hp'. apply in_map_iff in Hp'. destruct Hp' as [p [<- Hp]]. apply filter_In in Hp. destruct Hp as [Hp Fp]. apply Fd in Fp.
    apply U; auto. apply (together_trans s k2 p q q2); [apply (Ht p Hp)|apply Uq].
  - split; [apply To; auto|]. apply U; auto. destruct k2; unfold together, same_row, same_col, same_box; auto.
  - intros H. apply in_map_iff in H. destruct H as [p [E Hp]]. apply filter_In in Hp. destruct Hp as [Hp Fp]. apply Fd in Fp.
    apply Nq. rewrite <- (inj_f p q); auto.
Qed.

Lemma pull_fish : forall n, keeps_fish T n -> keeps_fish P n.
Proof.
  intros n K line other c lines keys X Hc L Nl Rl Lk Hk q Fq Hq Nq. rewrite in_pull by exact Fq.
  change (box_width P) with (box_width s) in *. change (box_height P) with (box_height s) in *.
  assert (D : exists line' other', crosses line' other' /\
     (forall p q, field s p -> field s q -> (line p = line q <-> line' (fm p) = line' (fm q))) /\
     (forall p q, field s p -> field s q -> (other p = other q <-> other' (fm p) = other' (fm q)))).
  { pose proof (U KRow) as U1. pose proof (U KCol) as U2. unfold together, same_row, same_col in U1, U2.
    destruct X as [[-> ->]|[-> ->]], b; cbn [turned] in U1, U2.
    - exists snd, fst. split; [right; auto|]. auto.
    - exists fst, snd. split; [left; auto|]. auto.
    - exists fst, snd. split; [left; auto|]. auto.
    - exists snd, fst. split; [right; auto|]. auto. }
  destruct D as [line' [other' [X' [D1 D2]]]].
  assert (Rg : forall p, field s p -> 0 <= line p < box_width s * box_height s /\ 0 <= other p < box_width s * box_height s).
  { intros p [A B]. destruct X as [[-> ->]|[-> ->]]; auto. }
  assert (Pt : forall i, 0 <= i < box_width s * box_height s -> field s (i, i) /\ line (i, i) = i /\ other (i, i) = i).
  { intros i Hi. split; [split; auto|]. destruct X as [[-> ->]|[-> ->]]; auto. }
  set (lm := fun i => line' (fm (i, i))). set (om := fun i => other' (fm (i, i))).
  assert (Lm : forall p i, field s p -> 0 <= i < box_width s * box_height s -> (line' (fm p) = lm i <-> line p = i)).
  { intros p i Fp Hi. destruct (Pt i Hi) as [F1 [F2 _]]. unfold lm. rewrite <- D1 by auto. rewrite F2. tauto. }
  assert (Om : forall p, field s p -> other' (fm p) = om (other p)).
  { intros p Fp. destruct (Pt (other p)) as [F1 [_ F2]]; [apply Rg; auto|]. unfold om. rewrite <- D2 by auto. auto. }
  apply (K line' other' (nm c) (map lm lines) (map om keys)); rewrite ?map_length; auto.
  - rewrite Es. apply (proj1 (Ra _)); auto.
  - clear -Nl Rl Lm Pt. induction Nl as [|i l Ni Nl IH]; simpl; constructor.
    + intros H. apply in_map_iff in H. destruct H as [j [E Hj]]. apply Ni. destruct (Pt j) as [F1 [F2 _]]; [apply Rl; right; auto|].
      apply Lm in E; auto; [|apply Rl; left; auto]. rewrite F2 in E. subst; auto.
    + apply IH. intros; apply Rl; right; auto.
  - intros i Hi. apply in_map_iff in Hi. destruct Hi as [j [<- Hj]]. destruct (Pt j (Rl j Hj)) as [F1 _]. destruct (To _ F1) as [[A B] _].
    unfold lm. destruct X' as [[-> _]|[-> _]]; auto.
  - intros p' Fp' Hl Hp. destruct (back p' Fp') as [p [Fp <-]]. apply in_map_iff in Hl. destruct Hl as [j [E Hj]].
    symmetry in E. apply Lm in E; auto. rewrite Om by auto. apply in_map. apply Hk; [exact Fp|rewrite E; auto|apply in_pull; auto].
  - apply To; auto.
  - rewrite Om by exact Fq. apply in_map; auto.
  - intros H. apply in_map_iff in H. destruct H as [j [E Hj]]. symmetry in E. apply Lm in E; auto. apply Nq. rewrite E; auto.
Qed.

Lemma pull_keeps : forall cls, keeps T cls -> keeps P cls.
Proof.
  intros cls. destruct cls as [| | |n|n|n|n|]; simpl; auto using pull_single, pull_naked, pull_hidden, pull_pointing.
  intros [A B]. split; auto. apply pull_fish; auto.
Qed.
End Pull.

(** What solves a sudoku solves one that looks alike. *)
Lemma alike_solvable : forall fm fi nm ni s t f o r s0 t0, alike fm fi nm ni s t -> wf s -> wf t -> solution s f -> oracle_ok o -> 1 <= r < 10 ->
  init_candidates s false = Ok s0 -> init_candidates t false = Ok t0 -> solvable_with r s0 -> solvable_with r t0.
Proof.
  intros fm fi nm ni s t f o r s0 t0 [E [b U]] Ws Wt Hf Ho Hr Es0 Et0 [u [Pu Cu]].
  set (w := box_width s). set (h := box_height s). assert (O : ok_sudoku w h s) by (split; auto).
  assert (Hw : 1 <= w) by apply (wf_w _ Ws). assert (Hh : 1 <= h) by apply (wf_h _ Ws).
  set (w' := box_width t). set (h' := box_height t). assert (O' : ok_sudoku w' h' t) by (split; auto).
  assert (Hw' : 1 <= w') by apply (wf_w _ Wt). assert (Hh' : 1 <= h') by apply (wf_h _ Wt).
  pose proof (equiv_solution1 _ _ _ _ _ _ _ E Hf) as Hf'.
  pose proof (start_kept w h Hw Hh s s0 f O Hf Es0) as Ks. pose proof (start_kept w' h' Hw' Hh' t t0 _ O' Hf' Et0) as Kt.
  destruct (play_on w' h' Hw' Hh' o r (S (measure w' h' t0)) t0 Ho Kt) as [T [PT [KT [LT Cl]]]]; [lia|].
  exists T. split; auto. pose proof (kept_ok w' h' T KT) as [WT [EwT EhT]].
  assert (FT : forall p, field T p <-> field t p) by (intros p; unfold field; rewrite EwT, EhT; reflexivity).
  assert (Es : box_width T * box_height T = box_width s * box_height s) by (rewrite EwT, EhT; apply (eq_size _ _ _ _ _ _ E)).
  assert (To : forall p, field s p -> field T (fm p) /\ fi (fm p) = p) by (intros p Fp; rewrite FT; apply (eq_to _ _ _ _ _ _ E); auto).
  assert (Fr : forall q, field T q -> field s (fi q) /\ fm (fi q) = q) by (intros q Fq; apply (eq_from _ _ _ _ _ _ E); apply FT; auto).
  assert (Pe : forall p q, field s p -> field s q -> (peers (box_width s) (box_height s) p q <-> peers (box_width T) (box_height T) (fm p) (fm q)))
    by (rewrite EwT, EhT; apply (eq_peers _ _ _ _ _ _ E)).
  pose proof (eq_ren _ _ _ _ _ _ E) as Re. pose proof (eq_range _ _ _ _ _ _ E) as Ra.
  assert (UT : forall k p q, field s p -> field s q -> (together s k p q <-> together T (turned b k) (fm p) (fm q))).
  { intros k p q Fp Fq. rewrite (U k p q Fp Fq). destruct (turned b k); unfold together; rewrite ?EwT, ?EhT; reflexivity. }
  set (P := pull w h fm ni T).
  assert (Ip : forall p x, field s p -> (In x (cand P p) <-> In (nm x) (cand T (fm p)))) by (intros p x Fp; apply in_pull; auto).
  assert (Ab : above P s0).
  { split; [apply (kept_ok w h s0 Ks)|]. intros p x Fp Hx. change (field s p) in Fp. apply Ip in Hx; auto.
    destruct (start_cand s s0 Ws Es0) as [_ [_ [_ [_ Cs]]]]. destruct (start_cand t t0 Wt Et0) as [_ [_ [_ [_ Ct]]]].
    destruct (C99_candidates_proof fm fi nm ni s t p x E Ws Wt Fp) as [l [l' [A1 [A2 A3]]]].
    destruct (eq_to _ _ _ _ _ _ E p Fp) as [F' _].
    rewrite calc_candidates_ok in A1 by (auto; destruct p; auto). rewrite calc_candidates_ok in A2 by (auto; destruct (fm p); auto).
    injection A1 as <-. injection A2 as <-. rewrite <- !surjective_pairing in A3.
    rewrite Cs by auto. apply A3. rewrite <- Ct by auto. apply LT; auto. }
  assert (Ne : forall p, field P p -> cand P p <> []).
  { intros p Fp H. change (field s p) in Fp. destruct (To p Fp) as [F' _]. pose proof (kept_ne w' h' T (fm p) KT F') as N.
    destruct (cand T (fm p)) as [|y l] eqn:X; [congruence|].
    assert (Y : In (ni y) (cand P p)) by (apply Ip; auto; rewrite (proj2 (Re y)), X; left; auto). rewrite H in Y. destruct Y. }
  assert (Au : above P u).
  { assert (G : forall a v, play r a v -> above P a -> above P v); [|apply (G s0); auto].
    intros a v Pl; induction Pl as [a|a st st' a1 v H A Pl IH]; auto. intros Aa. apply IH. destruct H as [o' [cls [ys [k [Ho' [Hy [Hst [Hk Lk]]]]]]]].
    apply (step_above P (pull_wf w h fm ni T Hw Hh) Hw Hh Ne o' cls a ys st st' a1); auto.
    apply (pull_keeps s T fm fi nm ni b); auto. apply (closed_keeps w' h' Hw' Hh' o r T Ho KT Cl ltac:(lia) cls k); auto. }
  destruct (play_kept w h Hw Hh r s0 u Pu Ks) as [Ku Lu].
  intros q Fq. assert (Q : exists p, field s p /\ fm p = q) by (exists (fi q); apply Fr; auto). destruct Q as [p [Fp I]].
  assert (Cp : cand P p = [num u p]).
  { assert (X : forall x, In x (cand P p) -> x = num u p).
    { intros x Hx. apply (proj2 Au) in Hx; [|exact Fp]. rewrite (complete_cand w h u p Ku Cu Fp) in Hx. destruct Hx as [<-|[]]; auto. }
    pose proof (Ne p Fp) as N. pose proof (cand_nodup P (pull_wf w h fm ni T Hw Hh) p Fp) as Nd.
    destruct (cand P p) as [|x [|y l]]; [congruence| |].
    - f_equal. apply X; left; auto.
    - exfalso. inv Nd. apply H1. left. rewrite (X x), (X y); simpl; auto. }
  apply (pull_one s T fm fi nm ni) in Cp; auto. rewrite I in Cp.
  assert (Cq : cell w' h' q) by (unfold field in Fq; rewrite EwT, EhT in Fq; exact Fq).
  rewrite (kept_single w' h' o T KT (Cl NakedSingle 1 eq_refl ltac:(lia)) q _ Cq Cp).
  assert (Z : num u p <> 0). { apply Cu. pose proof (kept_ok w h u Ku) as [_ [Ewu Ehu]]. unfold field. rewrite Ewu, Ehu. exact Fp. }
  intros H. apply Z. rewrite <- (proj1 (Re (num u p))), H. rewrite <- (eq_zero _ _ _ _ _ _ E) at 1. apply Re.
Qed.

Lemma alike_le : forall fm fi nm ni s t f o o' fuel fuel' r r', alike fm fi nm ni s t -> wf s -> wf t -> solution s f -> oracle_ok o -> oracle_ok o' ->
  rate fuel o s = Ok r -> rate fuel' o' t = Ok r' -> r' <= r.
Proof.
  intros fm fi nm ni s t f o o' fuel fuel' r r' A Ws Wt Hf Ho Ho' Hr Hr'. pose proof A as [E _].
  pose proof (equiv_solution1 _ _ _ _ _ _ _ E Hf) as Hf'.
  destruct (init_candidates_ok s false Ws) as [s0 [Es _]]. destruct (init_candidates_ok t false Wt) as [t0 [Et _]].
  destruct (C117_proof o fuel s s0 f r Ho Ws Hf Es Hr) as [R Lv]. destruct (C117_proof o' fuel' t t0 _ r' Ho' Wt Hf' Et Hr') as [R' Lv'].
  destruct (Z.eq_dec r 10) as [->|N]; [lia|]. apply Lv'; [lia|].
  pose proof (proj2 (Lv r ltac:(lia)) ltac:(lia)) as Sr.
  destruct (Z_lt_ge_dec r 1) as [R1|R1]; [|apply (alike_solvable fm fi nm ni s t f o r s0 t0); auto; lia].
  pose proof (start_kept _ _ (wf_w _ Ws) (wf_h _ Ws) s s0 f (conj Ws (conj eq_refl eq_refl)) Hf Es) as Ks.
  pose proof (start_kept _ _ (wf_w _ Wt) (wf_h _ Wt) t t0 _ (conj Wt (conj eq_refl eq_refl)) Hf' Et) as Kt.
  apply (solvable_zero _ _ (wf_w _ Ws) (wf_h _ Ws) r s0 R1 Ks) in Sr. apply (solvable_zero _ _ (wf_w _ Wt) (wf_h _ Wt) r t0 R1 Kt).
  destruct (start_cand s s0 Ws Es) as [_ [Ew0 [Eh0 [Ns _]]]]. destruct (start_cand t t0 Wt Et) as [_ [Ew0' [Eh0' [Nt _]]]].
  intros q Fq. unfold field in Fq. rewrite Ew0', Eh0' in Fq. rewrite Nt. destruct (eq_from _ _ _ _ _ _ E q Fq) as [Fp I]. rewrite <- I.
  rewrite (eq_num _ _ _ _ _ _ E) by auto. intros H. apply (Sr (fi q)); [unfold field; rewrite Ew0, Eh0; exact Fp|].
  rewrite Ns. rewrite <- (proj1 (eq_ren _ _ _ _ _ _ E (num s (fi q)))), H. rewrite <- (eq_zero _ _ _ _ _ _ E) at 1. apply (eq_ren _ _ _ _ _ _ E).
Qed.

Lemma C120_proof : forall fm fi nm ni s t f o o' fuel fuel' r r', alike fm fi nm ni s t -> wf s -> wf t -> solution s f -> oracle_ok o -> oracle_ok o' ->
  rate fuel o s = Ok r -> rate fuel' o' t = Ok r' -> r' = r.
Proof.
  intros fm fi nm ni s t f o o' fuel fuel' r r' A Ws Wt Hf Ho Ho' Hr Hr'. apply Z.le_antisymm.
  - apply (alike_le fm fi nm ni s t f o o' fuel fuel'); auto.
  - apply (alike_le fi fm ni nm t s (fun q => nm (f (fi q))) o' o fuel' fuel); auto; [apply alike_sym; auto|].
    apply (equiv_solution1 _ _ _ _ _ _ _ (proj1 A) Hf).
Qed.

Lemma C120_relabel_proof : forall nm ni s t, box_size t = box_size s ->
  (forall v, ni (nm v) = v /\ nm (ni v) = v) -> nm 0 = 0 ->
  (forall v, 1 <= v <= box_width s * box_height s <-> 1 <= nm v <= box_width s * box_height s) ->
  (forall p, field s p -> num t p = nm (num s p)) ->
  alike (fun p => p) (fun p => p) nm ni s t.
Proof.
  intros nm ni s t B H1 H2 H3 H4. split; [apply C99_relabel_proof; auto|]. exists false. unfold box_size in B; injection B as B1 B2.
  intros [] p q _ _; simpl; rewrite ?B1, ?B2; reflexivity.
Qed.
Lemma C120_transpose_proof : forall s t, 1 <= box_width s -> 1 <= box_height s ->
  box_width t = box_height s -> box_height t = box_width s ->
  (forall p, field s p -> num t (transpose p) = num s p) ->
  alike transpose transpose (fun v => v) (fun v => v) s t.
Proof.
  intros s t Hw Hh B1 B2 H. split; [apply C99_transpose_proof; auto|]. exists true.
  intros [] [a b] [c d] _ _; unfold together, turned, same_row, same_col, same_box, transpose; cbn [fst snd]; rewrite ?B1, ?B2; tauto.
Qed.
Lemma C120_lines_proof : forall f g f' g' s t, box_size t = box_size s ->
  block_perm (box_width s * box_height s) (box_height s) f g ->
  block_perm (box_width s * box_height s) (box_width s) f' g' ->
  (forall r c, field s (r, c) -> num t (f r, f' c) = num s (r, c)) ->
  alike (fun p => (f (fst p), f' (snd p))) (fun p => (g (fst p), g' (snd p))) (fun v => v) (fun v => v) s t.
Proof.
  intros f g f' g' s t B P1 P2 H. split; [apply C99_lines_proof; auto|]. exists false. unfold box_size in B; injection B as B1 B2.
  destruct P1 as [F1 [F2 F3]]. destruct P2 as [G1 [G2 G3]].
  intros k [a b] [c d] [H1 H2] [H3 H4]; cbn [fst snd] in *. destruct k; unfold together, turned, same_row, same_col, same_box; cbn [fst snd]; rewrite ?B1, ?B2.
  - split; [congruence|]. intros E. destruct (F1 a H1) as [_ <-]. destruct (F1 c H3) as [_ <-]. congruence.
  - split; [congruence|]. intros E. destruct (G1 b H2) as [_ <-]. destruct (G1 d H4) as [_ <-]. congruence.
  - rewrite <- F3, <- G3 by auto. tauto.
Qed.
