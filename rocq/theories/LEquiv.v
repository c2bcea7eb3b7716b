(** Equivalent sudokus behave alike (C99). *)
From Verif Require Export SpecEquiv LBrute LSolve LDlx3.

Lemma equivalent_sym : forall fm fi nm ni s t, equivalent fm fi nm ni s t -> equivalent fi fm ni nm t s.
Proof.
  intros fm fi nm ni s t [E1 E2 E3 E4 E5 E6 E7 E8]. constructor; auto.
  - intros p q Fp Fq. destruct (E3 p Fp) as [F1 I1]. destruct (E3 q Fq) as [F2 I2].
    rewrite (E4 (fi p) (fi q)) by auto. rewrite I1, I2. tauto.
  - intros v. destruct (E5 v); auto.
  - rewrite <- E6 at 1. apply E5.
  - intros v. rewrite E1. rewrite (E7 (ni v)). destruct (E5 v) as [_ ->]. tauto.
  - intros p Fp. destruct (E3 p Fp) as [F1 I1]. rewrite <- I1 at 2. rewrite E8 by auto. symmetry; apply E5.
Qed.

Definition move (fi : coord -> coord) (nm : Z -> Z) (f : grid) : grid := fun q => nm (f (fi q)).

Lemma equiv_solution1 : forall fm fi nm ni s t f, equivalent fm fi nm ni s t -> solution s f ->
  solution t (fun q => nm (f (fi q))).
Proof.
  intros fm fi nm ni s t f E [[V1 V2] X]. pose proof (equivalent_sym _ _ _ _ _ _ E) as E'.
  destruct E as [E1 E2 E3 E4 E5 E6 E7 E8]. split; [split|].
  - intros q Fq. destruct (E3 q Fq) as [F1 I1]. rewrite E1. apply (proj1 (E7 _)), V1; auto.
  - intros p q Fp Fq Hpq Hn. apply (eq_peers _ _ _ _ _ _ E') in Hpq; auto.
    apply (V2 _ _ (proj1 (E3 p Fp)) (proj1 (E3 q Fq)) Hpq).
    rewrite <- (proj1 (E5 (f (fi p)))), <- (proj1 (E5 (f (fi q)))). congruence.
  - intros q Fq. destruct (E3 q Fq) as [F1 I1]. rewrite <- I1 at 1 2. rewrite E8 by auto.
    destruct (X _ F1) as [H|H]; rewrite H; auto.
Qed.

Lemma C99_solutions_proof : forall fm fi nm ni s t f, equivalent fm fi nm ni s t ->
  (solution s f <-> solution t (fun q => nm (f (fi q)))).
Proof.
  intros fm fi nm ni s t f E. split; [apply equiv_solution1 with (1 := E)|]. intros St.
  pose proof (equiv_solution1 _ _ _ _ _ _ _ (equivalent_sym _ _ _ _ _ _ E) St) as [[V1 V2] X].
  assert (Hf : forall p, field s p -> ni (nm (f (fi (fm p)))) = f p).
  { intros p Fp. rewrite (proj2 (eq_to _ _ _ _ _ _ E p Fp)). apply (eq_ren _ _ _ _ _ _ E). }
  split; [split|].
  - intros p Fp. specialize (V1 p Fp). cbv beta in V1. rewrite Hf in V1; auto.
  - intros p q Fp Fq Hpq. specialize (V2 p q Fp Fq Hpq). cbv beta in V2. rewrite !Hf in V2; auto.
  - intros p Fp. specialize (X p Fp). cbv beta in X. rewrite Hf in X; auto.
Qed.

Lemma equiv_length_le : forall fm fi nm ni s t ys zs, equivalent fm fi nm ni s t ->
  enumerates s (solution s) ys -> enumerates t (solution t) zs -> (length ys <= length zs)%nat.
Proof.
  intros fm fi nm ni s t ys zs E [Y1 [Y2 Y3]] [Z1 [Z2 Z3]].
  rewrite <- (map_length (fun y => map (fun p => nm (num y p)) (coords s)) ys).
  rewrite <- (map_length (fun z => map (fun p => num z (fm p)) (coords s)) zs).
  apply NoDup_incl_length.
  - clear - Y3 E. induction ys as [|y ys IH]; cbn [map]; [constructor|].
    inv Y3. constructor; auto. intros Hin. apply in_map_iff in Hin. destruct Hin as [z [Ez Hz]].
    rewrite Forall_forall in H1. destruct (H1 z Hz) as [p [Fp Hne]]. apply Hne.
    assert (G : forall l, map (fun p => nm (num z p)) l = map (fun p => nm (num y p)) l -> In p l -> nm (num y p) = nm (num z p)).
    { induction l as [|a l IHl]; [contradiction|]. cbn [map]. intros E' [->|Hp]; inversion E'; auto. }
    rewrite <- (proj1 (eq_ren _ _ _ _ _ _ E (num y p))), <- (proj1 (eq_ren _ _ _ _ _ _ E (num z p))). f_equal.
    apply (G (coords s)); auto. apply in_coords; auto.
  - intros m Hm. apply in_map_iff in Hm. destruct Hm as [y [<- Hy]].
    destruct (Y1 y Hy) as [_ [_ Py]]. apply (equiv_solution1 _ _ _ _ _ _ _ E) in Py.
    destruct (Z2 _ Py) as [z [Hz Sz]]. apply in_map_iff. exists z; split; auto. apply map_ext_in. intros p Hp.
    apply in_coords in Hp. destruct (eq_to _ _ _ _ _ _ E p Hp) as [F1 I1].
    rewrite Sz, I1; auto. destruct (Z1 z Hz) as [_ [Bz _]]. unfold box_size in Bz; injection Bz as B1 B2.
    apply (field_dims z t); auto.
Qed.

Lemma C99_dlx_proof : forall fm fi nm ni s t ord ord', equivalent fm fi nm ni s t -> wf s -> wf t ->
  (forall p l, Permutation (ord p l) l) -> (forall p l, Permutation (ord' p l) l) ->
  length (gyields (dlx ord s) tt) = length (gyields (dlx ord' t) tt).
Proof.
  intros fm fi nm ni s t ord ord' E Ws Wt Ho Ho'.
  destruct (C23_proof ord s Ho Ws) as [_ Hs]. destruct (C23_proof ord' t Ho' Wt) as [_ Ht].
  pose proof (equiv_length_le _ _ _ _ _ _ _ _ E Hs Ht).
  pose proof (equiv_length_le _ _ _ _ _ _ _ _ (equivalent_sym _ _ _ _ _ _ E) Ht Hs). lia.
Qed.

Lemma unique_equiv1 : forall fm fi nm ni s t, equivalent fm fi nm ni s t -> unique_solution s -> unique_solution t.
Proof.
  intros fm fi nm ni s t E [f [Sf Hf]]. exists (fun q => nm (f (fi q))).
  split; [apply (C99_solutions_proof fm fi nm ni s t f E); auto|]. intros g Sg q Fq.
  pose proof (equivalent_sym _ _ _ _ _ _ E) as E'.
  pose proof (proj1 (C99_solutions_proof _ _ _ _ _ _ g E') Sg) as Sg'. apply Hf in Sg'.
  destruct (eq_from _ _ _ _ _ _ E q Fq) as [F1 I1]. specialize (Sg' _ F1). cbv beta in Sg'. rewrite I1 in Sg'.
  rewrite <- Sg'. symmetry. apply (eq_ren _ _ _ _ _ _ E).
Qed.

Lemma C99_unique_proof : forall fm fi nm ni s t ord ord', equivalent fm fi nm ni s t -> wf s -> wf t ->
  (forall p l, Permutation (ord p l) l) -> (forall p l, Permutation (ord' p l) l) ->
  is_unique ord s = is_unique ord' t.
Proof.
  intros fm fi nm ni s t ord ord' E Ws Wt Ho Ho'.
  destruct (C27_proof ord s Ho Ws) as [b [E1 H1]]. destruct (C27_proof ord' t Ho' Wt) as [b' [E2 H2]].
  rewrite E1, E2. f_equal. apply eq_true_iff_eq. rewrite H1, H2. split.
  - apply unique_equiv1 with (1 := E).
  - apply unique_equiv1 with (1 := equivalent_sym _ _ _ _ _ _ E).
Qed.

Lemma C99_candidates_proof : forall fm fi nm ni s t p n, equivalent fm fi nm ni s t -> wf s -> wf t -> field s p ->
  exists l l', calc_candidates s (fst p) (snd p) = Ok l /\ calc_candidates t (fst (fm p)) (snd (fm p)) = Ok l' /\
    (In n l <-> In (nm n) l').
Proof.
  intros fm fi nm ni s t [r c] n E Ws Wt Fp. cbn [fst snd].
  pose proof (eq_to _ _ _ _ _ _ E _ Fp) as [Fq Iq]. pose proof (eq_num _ _ _ _ _ _ E _ Fp) as En.
  assert (Inj : forall a b, nm a = nm b -> a = b).
  { intros a b H. rewrite <- (proj1 (eq_ren _ _ _ _ _ _ E a)), <- (proj1 (eq_ren _ _ _ _ _ _ E b)). congruence. }
  assert (Hz : num t (fm (r, c)) = 0 <-> num s (r, c) = 0).
  { rewrite En. split; intros H; [|rewrite H; apply (eq_zero _ _ _ _ _ _ E)]. apply Inj. rewrite H. symmetry; apply (eq_zero _ _ _ _ _ _ E). }
  destruct (fm (r, c)) as [r' c'] eqn:Ep. cbn [fst snd].
  destruct (C13_proof s r c Ws Fp) as [l [El [_ [A1 A2]]]].
  destruct (C13_proof t r' c' Wt Fq) as [l' [El' [_ [B1 B2]]]].
  exists l, l'. split; [auto|]. split; [auto|].
  destruct (Z.eq_dec (num s (r, c)) 0) as [Ez|Ez].
  - rewrite A2, B2 by tauto. rewrite (eq_size _ _ _ _ _ _ E).
    rewrite <- (eq_range _ _ _ _ _ _ E n).
    split; intros [Hr H]; (split; [auto|]).
    + intros q Fq' Hpq Hn. destruct (eq_from _ _ _ _ _ _ E q Fq') as [F1 I1].
      apply (H (fi q)); auto.
      * apply (eq_peers _ _ _ _ _ _ E); auto. rewrite Ep, I1; auto.
      * apply Inj. rewrite <- (eq_num _ _ _ _ _ _ E) by auto. rewrite I1; auto.
    + intros q Fq' Hpq Hn. destruct (eq_to _ _ _ _ _ _ E q Fq') as [F1 I1].
      apply (H (fm q)); auto.
      * rewrite <- Ep. apply (eq_peers _ _ _ _ _ _ E); auto.
      * rewrite (eq_num _ _ _ _ _ _ E) by auto. congruence.
  - rewrite A1, B1 by tauto. rewrite En. split; intros H; [congruence|auto].
Qed.

Lemma C99_conflicts_proof : forall fm fi nm ni s t, equivalent fm fi nm ni s t -> wf s -> wf t ->
  exists l l', glist (find_conflicts s []) s = Ok l /\ glist (find_conflicts t []) t = Ok l' /\
    forall p q v, field s p -> field s q -> (In (p, q, v) l <-> In (fm p, fm q, nm v) l').
Proof.
  intros fm fi nm ni s t E Ws Wt.
  destruct (C16_proof s [] Ws) as [l [El [Hl _]]]; [intros ? []|].
  destruct (C16_proof t [] Wt) as [l' [El' [Hl' _]]]; [intros ? []|].
  exists l, l'. split; [auto|]. split; [auto|]. intros p q v Fp Fq. rewrite Hl, Hl'.
  assert (Inj : forall a b, nm a = nm b <-> a = b).
  { intros a b. split; [|congruence]. intros H. rewrite <- (proj1 (eq_ren _ _ _ _ _ _ E a)), <- (proj1 (eq_ren _ _ _ _ _ _ E b)). congruence. }
  pose proof (eq_to _ _ _ _ _ _ E _ Fp) as [Fp' _]. pose proof (eq_to _ _ _ _ _ _ E _ Fq) as [Fq' _].
  rewrite (eq_peers _ _ _ _ _ _ E p q Fp Fq), !(eq_num _ _ _ _ _ _ E), !Inj by auto.
  rewrite <- (Inj v 0), (eq_zero _ _ _ _ _ _ E). tauto.
Qed.

Lemma C99_solved_proof : forall fm fi nm ni s t, equivalent fm fi nm ni s t -> wf s -> wf t ->
  is_solved s = is_solved t.
Proof.
  assert (G : forall fm fi nm ni s t, equivalent fm fi nm ni s t ->
    complete s /\ conflict_free s -> complete t /\ conflict_free t).
  { intros fm fi nm ni s t E [C F].
    assert (Inj : forall a b, nm a = nm b <-> a = b).
    { intros a b. split; [|congruence]. intros H. rewrite <- (proj1 (eq_ren _ _ _ _ _ _ E a)), <- (proj1 (eq_ren _ _ _ _ _ _ E b)). congruence. }
    assert (N : forall q, field t q -> num t q = nm (num s (fi q))).
    { intros q Fq. destruct (eq_from _ _ _ _ _ _ E q Fq) as [F1 I1]. rewrite <- I1 at 1. apply (eq_num _ _ _ _ _ _ E); auto. }
    split.
    - intros q Fq. rewrite N by auto. rewrite <- (eq_zero _ _ _ _ _ _ E), Inj. apply C, (eq_from _ _ _ _ _ _ E); auto.
    - intros p q Fp Fq Hpq. rewrite !N, Inj by auto. rewrite <- (eq_zero _ _ _ _ _ _ E), Inj.
      apply F; try (apply (eq_from _ _ _ _ _ _ E); auto).
      apply (eq_peers _ _ _ _ _ _ (equivalent_sym _ _ _ _ _ _ E)); auto. }
  intros fm fi nm ni s t E Ws Wt.
  destruct (C17_general_proof s Ws) as [b [E1 H1]]. destruct (C17_general_proof t Wt) as [b' [E2 H2]].
  rewrite E1, E2. f_equal. apply eq_true_iff_eq. rewrite H1, H2. split.
  - apply (G _ _ _ _ _ _ E).
  - apply (G _ _ _ _ _ _ (equivalent_sym _ _ _ _ _ _ E)).
Qed.

(** * Instances *)
Lemma C99_relabel_proof : forall nm ni s t, box_size t = box_size s ->
  (forall v, ni (nm v) = v /\ nm (ni v) = v) -> nm 0 = 0 ->
  (forall v, 1 <= v <= box_width s * box_height s <-> 1 <= nm v <= box_width s * box_height s) ->
  (forall p, field s p -> num t p = nm (num s p)) ->
  equivalent (fun p => p) (fun p => p) nm ni s t.
Proof.
  intros nm ni s t B H1 H2 H3 H4. unfold box_size in B; injection B as B1 B2.
  constructor; auto; unfold field; rewrite ?B1, ?B2; auto. tauto.
Qed.

Lemma C99_transpose_proof : forall s t, 1 <= box_width s -> 1 <= box_height s ->
  box_width t = box_height s -> box_height t = box_width s ->
  (forall p, field s p -> num t (transpose p) = num s p) ->
  equivalent transpose transpose (fun v => v) (fun v => v) s t.
Proof.
  intros s t Hw Hh B1 B2 H. constructor; auto; unfold field, cell, peers, same_row, same_col, same_box, transpose;
    rewrite ?B1, ?B2; cbn [fst snd].
  - lia.
  - intros [a b] [H1 H2]; cbn [fst snd] in *. rewrite (Z.mul_comm (box_height s)). auto.
  - intros [a b] [H1 H2]; cbn [fst snd] in *. rewrite (Z.mul_comm (box_width s)). auto.
  - intros [a b] [c d] _ _; cbn [fst snd].
    assert (G : (b, a) = (d, c) <-> (a, b) = (c, d)) by (split; congruence). rewrite G. tauto.
  - tauto.
Qed.

Lemma C99_lines_proof : forall f g f' g' s t, box_size t = box_size s ->
  block_perm (box_width s * box_height s) (box_height s) f g ->
  block_perm (box_width s * box_height s) (box_width s) f' g' ->
  (forall r c, field s (r, c) -> num t (f r, f' c) = num s (r, c)) ->
  equivalent (fun p => (f (fst p), f' (snd p))) (fun p => (g (fst p), g' (snd p))) (fun v => v) (fun v => v) s t.
Proof.
  intros f g f' g' s t B [F1 [F2 F3]] [G1 [G2 G3]] H. unfold box_size in B; injection B as B1 B2.
  constructor; unfold field, cell, peers, same_row, same_col, same_box; rewrite ?B1, ?B2; cbn [fst snd]; auto.
  - intros [a b] [H1 H2]; cbn [fst snd] in *. destruct (F1 a H1) as [? ->]. destruct (G1 b H2) as [? ->]. auto.
  - intros [a b] [H1 H2]; cbn [fst snd] in *. destruct (F2 a H1) as [? ->]. destruct (G2 b H2) as [? ->]. auto.
  - intros [a b] [c d] [H1 H2] [H3 H4]; cbn [fst snd] in *. rewrite <- F3, <- G3 by auto.
    assert (I1 : f a = f c <-> a = c).
    { split; [|congruence]. intros E. destruct (F1 a H1) as [_ <-]. destruct (F1 c H3) as [_ <-]. congruence. }
    assert (I2 : f' b = f' d <-> b = d).
    { split; [|congruence]. intros E. destruct (G1 b H2) as [_ <-]. destruct (G1 d H4) as [_ <-]. congruence. }
    assert (G : (f a, f' b) = (f c, f' d) <-> (a, b) = (c, d)).
    { split; intros E; inversion E; [|reflexivity]. f_equal; [apply I1|apply I2]; auto. }
    rewrite G, I1, I2. tauto.
  - tauto.
  - intros [a b] Fp. cbn [fst snd] in *. apply H; auto.
Qed.
