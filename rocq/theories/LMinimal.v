(** Lemmas for C128: sudokus in which every number is needed. *)
From Verif Require Export SpecMinimal LLevel LGenerate2.
From Coq Require Import Decidable.

Lemma unit_surj : forall s k p f v, wf s -> valid_grid (box_width s) (box_height s) f -> field s p -> 1 <= v <= box_width s * box_height s ->
  exists q, unit_at s k p q /\ f q = v.
Proof.
  intros s k p f v W V [F1 F2] Rv. pose proof (wf_w _ W) as Hw. pose proof (wf_h _ W) as Hh.
  apply (valid_iff_latin _ _ _ Hw Hh) in V as [L1 [L2 L3]]. destruct k.
  - destruct (L1 _ F1 v Rv) as [q [[Fq E] [Eq _]]]. exists q. split; auto. split; auto.
  - destruct (L2 _ F2 v Rv) as [q [[Fq E] [Eq _]]]. exists q. split; auto. split; auto.
  - destruct (L3 (fst p / box_height s) (snd p / box_width s)) with (v := v) as [q [[Fq [E1 E2]] [Eq _]]]; auto.
    + split; [apply Z.div_pos; lia|apply Z.div_lt_upper_bound; lia].
    + split; [apply Z.div_pos; lia|apply Z.div_lt_upper_bound; lia].
    + exists q. split; auto. split; auto. split; auto.
Qed.

Section Minimal.
Variables (s : sudoku).
Hypothesis W : wf s.
Hypothesis I : irreducible s.
Notation N := (box_width s * box_height s).
Variables (p : coord) (t : sudoku).
Hypothesis Fp : field s p.
Hypothesis Np : num s p <> 0.
Hypothesis Et : setitem s (fst p) (snd p) 0 = Ok t.

Lemma t_facts : wf t /\ box_width t = box_width s /\ box_height t = box_height s /\ num t p = 0 /\ forall q, field s q -> q <> p -> num t q = num s q.
Proof.
  clear I Np. destruct p as [r c] eqn:Ep. cbn [fst snd] in Et. rewrite setitem_ok in Et by auto. injection Et as <-.
  split; [apply pset_wf; auto|]. split; [reflexivity|]. split; [reflexivity|]. split.
  - rewrite num_pset by auto. rewrite (proj2 (coord_eqb_eq (r, c) (r, c)) eq_refl). auto.
  - intros q Fq D. rewrite num_pset by auto. destruct (coord_eqb q (r, c)) eqn:X; auto. apply coord_eqb_eq in X. contradiction.
Qed.

(** A solution of [t] with the old number in [p] is the solution of [s]: there is no way to show that all solutions are such. *)
Lemma not_forced : ~ (forall f, solution t f -> f p = num s p).
Proof.
  intros H. destruct t_facts as [Wt [Ew [Eh [E0 En]]]]. destruct I as [[u [Hu U]] Q]. apply (Q p t Fp Np Et).
  exists u. split.
  - destruct Hu as [V X]. split; [rewrite Ew, Eh; auto|]. intros q Fq. unfold field in Fq. rewrite Ew, Eh in Fq.
    destruct (coord_eq_dec q p) as [->|D]; [left; auto|]. rewrite En by auto. apply X; auto.
  - intros g Hg q Fq. unfold same_grid, field in *. rewrite Ew, Eh in *. apply U; auto. pose proof (H g Hg) as Ep. destruct Hg as [V X]. rewrite Ew, Eh in V.
    split; auto. intros x Fx. destruct (coord_eq_dec x p) as [->|D]; [right; auto|]. rewrite <- En by auto. apply X. unfold field; rewrite Ew, Eh; auto.
Qed.

Lemma C128_naked_proof : exists l, calc_candidates t (fst p) (snd p) = Ok l /\ (2 <= length l)%nat.
Proof.
  destruct t_facts as [Wt [Ew [Eh [E0 En]]]].
  assert (Ft : field t p) by (unfold field; rewrite Ew, Eh; auto).
  destruct (C13_proof t (fst p) (snd p) Wt) as [l [E [Sl [_ H]]]]; [destruct p; auto|].
  exists l. split; auto. destruct (le_lt_dec 2 (length l)) as [|L]; auto. exfalso. apply not_forced. intros f Hf.
  rewrite <- surjective_pairing in H. specialize (H E0). unfold NN in H. rewrite Ew, Eh in H.
  apply (short_eq l); [lia| |].
  - apply H. destruct Hf as [V X]. rewrite Ew, Eh in V. split; [apply (proj1 V); auto|]. intros q Fq P. unfold field in Fq. rewrite Ew, Eh in Fq.
    destruct (X q) as [Y|Y]; [unfold field; rewrite Ew, Eh; auto| |].
    + rewrite Y. pose proof (proj1 V p Fp). lia.
    + rewrite Y. intros Z. apply (proj2 V p q Fp Fq P); auto.
  - apply H. destruct I as [[u [Hu _]] _]. destruct Hu as [V X]. destruct (X p Fp) as [|Y]; [contradiction|]. rewrite Y. split; [apply (proj1 V); auto|].
    intros q Fq P. unfold field in Fq. rewrite Ew, Eh in Fq. assert (q <> p) by (destruct P; congruence). rewrite En by auto.
    destruct (X q Fq) as [Z|Z]; rewrite Z.
    + pose proof (proj1 V p Fp). lia.
    + intros Z'. apply (proj2 V p q Fp Fq P); auto.
Qed.

Lemma C128_hidden_proof : forall k, exists q l, unit_at s k p q /\ q <> p /\ num s q = 0 /\ calc_candidates t (fst q) (snd q) = Ok l /\ In (num s p) l.
Proof.
  intros k. destruct t_facts as [Wt [Ew [Eh [E0 En]]]].
  assert (D : decidable (exists q, In q (coords s) /\ (together s k q p /\ q <> p /\ num s q = 0 /\ exists l, calc_candidates t (fst q) (snd q) = Ok l /\ In (num s p) l))).
  { apply dec_ex. intros q. apply dec_and; [apply dec_together|]. apply dec_and; [destruct (coord_eq_dec q p); [right|left]; auto|]. apply dec_and; [apply dec_z|].
    destruct (calc_candidates t (fst q) (snd q)) as [l|e].
    - destruct (dec_in Z.eq_dec (num s p) l); [left; eauto|right]. intros [l' [E Hl]]. injection E as <-. contradiction.
    - right. intros [l' [E _]]. discriminate. }
  destruct D as [[q [Hq [T [Dq [Z0 [l [E Hl]]]]]]]|H].
  { exists q, l. splits; auto. split; auto. apply in_coords; auto. }
  exfalso. apply not_forced. intros f Hf. destruct Hf as [V X]. rewrite Ew, Eh in V.
  assert (Ru : 1 <= num s p <= N).
  { destruct I as [[u [[Vu Xu] _]] _]. destruct (Xu p Fp) as [|Y]; [contradiction|]. rewrite Y. apply (proj1 Vu); auto. }
  destruct (unit_surj s k p f (num s p) W V Fp Ru) as [q [[Fq T] Eq]].
  destruct (coord_eq_dec q p) as [->|Dq]; auto. exfalso. apply H. exists q. split; [apply in_coords; auto|]. split; auto. split; auto.
  assert (Pq : peers (box_width s) (box_height s) q p).
  { split; auto. destruct k; simpl in T; auto. }
  destruct I as [[u [[Vu Xu] _]] _]. destruct (Xu p Fp) as [|Yp]; [contradiction|].
  assert (Zq : num s q = 0).
  { destruct (Xu q Fq) as [|Y]; auto. destruct (X q) as [Z|Z]; [unfold field; rewrite Ew, Eh; auto| |]; rewrite En in Z by auto; auto.
    exfalso. apply (proj2 Vu q p Fq Fp Pq). congruence. }
  split; auto. assert (Ft : field t q) by (unfold field; rewrite Ew, Eh; auto).
  destruct (C13_proof t (fst q) (snd q) Wt) as [l [E [_ [_ Hl]]]]; [destruct q; auto|]. exists l. split; auto.
  rewrite <- surjective_pairing, En in Hl by auto. apply (Hl Zq). unfold NN. rewrite Ew, Eh. split; auto.
  intros x Fx P. unfold field in Fx. rewrite Ew, Eh in Fx. destruct (X x) as [Z|Z]; [unfold field; rewrite Ew, Eh; auto| |]; rewrite Z; [lia|].
  intros Y. apply (proj2 V q x Fq Fx P). congruence.
Qed.
End Minimal.

Lemma C128_roomy_proof : forall s, wf s -> irreducible s -> roomy s.
Proof.
  intros s W I. pose proof (wf_w _ W) as Hw. pose proof (wf_h _ W) as Hh. set (N := box_width s * box_height s). assert (1 <= N) by (unfold N; nia).
  assert (Em : forall p, field s p -> exists t, setitem s (fst p) (snd p) 0 = Ok t) by (intros [r c] Fp; eexists; apply setitem_ok; auto).
  assert (R1 : forall k p, field s p -> exists q, unit_at s k p q /\ num s q = 0).
  { intros k p Fp. destruct (Z.eq_dec (num s p) 0) as [Z|Np]; [exists p; split; auto; split; auto; destruct k; repeat split; auto|].
    destruct (Em p Fp) as [t Et]. destruct (C128_hidden_proof s W I p t Fp Np Et k) as [q [l [Uq [_ [Z _]]]]]. eauto. }
  split; [auto|]. split.
  - intros v Rv. fold N in Rv.
    assert (D : decidable (exists r, In r (py_range N) /\ ~ exists c, In c (py_range N) /\ num s (r, c) = v)).
    { apply dec_ex. intros r. apply dec_not. apply dec_ex. intros c. apply dec_z. }
    destruct D as [[r [Hr H1]]|H0].
    { apply in_py_range in Hr. exists r. split; auto. intros c [_ Fc] E. apply H1. exists c. split; auto. apply in_py_range; auto. }
    exfalso. assert (A : forall r, 0 <= r < N -> exists c, 0 <= c < N /\ num s (r, c) = v).
    { intros r Hr. assert (D : decidable (exists c, In c (py_range N) /\ num s (r, c) = v)) by (apply dec_ex; intros c; apply dec_z).
      destruct D as [[c [Hc E]]|H1]; [exists c; rewrite in_py_range in Hc; auto|]. exfalso. apply H0. exists r. rewrite in_py_range. auto. }
    destruct (A 0) as [c [Rc Ec]]; [lia|]. assert (Fp : field s (0, c)) by (split; cbn [fst snd]; fold N; lia).
    assert (Np : num s (0, c) <> 0) by lia. destruct (Em _ Fp) as [t Et].
    destruct (t_facts s W (0, c) t Fp Et) as [Wt [Ew [Eh [_ En]]]].
    destruct (C128_hidden_proof s W I (0, c) t Fp Np Et KCol) as [q [l [[Fq Tq] [Dq [Zq [El Hl]]]]]]. simpl in Tq. unfold same_col in Tq. cbn [snd] in Tq.
    destruct (A (fst q)) as [c' [Rc' Ec']]; [apply Fq|]. assert (F' : field s (fst q, c')) by (split; cbn [fst snd]; [apply Fq|fold N; lia]).
    assert (Ft : field t q) by (unfold field; rewrite Ew, Eh; auto).
    destruct (C13_proof t (fst q) (snd q) Wt) as [l' [E' [_ [_ H']]]]; [destruct q; auto|].
    rewrite El in E'. injection E' as <-. rewrite <- surjective_pairing, En in H' by auto. apply (H' Zq) in Hl as [_ Hl].
    assert (D0 : (fst q, c') <> (0, c)) by (intros E; apply Dq; destruct q; cbn [fst snd] in *; congruence).
    apply (Hl (fst q, c')); [unfold field; rewrite Ew, Eh; auto| |rewrite En by auto; congruence].
    split; [|left; reflexivity]. intros E. rewrite <- E in Ec'. rewrite Ec' in Zq. lia.
  - rewrite count_nfilled by auto. eexists. split; [reflexivity|]. fold N.
    (* every row has an empty field *)
    set (em := filter (fun p => num s p =? 0) (coords s)).
    assert (Pl : (length em + Z.to_nat (nfilled s) = length (coords s))%nat).
    { unfold em, nfilled, py_len. rewrite Nat2Z.id. induction (coords s) as [|a l IH]; auto. cbn [filter]. destruct (num s a =? 0); cbn [negb length Nat.add]; unfold coord in *; lia. }
    assert (Lc : Z.of_nat (length (coords s)) = N * N) by (rewrite length_coords; change (NN s) with N; rewrite Nat2Z.inj_mul, Z2Nat.id by lia; reflexivity).
    assert (Le : N <= Z.of_nat (length em)).
    { assert (X : incl (py_range N) (map fst em)).
      { intros r Hr. apply in_py_range in Hr. destruct (R1 KRow (r, 0)) as [q [[Fq Tq] Z]]; [split; cbn [fst snd]; fold N; lia|]. simpl in Tq. unfold same_row in Tq. cbn [fst] in Tq.
        apply in_map_iff. exists q. split; auto. apply filter_In. split; [apply in_coords; auto|]. rewrite Z. reflexivity. }
      apply NoDup_incl_length in X; [|apply NoDup_py_range]. rewrite map_length, length_py_range in X. clearbody em. unfold coord in *. lia. }
    unfold nfilled, py_len in *. rewrite Nat2Z.id in Pl. unfold coord in *. clearbody em N. rewrite <- Pl, Nat2Z.inj_add in Lc. lia.
Qed.

Lemma emptied_none : forall s p t, field s p -> emptied SymNone s p t -> wf s -> nfilled s <= nfilled t + 1.
Proof.
  intros s p t Fp [Wt [B [_ H]]] W. unfold box_size in B. injection B as Ew Eh.
  assert (G : forall q, field s q -> q <> p -> num t q = num s q).
  { intros q Fq D. apply H; auto. intros C. apply C32_none_proof in C. contradiction. }
  unfold nfilled, py_len. replace (coords t) with (coords s) by (unfold coords, indices; rewrite Ew, Eh; auto).
  pose proof (NoDup_coords s) as Nd. assert (F : forall q, In q (coords s) -> field s q) by (intros q; apply in_coords).
  clear - G Nd F. induction (coords s) as [|a l IH]; cbn [filter length]; [lia|]. inversion Nd as [|x y Ha Nl]; subst x y.
  destruct (coord_eq_dec a p) as [->|D].
  - assert (E : filter (fun q => negb (num t q =? 0)) l = filter (fun q => negb (num s q =? 0)) l).
    { apply filter_ext_in. intros q Hq. rewrite G; auto; [apply F; right; auto|]. intros ->. contradiction. }
    rewrite E. destruct (negb (num s p =? 0)), (negb (num t p =? 0)); cbn [length]; lia.
  - rewrite (G a (F a (or_introl eq_refl)) D). specialize (IH Nl ltac:(intros q Hq; apply F; right; auto)).
    destruct (negb (num s a =? 0)); cbn [length]; lia.
Qed.

Lemma C128_generate_proof : forall o m w h s, 1 <= w -> 1 <= h -> generate_admissible o -> generate o m SymNone (w, h) = Ok s ->
  count s = Ok m \/ irreducible s.
Proof.
  intros o m w h s Hw Hh Ha E. destruct o as [co sh ord]. destruct Ha as [Hco [Hsh Hord]]. cbn [go_create go_shuffle go_ord] in *.
  assert (Hm : m <= w ^ 2 * h ^ 2).
  { destruct (Z_le_gt_dec m (w ^ 2 * h ^ 2)) as [|G]; auto. unfold generate in E. cbn [fst snd] in E. destruct (w ^ 2 * h ^ 2 <? m) eqn:X; [discriminate|]. b2p. lia. }
  destruct (C28_proof co w h Hw Hh (proj1 Hco) (proj2 Hco)) as [sol [Es _]].
  assert (P : puzzle_of sol m SymNone s).
  { apply (C98_proof co ord m SymNone w h sol s Hw Hh Hco Hord Hm ltac:(discriminate) Es). exists sh. split; auto. }
  destruct P as [W [B [_ [_ [_ [U [[n [En Ln]] [Q|[p [t [n' [Fp [Np [Em [Ec L]]]]]]]]]]]]]]].
  - right. split; auto. intros p t Fp Np Et. apply (Q p t Fp Np). destruct (t_facts s W p t Fp Et) as [Wt [Ew [Eh [E0 Eq]]]].
    split; auto. split; [unfold box_size; congruence|]. split.
    + intros q _ C. apply C32_none_proof in C. subst. auto.
    + intros q Fq C. apply Eq; auto. intros ->. apply C. apply C32_none_proof; auto.
  - left. pose proof (emptied_none s p t Fp Em W) as Lt. rewrite count_nfilled in * by (auto; apply Em).
    injection En as <-. injection Ec as <-. f_equal. lia.
Qed.

Lemma C128_bound_proof : forall o m w h s, 1 <= w -> 1 <= h -> generate_admissible o -> generate o m SymNone (w, h) = Ok s ->
  exists n, count s = Ok n /\ m <= n <= Z.max m (w * h * (w * h - 1)).
Proof.
  intros o m w h s Hw Hh Ha E.
  assert (Hm : m <= w ^ 2 * h ^ 2).
  { destruct (Z_le_gt_dec m (w ^ 2 * h ^ 2)) as [|G]; auto. unfold generate in E. cbn [fst snd] in E. destruct (w ^ 2 * h ^ 2 <? m) eqn:X; [discriminate|]. b2p. lia. }
  destruct (C29_proof o m SymNone w h Hw Hh Ha Hm ltac:(discriminate)) as [s' [E' [W [B _]]]]. assert (s' = s) by congruence. subst s'.
  destruct (C30_proof o m SymNone w h Hw Hh Ha Hm ltac:(discriminate)) as [s' [n [E'' [En Ln]]]]. assert (s' = s) by congruence. subst s'.
  exists n. split; auto. split; auto. destruct (C128_generate_proof o m w h s Hw Hh Ha E) as [X|I].
  - assert (n = m) by congruence. lia.
  - destruct (C128_roomy_proof s W I) as [_ [_ [n' [En' L]]]]. assert (n' = n) by congruence. unfold box_size in B. injection B as <- <-. lia.
Qed.
