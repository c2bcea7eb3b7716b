(** Lemmas for C129: the number of filled fields of a symmetric pattern. *)
From Verif Require Export SpecAxis LGenerate2.

(** A list made of classes of [k] elements. *)
Lemma orbits : forall (orb : coord -> list coord) k n l, (length l <= n)%nat -> NoDup l ->
  (forall a, In a l -> NoDup (orb a) /\ length (orb a) = k /\ In a (orb a) /\ incl (orb a) l) ->
  (forall a b, In a l -> In b (orb a) -> forall c, In c (orb b) <-> In c (orb a)) -> exists x, length l = (k * x)%nat.
Proof.
  intros orb k n. induction n as [|n IH]; intros l L Nd H1 H2.
  { exists 0%nat. destruct l; cbn [length] in *; lia. }
  destruct l as [|a l0] eqn:El; [exists 0%nat; cbn [length]; lia|]. rewrite <- El in *. assert (Ia : In a l) by (rewrite El; left; auto).
  destruct (H1 a Ia) as [Na [La [Aa Inc]]].
  set (inb := fun x => existsb (coord_eqb x) (orb a)).
  assert (Hin : forall x, inb x = true <-> In x (orb a)).
  { intros x. unfold inb. rewrite existsb_exists. split; [intros [y [Hy E]]; apply coord_eqb_eq in E; subst; auto|]. intros Hx. exists x. split; auto. apply coord_eqb_refl. }
  assert (Sp : (length l = length (filter inb l) + length (filter (fun x => negb (inb x)) l))%nat).
  { clear. induction l as [|b l IH]; auto. cbn [filter]. destruct (inb b); cbn [negb length]; lia. }
  assert (Lf : length (filter inb l) = k).
  { rewrite <- La. apply Permutation_length. apply NoDup_Permutation; auto; [apply NoDup_filter; auto|]. intros x. rewrite filter_In, Hin. split; [tauto|]. intros Hx; split; auto. }
  assert (Kp : (0 < k)%nat) by (destruct (orb a); cbn [length] in *; [destruct Aa|lia]).
  destruct (IH (filter (fun x => negb (inb x)) l)) as [x Ex].
  - lia.
  - apply NoDup_filter; auto.
  - intros b Hb. apply filter_In in Hb as [Hb Nb]. apply negb_true_iff in Nb. destruct (H1 b Hb) as [Nb' [Lb [Ab Ib]]]. splits; auto.
    intros c Hc. apply filter_In. split; auto. apply negb_true_iff. destruct (inb c) eqn:X; auto. apply Hin in X.
    exfalso. apply Bool.not_true_iff_false in Nb. apply Nb. apply Hin. apply (H2 a c Ia X). apply (H2 b c Hb Hc). auto.
  - intros b c Hb Hc. apply filter_In in Hb as [Hb _]. apply H2; auto.
  - exists (S x). lia.
Qed.

Definition axisb (y : symmetry) (n : Z) (p : coord) : bool :=
  match y with
  | SymMirrorX => 2 * fst p =? n - 1
  | SymMirrorY => 2 * snd p =? n - 1
  | SymRotate90 | SymRotate180 => (2 * fst p =? n - 1) && (2 * snd p =? n - 1)
  | SymMirrorXY => (2 * fst p =? n - 1) || (2 * snd p =? n - 1)
  | SymNone | SymOther => false
  end.
Lemma axisb_ok : forall y n p, axisb y n p = true <-> on_axis y n p.
Proof. intros [] n p; simpl; rewrite ?andb_true_iff, ?orb_true_iff, ?Z.eqb_eq; intuition discriminate. Qed.

Lemma orb_facts : forall y f w h p, symmetry_func y = Ok f ->
  length (f w h (fst p) (snd p)) = Z.to_nat (class_size y) /\ In p (f w h (fst p) (snd p)) /\
  (~ on_axis y (w * h) p -> NoDup (f w h (fst p) (snd p)) /\ forall q, In q (f w h (fst p) (snd p)) -> ~ on_axis y (w * h) q).
Proof.
  intros y f w h [r c] E. destruct y; try discriminate E; injection E as <-; cbn [fst snd on_axis class_size In];
  (split; [reflexivity|]); (split; [auto|]); intros A; (split;
  [repeat (apply NoDup_cons; [cbn [In]; intros X; repeat (destruct X as [X|X]); try contradiction; pose proof (f_equal fst X); pose proof (f_equal snd X); cbn [fst snd] in *; lia|]); apply NoDup_nil
  |intros q X; repeat (destruct X as [X|X]); try contradiction; subst; cbn [fst snd]; intros Y; try contradiction; lia]).
Qed.

Lemma C129_pattern_proof : forall y s, wf s -> y <> SymOther -> symmetric y s ->
  exists l, NoDup l /\ (forall p, In p l <-> field s p /\ on_axis y (box_width s * box_height s) p /\ num s p <> 0) /\
    exists a, 0 <= a /\ count s = Ok (Z.of_nat (length l) + class_size y * a).
Proof.
  intros y s W Hy H. destruct (symmetry_func y) as [f|e] eqn:Ef; [|destruct y; try discriminate Ef; congruence].
  set (w := box_width s). set (h := box_height s). set (N := w * h).
  set (fl := filter (fun p => negb (num s p =? 0)) (coords s)).
  assert (Hfl : forall p, In p fl <-> field s p /\ num s p <> 0).
  { intros p. unfold fl. rewrite filter_In, in_coords, negb_true_iff, Z.eqb_neq. tauto. }
  assert (Nfl : NoDup fl) by (apply NoDup_filter, NoDup_coords).
  pose proof (proj1 (class_pattern w h y (num s)) H) as HC. fold N in HC.
  exists (filter (axisb y N) fl). split; [apply NoDup_filter; auto|]. split.
  { intros p. rewrite filter_In, Hfl, axisb_ok. tauto. }
  set (off := filter (fun p => negb (axisb y N p)) fl).
  assert (Hoff : forall p, In p off <-> field s p /\ num s p <> 0 /\ ~ on_axis y N p).
  { intros p. unfold off. rewrite filter_In, Hfl, negb_true_iff, <- axisb_ok, Bool.not_true_iff_false. tauto. }
  assert (Sp : (length fl = length (filter (axisb y N) fl) + length off)%nat).
  { unfold off. clear. induction fl as [|b l IH]; auto. cbn [filter]. destruct (axisb y N b); cbn [negb length]; unfold coord in *; lia. }
  assert (Cl : forall p q, In q (f w h (fst p) (snd p)) <-> sym_class N y p q).
  { intros [r c] q. cbn [fst snd]. apply (sym_list y f w h r c q Ef). }
  destruct (orbits (fun p => f w h (fst p) (snd p)) (Z.to_nat (class_size y)) (length off) off) as [x Ex].
  - lia.
  - apply NoDup_filter; auto.
  - intros a Ha. apply Hoff in Ha as [Fa [Na Xa]]. destruct (orb_facts y f w h a Ef) as [E1 [E2 E3]]. destruct (E3 Xa) as [E4 E5]. splits; auto.
    intros q Hq. apply Hoff. pose proof (proj1 (Cl a q) Hq) as C. split; [eapply class_cell; eauto|]. split; [|apply E5; auto].
    intros Z. apply Na. apply (HC a q Fa C). auto.
  - intros a b Ha Hb c. cbv beta. apply Cl in Hb. rewrite !Cl. split; intros X; [apply (class_trans _ _ _ b); auto|]. apply (class_trans _ _ _ a); auto. apply class_sym; auto.
  - exists (Z.of_nat x). split; [lia|]. rewrite count_nfilled by auto. f_equal. change (nfilled s) with (Z.of_nat (length fl)). rewrite Sp, Ex.
    assert (0 <= class_size y) by (destruct y; simpl; lia). nia.
Qed.

Lemma C129_even_proof : forall y s n, wf s -> y <> SymOther -> symmetric y s -> Z.even (box_width s * box_height s) = true -> count s = Ok n -> (class_size y | n).
Proof.
  intros y s n W Hy H Ev En. destruct (C129_pattern_proof y s W Hy H) as [l [_ [Hl [a [_ Ea]]]]].
  assert (l = []) as ->.
  { destruct l as [|p l]; auto. exfalso. destruct (proj1 (Hl p) (or_introl eq_refl)) as [_ [A _]]. apply Z.even_spec in Ev as [m Em]. rewrite Em in A.
    destruct y; cbn [on_axis] in A; try contradiction; lia. }
  rewrite En in Ea. injection Ea as ->. exists a. cbn [length]. lia.
Qed.

Lemma C129_generate_proof : forall o m y w h s, 1 <= w -> 1 <= h -> generate_admissible o -> generate o m y (w, h) = Ok s ->
  symmetric y s /\
  ((exists n, count s = Ok n /\ n < m + class_size y) \/
   (forall p t, field s p -> num s p <> 0 -> emptied y s p t -> ~ unique_solution t)).
Proof.
  intros o m y w h s Hw Hh Ha E. destruct o as [co sh ord]. destruct Ha as [Hco [Hsh Hord]]. cbn [go_create go_shuffle go_ord] in *.
  assert (Hm : m <= w ^ 2 * h ^ 2 /\ y <> SymOther).
  { unfold generate in E. cbn [fst snd] in E. destruct (w ^ 2 * h ^ 2 <? m) eqn:X; [discriminate|]. b2p. split; [lia|]. intros ->. discriminate E. }
  destruct Hm as [Hm Hy].
  destruct (C28_proof co w h Hw Hh (proj1 Hco) (proj2 Hco)) as [sol [Es _]].
  assert (P : puzzle_of sol m y s).
  { apply (C98_proof co ord m y w h sol s Hw Hh Hco Hord Hm Hy Es). exists sh. split; auto. }
  destruct P as [W [B [_ [_ [Sy [U [[n [En Ln]] Q]]]]]]]. split; [exact Sy|].
  destruct Q as [Q|[p [t [n' [Fp [Np [Em [Ec L]]]]]]]]; [right; auto|left]. exists n. split; auto.
  destruct (symmetry_func y) as [f|e] eqn:Ef; [|destruct y; try discriminate Ef; congruence].
  destruct Em as [Wt [Bt [T1 T2]]]. unfold box_size in Bt. injection Bt as Ew Eh.
  rewrite count_nfilled in * by auto. injection En as <-. injection Ec as <-.
  destruct (orb_facts y f (box_width s) (box_height s) p Ef) as [E1 _].
  assert (I : incl (filter (fun q => negb (num s q =? 0)) (coords s)) (f (box_width s) (box_height s) (fst p) (snd p) ++ filter (fun q => negb (num t q =? 0)) (coords t))).
  { intros q Hq. apply filter_In in Hq as [Hq Nq]. apply in_coords in Hq. apply in_or_app.
    destruct (in_dec coord_eq_dec q (f (box_width s) (box_height s) (fst p) (snd p))) as [|X]; [left; auto|right].
    assert (C : ~ sym_class (box_width s * box_height s) y p q).
    { intros C. apply X. destruct p as [r c]. cbn [fst snd]. apply (sym_list y f (box_width s) (box_height s) r c q Ef). auto. }
    apply filter_In. split; [apply in_coords; unfold field; rewrite Ew, Eh; auto|]. rewrite T2; auto. }
  apply NoDup_incl_length in I; [|apply NoDup_filter, NoDup_coords]. rewrite app_length, E1 in I.
  unfold nfilled, py_len in *. assert (0 <= class_size y) by (destruct y; simpl; lia). unfold coord in *. lia.
Qed.
