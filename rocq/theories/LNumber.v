(** Lemmas for C130: the number of solutions. *)
From Verif Require Export LClues LBrute LCover2.
From Coq Require Import Factorial Arith.

(** * Pairs *)
Lemma even_pairs : forall {A} (R : A -> A -> Prop) n l, (length l <= n)%nat -> NoDup l -> (forall a b, In a l -> In b l -> R a b -> R b a) ->
  (forall a b c, In a l -> In b l -> In c l -> R a b -> R a c -> b = c) -> (forall a, In a l -> exists b, In b l /\ R a b /\ a <> b) -> Nat.Even (length l).
Proof.
  intros A R n. induction n as [|n IH]; intros l L Nd Sy Un Ex.
  { destruct l; cbn [length] in *; [exists 0%nat; auto|lia]. }
  destruct l as [|a l]; [exists 0%nat; auto|].
  destruct (Ex a (or_introl eq_refl)) as [b [Hb [Rab D]]]. destruct Hb as [Hb|Hb]; [contradiction|].
  pose proof Hb as Ib. apply in_split in Hb as [l1 [l2 ->]].
  inversion Nd as [|x y Na Nl]; subst x y.
  assert (Nb : ~ In b (l1 ++ l2)) by (apply NoDup_remove_2; auto).
  assert (Sub : forall c, In c (l1 ++ l2) -> In c (a :: l1 ++ b :: l2)).
  { intros c Hc. right. apply in_app_or in Hc as [Hc|Hc]; apply in_or_app; [left|right; right]; auto. }
  assert (E : Nat.Even (length (l1 ++ l2))).
  { apply IH.
    - rewrite app_length in *. cbn [length] in L. rewrite app_length in L. cbn [length] in L. lia.
    - apply NoDup_remove_1 in Nl; auto.
    - intros x y Hx Hy. apply Sy; auto.
    - intros x y z Hx Hy Hz. apply Un; auto.
    - intros c Hc. destruct (Ex c (Sub c Hc)) as [d [Hd [Rcd D']]]. exists d. split; auto.
      destruct Hd as [<-|Hd].
      + exfalso. assert (c = b). { apply (Un a); auto; [left; auto|right; auto|]. apply Sy; auto. left; auto. } subst. contradiction.
      + apply in_app_or in Hd as [Hd|[<-|Hd]]; [apply in_or_app; auto| |apply in_or_app; auto].
        exfalso. assert (c = a). { apply (Un b); auto; [right; auto|left; auto| |]; apply Sy; auto; try (left; auto; fail); right; auto. }
        subst. apply Na. apply in_app_or in Hc as [Hc|Hc]; apply in_or_app; [left|right; right]; auto. }
  destruct E as [m Em]. exists (S m). cbn [length]. rewrite app_length in *. cbn [length]. lia.
Qed.

Lemma enum_nodup : forall s P ys, enumerates s P ys -> NoDup ys.
Proof.
  intros s P ys [Y1 [Y2 Y3]]. apply (FOP_NoDup (fun a b => exists p, field s p /\ num a p <> num b p)); auto. intros a _ [p [_ H]]. congruence.
Qed.
Lemma enum_eq : forall s P ys a b, enumerates s P ys -> In a ys -> In b ys -> (forall p, field s p -> num a p = num b p) -> a = b.
Proof.
  intros s P ys a b [Y1 [Y2 Y3]] Ha Hb E. destruct (FOP_in (fun a b => exists p, field s p /\ num a p <> num b p) ys a b ltac:(intros x y [p [F D]]; exists p; auto) Y3 Ha Hb) as [|[p [F D]]]; auto.
  exfalso. apply D. auto.
Qed.
Lemma enum_field : forall s P ys y p, enumerates s P ys -> In y ys -> (field y p <-> field s p).
Proof. intros s P ys y p [Y1 _] Hy. destruct (Y1 y Hy) as [_ [B _]]. unfold box_size in B. injection B as E1 E2. unfold field. rewrite E1, E2. tauto. Qed.

Lemma moves_even : forall s fm nm ys, moves s fm nm -> enumerates s (solution s) ys -> Nat.Even (length ys).
Proof.
  intros s fm nm ys [E M] Y.
  apply (even_pairs (fun a b => forall p, field s p -> num b p = nm (num a (fm p))) (length ys)); auto.
  - eapply enum_nodup; eauto.
  - intros a b Ha Hb H p Fp. destruct (eq_to _ _ _ _ _ _ E p Fp) as [Fq Eq]. rewrite (H (fm p) Fq), Eq. symmetry. apply (eq_ren _ _ _ _ _ _ E).
  - intros a b c Ha Hb Hc H1 H2. apply (enum_eq s (solution s) ys b c Y); auto. intros p Fp. rewrite H1, H2; auto.
  - intros a Ha. destruct (proj1 Y a Ha) as [_ [_ Sa]]. pose proof (proj1 (C99_solutions_proof fm fm nm nm s s (num a) E) Sa) as Sb.
    destruct (proj1 (proj2 Y) _ Sb) as [b [Hb Sh]]. exists b. split; auto. split.
    + intros p Fp. apply Sh. apply (enum_field s _ ys b p Y Hb). auto.
    + intros ->. destruct (M (num b) (proj1 Sa)) as [p [Fp D]]. apply D. symmetry. apply Sh. apply (enum_field s _ ys b p Y Hb). auto.
Qed.

(** * Factorials *)
Definition firstA (A : list Z) (v : list Z) : Z := match List.find (fun x => existsb (Z.eqb x) A) v with Some x => x | None => 0 end.
Lemma inA : forall A x, existsb (Z.eqb x) A = true <-> In x A.
Proof. intros A x. rewrite existsb_exists. split; [intros [y [Hy E]]; b2p; subst; auto|]. intros H. exists x. split; auto. apply Z.eqb_refl. Qed.
Lemma firstA_in : forall A v, (exists a, In a A /\ In a v) -> In (firstA A v) A.
Proof.
  intros A v [a [Ha Hv]]. unfold firstA. destruct (List.find (fun x => existsb (Z.eqb x) A) v) as [x|] eqn:E.
  - apply find_some in E as [_ E]. apply inA; auto.
  - exfalso. pose proof (find_none _ _ E a Hv) as X. cbv beta in X. apply inA in Ha. rewrite Ha in X. discriminate.
Qed.
Lemma sw_in : forall A a b x, In a A -> In b A -> (In (sw a b x) A <-> In x A).
Proof. intros A a b x Ha Hb. destruct (sw_cases a b x) as [[-> ->]|[[-> ->]|[_ [_ ->]]]]; tauto. Qed.
Lemma firstA_sw : forall A a b v, In a A -> In b A -> (exists x, In x A /\ In x v) -> firstA A (map (sw a b) v) = sw a b (firstA A v).
Proof.
  intros A a b v Ha Hb. induction v as [|x v IH]; intros [c [Hc Hv]]; [destruct Hv|]. unfold firstA in *. cbn [map List.find].
  destruct (existsb (Z.eqb x) A) eqn:X.
  - apply inA in X. apply (sw_in A a b x Ha Hb) in X. apply inA in X. rewrite X. auto.
  - assert (Y : existsb (Z.eqb (sw a b x)) A = false).
    { apply Bool.not_true_iff_false. intros Y. apply inA in Y. apply (sw_in A a b x Ha Hb) in Y. apply inA in Y. congruence. }
    rewrite Y. apply IH. exists c. split; auto. destruct Hv as [->|]; auto. apply inA in Hc. congruence.
Qed.

Lemma map_sw_sw : forall a b v, map (sw a b) (map (sw a b) v) = v.
Proof. intros a b v. rewrite map_map. rewrite <- (map_id v) at 2. apply map_ext. intros; apply sw_sw. Qed.

Lemma sum_classes : forall (A : list Z) (g : list Z -> Z) m (L : list (list Z)), NoDup A -> (forall v, In v L -> In (g v) A) ->
  (forall a, In a A -> length (filter (fun v => g v =? a) L) = m) -> length L = (length A * m)%nat.
Proof.
  intros A g m L NA. revert L. induction NA as [|a A Ha NA IH]; intros L H1 H2.
  - destruct L as [|v L]; auto. destruct (H1 v (or_introl eq_refl)).
  - assert (Sp : (length L = length (filter (fun v => g v =? a)%Z L) + length (filter (fun v => negb (g v =? a)%Z) L))%nat).
    { clear. induction L as [|b l IH]; auto. cbn [filter]. destruct (g b =? a); cbn [negb length]; lia. }
    rewrite Sp, (H2 a (or_introl eq_refl)). cbn [length Nat.mul]. f_equal. apply IH.
    + intros v Hv. apply filter_In in Hv as [Hv X]. apply negb_true_iff in X. b2p. destruct (H1 v Hv) as [Y|Y]; auto. congruence.
    + intros b Hb. rewrite <- (H2 b (or_intror Hb)). f_equal. clear - Ha Hb. induction L as [|v L IH]; auto. cbn [filter].
      destruct (g v =? a) eqn:X; cbn [negb filter].
      * b2p. destruct (g v =? b) eqn:Y; auto. b2p. congruence.
      * destruct (g v =? b); cbn [filter]; congruence.
Qed.

Lemma fact_div : forall A, NoDup A -> forall L : list (list Z), NoDup L -> (forall v, In v L -> forall a, In a A -> In a v) ->
  (forall a b v, In a A -> In b A -> In v L -> In (map (sw a b) v) L) -> Nat.divide (fact (length A)) (length L).
Proof.
  intros A NA; induction NA as [|a0 A Ha NA IH]; intros L NL H1 H2; [exists (length L); cbn [length fact]; lia|].
  set (A0 := a0 :: A) in *. set (cl := fun a => filter (fun v => firstA A0 v =? a) L).
  assert (Hf : forall v, In v L -> exists x, In x A0 /\ In x v) by (intros v Hv; exists a0; split; [left; auto|apply H1; auto; left; auto]).
  assert (Le : forall a b, In a A0 -> In b A0 -> (length (cl a) <= length (cl b))%nat).
  { intros a b Ia Ib. rewrite <- (map_length (map (sw a b)) (cl a)). apply NoDup_incl_length.
    - apply map_nodup_in; [apply NoDup_filter; auto|]. intros x y _ _ E. rewrite <- (map_sw_sw a b x), E. apply map_sw_sw.
    - intros u Hu. apply in_map_iff in Hu as [v [<- Hv]]. apply filter_In in Hv as [Hv X]. b2p. apply filter_In. split; [apply H2; auto|].
      rewrite firstA_sw by auto. rewrite X. apply Z.eqb_eq. destruct (sw_cases a b a) as [[_ ->]|[[Y ->]|[Y _]]]; auto; congruence. }
  assert (I0 : In a0 A0) by (left; auto).
  assert (E : length L = (length A0 * length (cl a0))%nat).
  { apply (sum_classes A0 (firstA A0)); [constructor; auto| |].
    - intros v Hv. apply firstA_in; auto.
    - intros a Ia. pose proof (Le a a0 Ia I0). pose proof (Le a0 a I0 Ia). unfold cl in *. lia. }
  destruct (IH (cl a0)) as [x Ex].
  - apply NoDup_filter; auto.
  - intros v Hv a Ia. apply filter_In in Hv as [Hv _]. apply H1; auto. right; auto.
  - intros a b v Ia Ib Hv. apply filter_In in Hv as [Hv X]. b2p. apply filter_In. split; [apply H2; auto; right; auto|].
    rewrite firstA_sw by (auto; right; auto). rewrite X. apply Z.eqb_eq. destruct (sw_cases a b a0) as [[Y _]|[[Y _]|[_ [_ Y]]]]; auto; exfalso; apply Ha; rewrite Y; auto.
  - exists x. rewrite E, Ex. unfold A0. cbn [length fact]. lia.
Qed.

Lemma absent_fact : forall s A ys, wf s -> NoDup A -> (forall a, In a A -> 1 <= a <= box_width s * box_height s) ->
  (forall p, field s p -> ~ In (num s p) A) -> enumerates s (solution s) ys -> Nat.divide (fact (length A)) (length ys).
Proof.
  intros s A ys W NA RA Ab Y. set (K := fun y => map (num y) (coords s)).
  rewrite <- (map_length K ys).
  assert (KI : forall x y, K x = K y -> forall p, field s p -> num x p = num y p).
  { intros x y E p Fp. apply in_coords in Fp. unfold K in E. clear - E Fp. induction (coords s) as [|q l IH]; [destruct Fp|]. cbn [map] in E. injection E as E1 E2. destruct Fp as [->|Fp]; auto. }
  apply fact_div; auto.
  - apply map_nodup_in; [eapply enum_nodup; eauto|]. intros x y Hx Hy E. apply (enum_eq s _ ys x y Y Hx Hy). apply KI; auto.
  - intros v Hv a Ha. apply in_map_iff in Hv as [y [<- Hy]]. destruct (proj1 Y y Hy) as [_ [_ [V _]]].
    destruct (first_row_has _ _ _ a (wf_w _ W) (wf_h _ W) V (RA a Ha)) as [c [Rc Ec]]. apply in_map_iff. exists (0, c). split; auto. apply in_coords. split; cbn [fst snd]; lia.
  - intros a b v Ha Hb Hv. apply in_map_iff in Hv as [y [<- Hy]]. destruct (proj1 Y y Hy) as [_ [_ Sy]].
    assert (E : equivalent (fun p => p) (fun p => p) (sw a b) (sw a b) s s).
    { pose proof (RA a Ha). pose proof (RA b Hb). apply C99_relabel_proof; auto.
      + intros v. split; apply sw_sw.
      + destruct (sw_cases a b 0) as [[H' E]|[[H' E]|[_ [_ E]]]]; lia.
      + intros v. destruct (sw_cases a b v) as [[H' E]|[[H' E]|[_ [_ E]]]]; rewrite E; lia.
      + intros p Fp. specialize (Ab p Fp). destruct (sw_cases a b (num s p)) as [[H' E]|[[H' E]|[_ [_ E]]]]; auto; exfalso; apply Ab; rewrite H'; auto. }
    pose proof (proj1 (C99_solutions_proof _ _ _ _ s s (num y) E) Sy) as Sz. destruct (proj1 (proj2 Y) _ Sz) as [z [Hz Sh]].
    apply in_map_iff. exists z. split; auto. unfold K. rewrite map_map. apply map_ext_in. intros p Hp. apply in_coords in Hp. apply Sh. apply (enum_field s _ ys z p Y Hz). auto.
Qed.

Lemma C130_even_proof : forall ord s, (forall p l, Permutation (ord p l) l) -> wf s -> poor s -> Nat.Even (length (gyields (dlx ord s) tt)).
Proof.
  intros ord s Ho W P. destruct (poor_moves s W P) as [fm [nm M]]. apply (moves_even s fm nm); auto. apply C23_proof; auto.
Qed.
Lemma C130_fact_proof : forall ord s A, (forall p l, Permutation (ord p l) l) -> wf s -> NoDup A -> (forall a, In a A -> 1 <= a <= box_width s * box_height s) ->
  (forall p, field s p -> ~ In (num s p) A) -> Nat.divide (fact (length A)) (length (gyields (dlx ord s) tt)).
Proof. intros ord s A Ho W NA RA Ab. apply (absent_fact s A); auto. apply C23_proof; auto. Qed.
Lemma C130_empty_proof : forall ord w h, (forall p l, Permutation (ord p l) l) -> 1 <= w -> 1 <= h ->
  Nat.divide (fact (Z.to_nat (w * h))) (length (gyields (dlx ord (new_sudoku (w, h))) tt)).
Proof.
  intros ord w h Ho Hw Hh. pose proof (new_sudoku_wf w h Hw Hh) as W.
  replace (Z.to_nat (w * h)) with (length (py_range2 1 (w * h + 1))) by (rewrite length_py_range2; f_equal; lia).
  apply C130_fact_proof; auto; [apply NoDup_py_range2| |].
  - intros a Ha. apply in_py_range2 in Ha. change (1 <= a <= w * h). lia.
  - intros p Fp Ha. rewrite num_new in Ha by auto. apply in_py_range2 in Ha. lia.
Qed.
Lemma C130_bruteforce_proof : forall ord s, (forall t l, Permutation (ord t l) l) -> wf s -> in_range s ->
  (poor s -> Nat.Even (length (gyields (bruteforce ord s) tt))) /\
  forall A, NoDup A -> (forall a, In a A -> 1 <= a <= box_width s * box_height s) -> (forall p, field s p -> ~ In (num s p) A) ->
    Nat.divide (fact (length A)) (length (gyields (bruteforce ord s) tt)).
Proof.
  intros ord s Ho W R. assert (Hi : forall (p l : list xrow), Permutation l l) by (intros; apply Permutation_refl).
  destruct (C26_proof (fun _ l => l) ord s Hi Ho W R) as [_ [_ E]]. rewrite <- E. split.
  - intros P. apply C130_even_proof; auto.
  - intros A NA RA Ab. apply C130_fact_proof; auto.
Qed.
