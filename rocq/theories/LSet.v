(** Lemmas about PySet: sets as strictly sorted lists. *)
From Coq Require Export Sorted.
From Verif Require Export LBase PySet.

(** A comparison function that decides a strict total order. *)
Record good_cmp {A} (cmp : A -> A -> comparison) : Prop := {
  gc_eq : forall x y, cmp x y = Eq <-> x = y;
  gc_anti : forall x y, cmp y x = CompOpp (cmp x y);
  gc_trans : forall x y z, cmp x y = Lt -> cmp y z = Lt -> cmp x z = Lt
}.

Definition sset {A} (cmp : A -> A -> comparison) : list A -> Prop :=
  StronglySorted (fun x y => cmp x y = Lt).

Section Facts.
Context {A : Type} (cmp : A -> A -> comparison) (G : good_cmp cmp).

Lemma gc_refl : forall x, cmp x x = Eq.
Proof. intros; apply (gc_eq _ G); auto. Qed.

Lemma gc_lt_neq : forall x y, cmp x y = Lt -> x <> y.
Proof. intros x y H E; subst; rewrite gc_refl in H; discriminate. Qed.

Lemma gc_gt_lt : forall x y, cmp x y = Gt <-> cmp y x = Lt.
Proof. intros x y; rewrite (gc_anti _ G x y); destruct (cmp x y); simpl; split; congruence. Qed.

Lemma cmp_eqb_eq : forall x y, cmp_eqb cmp x y = true <-> x = y.
Proof.
  intros x y; unfold cmp_eqb. rewrite <- (gc_eq _ G). destruct (cmp x y); split; congruence.
Qed.

Lemma cmp_eqb_neq : forall x y, cmp_eqb cmp x y = false <-> x <> y.
Proof.
  intros x y; rewrite <- cmp_eqb_eq. destruct (cmp_eqb cmp x y); split; congruence.
Qed.

Lemma good_eq_dec : forall x y : A, {x = y} + {x <> y}.
Proof.
  intros x y; destruct (cmp_eqb cmp x y) eqn:E;
  [left; apply cmp_eqb_eq; auto | right; apply cmp_eqb_neq; auto].
Qed.

Lemma smem_In : forall x s, smem cmp x s = true <-> In x s.
Proof.
  intros x s; unfold smem; rewrite existsb_exists; split.
  - intros [y [H E]]; apply cmp_eqb_eq in E; subst; auto.
  - intros H; exists x; split; auto. apply cmp_eqb_eq; auto.
Qed.

Lemma smem_not_In : forall x s, smem cmp x s = false <-> ~ In x s.
Proof. intros x s; rewrite <- smem_In; destruct (smem cmp x s); split; congruence. Qed.

Lemma In_sadd : forall x y s, In y (sadd cmp x s) <-> y = x \/ In y s.
Proof.
  intros x y s; induction s as [|z t IH]; simpl.
  - intuition.
  - destruct (cmp x z) eqn:E; simpl.
    + apply (gc_eq _ G) in E; subst. intuition.
    + intuition.
    + rewrite IH; intuition.
Qed.

Lemma sadd_sset : forall x s, sset cmp s -> sset cmp (sadd cmp x s).
Proof.
  intros x s; induction s as [|z t IH]; intros H; simpl.
  - repeat constructor.
  - inv H. destruct (cmp x z) eqn:E.
    + constructor; auto.
    + constructor; [constructor; auto|]. constructor; auto.
      rewrite Forall_forall in *; intros y Hy. eapply (gc_trans _ G); eauto.
    + constructor; [apply IH; auto|].
      rewrite Forall_forall in *; intros y Hy. apply In_sadd in Hy.
      destruct Hy as [->|Hy]; auto. apply gc_gt_lt; auto.
Qed.

Lemma In_sunion : forall y t s, In y (sunion cmp s t) <-> In y s \/ In y t.
Proof.
  intros y t; unfold sunion; induction t as [|x t IH]; intros s; simpl.
  - intuition.
  - rewrite IH, In_sadd; intuition.
Qed.

Lemma sunion_sset : forall t s, sset cmp s -> sset cmp (sunion cmp s t).
Proof.
  intros t; unfold sunion; induction t as [|x t IH]; intros s H; simpl; auto.
  apply IH, sadd_sset; auto.
Qed.

Lemma sset_nil : sset cmp [].
Proof. constructor. Qed.

Lemma In_sof_list : forall y l, In y (sof_list cmp l) <-> In y l.
Proof.
  intros y l; unfold sof_list. change (In y (sunion cmp [] l) <-> In y l).
  rewrite In_sunion; simpl; tauto.
Qed.

Lemma sof_list_sset : forall l, sset cmp (sof_list cmp l).
Proof. intros l; apply (sunion_sset l []); constructor. Qed.

Lemma sset_NoDup : forall s, sset cmp s -> NoDup s.
Proof.
  induction s as [|x s IH]; intros H; constructor; inv H; auto.
  intros Hin. rewrite Forall_forall in H3. apply H3 in Hin. apply gc_lt_neq in Hin; auto.
Qed.

Lemma sset_ext : forall s t, sset cmp s -> sset cmp t ->
  (forall x, In x s <-> In x t) -> s = t.
Proof.
  induction s as [|x s IH]; intros t Hs Ht H.
  - destruct t as [|y t]; auto. destruct (proj2 (H y)); simpl; auto.
  - destruct t as [|y t]; [destruct (proj1 (H x)); simpl; auto|].
    inv Hs; inv Ht. rewrite Forall_forall in *.
    assert (x = y).
    { assert (In x (y :: t)) as [E|E] by (apply H; left; auto); auto.
      assert (In y (x :: s)) as [E'|E'] by (apply H; left; auto); auto.
      apply H5 in E; apply H3 in E'. apply gc_gt_lt in E. congruence. }
    subst y; f_equal. apply IH; auto.
    intros z; split; intros Hz.
    + assert (In z (x :: t)) as [E|E] by (apply H; right; auto); auto.
      subst z. apply H3 in Hz. apply gc_lt_neq in Hz; congruence.
    + assert (In z (x :: s)) as [E|E] by (apply H; right; auto); auto.
      subst z. apply H5 in Hz. apply gc_lt_neq in Hz; congruence.
Qed.

Lemma sof_list_id : forall s, sset cmp s -> sof_list cmp s = s.
Proof.
  intros s H; apply sset_ext; auto; [apply sof_list_sset|].
  intros; apply In_sof_list.
Qed.

Lemma filter_sset : forall f s, sset cmp s -> sset cmp (filter f s).
Proof.
  intros f s; induction s as [|x s IH]; intros H; simpl; [constructor|].
  inv H. destruct (f x); [|apply IH; auto]. constructor; [apply IH; auto|].
  rewrite Forall_forall in *; intros y Hy; apply filter_In in Hy; apply H3; tauto.
Qed.

Lemma In_sdiscard : forall x y s, In y (sdiscard cmp x s) <-> In y s /\ y <> x.
Proof.
  intros x y s; unfold sdiscard; rewrite filter_In, negb_true_iff, cmp_eqb_neq.
  intuition.
Qed.

Lemma sdiscard_sset : forall x s, sset cmp s -> sset cmp (sdiscard cmp x s).
Proof. intros; apply filter_sset; auto. Qed.

Lemma In_sdiff : forall y s t, In y (sdiff cmp s t) <-> In y s /\ ~ In y t.
Proof. intros; unfold sdiff; rewrite filter_In, negb_true_iff, smem_not_In; tauto. Qed.

Lemma In_sinter : forall y s t, In y (sinter cmp s t) <-> In y s /\ In y t.
Proof. intros; unfold sinter; rewrite filter_In, smem_In; tauto. Qed.

Lemma sdiff_sset : forall s t, sset cmp s -> sset cmp (sdiff cmp s t).
Proof. intros; apply filter_sset; auto. Qed.

Lemma sinter_sset : forall s t, sset cmp s -> sset cmp (sinter cmp s t).
Proof. intros; apply filter_sset; auto. Qed.

(** Size of sets: inclusion and sizes. *)
Lemma sset_incl_length : forall s t, sset cmp s -> incl s t -> (length s <= length t)%nat.
Proof. intros; apply NoDup_incl_length; auto. apply sset_NoDup; auto. Qed.

Lemma sset_incl_eq : forall s t, sset cmp s -> sset cmp t -> incl s t ->
  (length t <= length s)%nat -> s = t.
Proof.
  intros s t Hs Ht Hi Hl. apply sset_ext; auto. intros x; split; auto.
  apply NoDup_length_incl; auto. apply sset_NoDup; auto.
Qed.

(** Removing an element (present or not). *)
Lemma length_sdiscard_in : forall x s, sset cmp s -> In x s ->
  length s = S (length (sdiscard cmp x s)).
Proof.
  intros x s; induction s as [|y s IH]; intros Hs Hx; [destruct Hx|].
  simpl. inv Hs. destruct (cmp_eqb cmp x y) eqn:E; simpl.
  - apply cmp_eqb_eq in E; subst. f_equal. unfold sdiscard.
    clear IH Hx H1. induction s as [|z s IHs]; simpl; auto.
    inv H2. assert (cmp_eqb cmp y z = false) as ->.
    { apply cmp_eqb_neq; apply gc_lt_neq; auto. }
    simpl; f_equal; auto.
  - f_equal. apply IH; auto. destruct Hx; auto. subst. apply cmp_eqb_neq in E; congruence.
Qed.

(** * sorted *)
Section Sort.
Variable leb : A -> A -> bool.
Lemma ins_by_perm : forall x l, Permutation (ins_by leb x l) (x :: l).
Proof.
  intros x l; induction l as [|y l IH]; simpl; auto.
  destruct (leb x y); auto. rewrite IH. apply perm_swap.
Qed.
Lemma sort_by_perm : forall l, Permutation (sort_by leb l) l.
Proof.
  induction l as [|x l IH]; simpl; auto.
  unfold sort_by in *; simpl. rewrite ins_by_perm. constructor; auto.
Qed.
Hypothesis total : forall x y, leb x y = true \/ leb y x = true.
Hypothesis tr : forall x y z, leb x y = true -> leb y z = true -> leb x z = true.
Lemma ins_by_sorted : forall x l, StronglySorted (fun a b => leb a b = true) l ->
  StronglySorted (fun a b => leb a b = true) (ins_by leb x l).
Proof.
  intros x l; induction l as [|y l IH]; intros H; simpl.
  - repeat constructor.
  - inv H. destruct (leb x y) eqn:E.
    + constructor; [constructor; auto|]. constructor; auto.
      rewrite Forall_forall in *; intros z Hz; eapply tr; eauto.
    + constructor; auto. rewrite Forall_forall in *; intros z Hz.
      apply (Permutation_in _ (ins_by_perm x l)) in Hz. destruct Hz as [->|Hz]; auto.
      destruct (total z y); congruence.
Qed.
Lemma sort_by_sorted : forall l, StronglySorted (fun a b => leb a b = true) (sort_by leb l).
Proof.
  induction l as [|x l IH]; [constructor|]. apply ins_by_sorted; auto.
Qed.
End Sort.

Lemma cmp_leb_total : forall x y, cmp_leb cmp x y = true \/ cmp_leb cmp y x = true.
Proof.
  intros x y; unfold cmp_leb; rewrite (gc_anti _ G x y); destruct (cmp x y); simpl; auto.
Qed.

Lemma cmp_leb_lt_or_eq : forall x y, cmp_leb cmp x y = true <-> cmp x y = Lt \/ x = y.
Proof.
  intros x y; unfold cmp_leb. rewrite <- (gc_eq _ G). destruct (cmp x y); split; intuition congruence.
Qed.

Lemma cmp_leb_trans : forall x y z,
  cmp_leb cmp x y = true -> cmp_leb cmp y z = true -> cmp_leb cmp x z = true.
Proof.
  intros x y z; rewrite !cmp_leb_lt_or_eq. intros [H| ->] [H'|E]; subst; auto.
  left; eapply (gc_trans _ G); eauto.
Qed.

Lemma cmp_leb_anti : forall x y,
  cmp_leb cmp x y = true -> cmp_leb cmp y x = true -> x = y.
Proof.
  intros x y; rewrite !cmp_leb_lt_or_eq. intros [H| ->] [H'|E]; subst; auto.
  apply gc_gt_lt in H'; congruence.
Qed.

Lemma py_sorted_perm : forall l, Permutation (py_sorted cmp l) l.
Proof. intros; apply sort_by_perm. Qed.

Lemma py_sorted_sorted : forall l, StronglySorted (fun a b => cmp_leb cmp a b = true) (py_sorted cmp l).
Proof. intros; apply sort_by_sorted; [apply cmp_leb_total | apply cmp_leb_trans]. Qed.

(** sorted lists with the same elements are equal *)
Lemma sorted_perm_eq : forall l m,
  StronglySorted (fun a b => cmp_leb cmp a b = true) l ->
  StronglySorted (fun a b => cmp_leb cmp a b = true) m ->
  Permutation l m -> l = m.
Proof.
  induction l as [|x l IH]; intros m Hl Hm P.
  - apply Permutation_nil in P; auto.
  - destruct m as [|y m]; [apply Permutation_sym, Permutation_nil in P; discriminate|].
    inv Hl; inv Hm. rewrite Forall_forall in *.
    assert (x = y).
    { assert (In x (y :: m)) as [E|E] by (eapply Permutation_in; eauto; left; auto); auto.
      assert (In y (x :: l)) as [E'|E'] by (eapply Permutation_in; [symmetry; eauto|left; auto]); auto.
      apply cmp_leb_anti; auto. }
    subst y; f_equal. apply IH; auto. eapply Permutation_cons_inv; eauto.
Qed.

Lemma py_sorted_canonical : forall l m, Permutation l m -> py_sorted cmp l = py_sorted cmp m.
Proof.
  intros l m P; apply sorted_perm_eq; try apply py_sorted_sorted.
  rewrite !py_sorted_perm; auto.
Qed.

End Facts.

(** * The comparison functions used *)
Lemma zcmp_good : good_cmp zcmp.
Proof.
  unfold zcmp; constructor.
  - apply Z.compare_eq_iff.
  - intros; apply Z.compare_antisym.
  - intros x y z; rewrite !Z.compare_lt_iff; lia.
Qed.

Lemma pair_cmp_good : forall {A B} (ca : A -> A -> comparison) (cb : B -> B -> comparison),
  good_cmp ca -> good_cmp cb -> good_cmp (pair_cmp ca cb).
Proof.
  intros A B ca cb Ga Gb; unfold pair_cmp; constructor.
  - intros [x1 x2] [y1 y2]; simpl. destruct (ca x1 y1) eqn:E; split; intros H; try discriminate.
    + apply (gc_eq _ Ga) in E; apply (gc_eq _ Gb) in H; subst; auto.
    + inv H; apply (gc_eq _ Gb); auto.
    + inv H. rewrite (gc_refl _ Ga) in E; discriminate.
    + inv H. rewrite (gc_refl _ Ga) in E; discriminate.
  - intros [x1 x2] [y1 y2]; simpl. rewrite (gc_anti _ Ga x1 y1).
    destruct (ca x1 y1); simpl; auto. apply (gc_anti _ Gb).
  - intros [x1 x2] [y1 y2] [z1 z2]; simpl.
    destruct (ca x1 y1) eqn:E1; try discriminate; destruct (ca y1 z1) eqn:E2; try discriminate;
    intros H1 H2.
    + apply (gc_eq _ Ga) in E1; subst; rewrite E2. eapply (gc_trans _ Gb); eauto.
    + apply (gc_eq _ Ga) in E1; subst; rewrite E2; auto.
    + apply (gc_eq _ Ga) in E2; subst; rewrite E1; auto.
    + rewrite (gc_trans _ Ga _ _ _ E1 E2); auto.
Qed.

Lemma list_cmp_good : forall {A} (c : A -> A -> comparison), good_cmp c -> good_cmp (list_cmp c).
Proof.
  intros A c Gc; constructor.
  - induction x as [|a x IH]; destruct y as [|b y]; simpl; split; try congruence.
    + destruct (c a b) eqn:E; try discriminate. apply (gc_eq _ Gc) in E; subst.
      intros H; apply IH in H; subst; auto.
    + intros H; inv H. rewrite (gc_refl _ Gc). apply IH; auto.
  - induction x as [|a x IH]; destruct y as [|b y]; simpl; auto.
    rewrite (gc_anti _ Gc a b). destruct (c a b); simpl; auto.
  - induction x as [|a x IH]; destruct y as [|b y]; destruct z as [|d z]; simpl; try congruence.
    destruct (c a b) eqn:E1; try discriminate; destruct (c b d) eqn:E2; try discriminate;
    intros H1 H2.
    + apply (gc_eq _ Gc) in E1; subst; rewrite E2. eapply IH; eauto.
    + apply (gc_eq _ Gc) in E1; subst; rewrite E2; auto.
    + apply (gc_eq _ Gc) in E2; subst; rewrite E1; auto.
    + rewrite (gc_trans _ Gc _ _ _ E1 E2); auto.
Qed.

Lemma coord_cmp_good : good_cmp coord_cmp.
Proof. apply pair_cmp_good; apply zcmp_good. Qed.

(** Sets of integers. *)
Definition zsset (s : zset) : Prop := sset zcmp s.
