(** Lemmas about PyDict. *)
From Verif Require Export LBase PyDict.

Section Facts.
Context {K V : Type} (eqb : K -> K -> bool).
Hypothesis eqb_eq : forall a b, eqb a b = true <-> a = b.

Lemma eqb_refl' : forall a, eqb a a = true.
Proof. intros; apply eqb_eq; auto. Qed.

Lemma eqb_neq : forall a b, a <> b -> eqb a b = false.
Proof. intros a b H; destruct (eqb a b) eqn:E; auto. apply eqb_eq in E; contradiction. Qed.

Lemma dget_In : forall (d : list (K * V)) k v, dget eqb d k = Ok v -> In (k, v) d.
Proof.
  induction d as [|[k' v'] d IH]; simpl; intros k v H; [discriminate|].
  destruct (eqb k k') eqn:E.
  - apply eqb_eq in E; inv H; auto.
  - right; auto.
Qed.

Lemma dget_NoDup : forall (d : list (K * V)) k v,
  NoDup (dkeys d) -> In (k, v) d -> dget eqb d k = Ok v.
Proof.
  induction d as [|[k' v'] d IH]; simpl; intros k v Hn H; [destruct H|].
  inv Hn. destruct H as [H|H].
  - inv H. rewrite eqb_refl'; auto.
  - destruct (eqb k k') eqn:E; auto.
    apply eqb_eq in E; subst. exfalso; apply H2. apply in_map_iff; exists (k', v); auto.
Qed.

Lemma dget_err : forall (d : list (K * V)) k, ~ In k (dkeys d) -> dget eqb d k = Err KeyError.
Proof.
  induction d as [|[k' v'] d IH]; simpl; intros k H; auto.
  rewrite eqb_neq by (intros ->; tauto). apply IH; tauto.
Qed.

Lemma dget_err_inv : forall (d : list (K * V)) k e, dget eqb d k = Err e -> e = KeyError.
Proof.
  induction d as [|[k' v'] d IH]; simpl; intros k e H; [congruence|].
  destruct (eqb k k'); [discriminate|eauto].
Qed.

Lemma dget_keys : forall (d : list (K * V)) k, In k (dkeys d) <-> exists v, dget eqb d k = Ok v.
Proof.
  induction d as [|[k' v'] d IH]; simpl; intros k; split.
  - tauto.
  - intros [v H]; discriminate.
  - destruct (eqb k k') eqn:E; [eauto|]. intros [H|H].
    + subst; rewrite eqb_refl' in E; discriminate.
    + apply IH; auto.
  - destruct (eqb k k') eqn:E; [left; apply eqb_eq in E; auto|].
    intros H; right; apply IH; auto.
Qed.

Lemma dset_in_keys : forall (d : list (K * V)) k v, In k (dkeys d) -> dkeys (dset eqb d k v) = dkeys d.
Proof.
  induction d as [|[k' v'] d IH]; simpl; intros k v H; [destruct H|].
  destruct (eqb k k') eqn:E; simpl; auto. f_equal. apply IH.
  destruct H; auto. subst. rewrite eqb_refl' in E; discriminate.
Qed.

Lemma dset_new : forall (d : list (K * V)) k v, ~ In k (dkeys d) -> dset eqb d k v = d ++ [(k, v)].
Proof.
  induction d as [|[k' v'] d IH]; simpl; intros k v H; auto.
  rewrite eqb_neq by (intros ->; tauto). f_equal; apply IH; tauto.
Qed.

Lemma dset_keys : forall (d : list (K * V)) k v x,
  In x (dkeys (dset eqb d k v)) <-> x = k \/ In x (dkeys d).
Proof.
  induction d as [|[k' v'] d IH]; simpl; intros k v x.
  - intuition.
  - destruct (eqb k k') eqn:E; simpl.
    + apply eqb_eq in E; subst; intuition.
    + rewrite IH; intuition.
Qed.

Lemma dget_dset : forall (d : list (K * V)) k v x,
  dget eqb (dset eqb d k v) x = if eqb x k then Ok v else dget eqb d x.
Proof.
  induction d as [|[k' v'] d IH]; simpl; intros k v x.
  - destruct (eqb x k); auto.
  - destruct (eqb k k') eqn:E; simpl.
    + apply eqb_eq in E; subst. destruct (eqb x k'); auto.
    + rewrite IH. destruct (eqb x k') eqn:E1; auto.
      destruct (eqb x k) eqn:E2; auto. apply eqb_eq in E1; apply eqb_eq in E2; subst.
      rewrite eqb_refl' in E; discriminate.
Qed.

Lemma dset_NoDup : forall (d : list (K * V)) k v, NoDup (dkeys d) -> NoDup (dkeys (dset eqb d k v)).
Proof.
  induction d as [|[k' v'] d IH]; simpl; intros k v H.
  - repeat constructor. simpl; tauto.
  - inv H. destruct (eqb k k') eqn:E; simpl; constructor; auto.
    rewrite dset_keys. intros [->|H]; auto. rewrite eqb_refl' in E; discriminate.
Qed.

Lemma dpop_ok : forall (d : list (K * V)) k v, NoDup (dkeys d) -> dget eqb d k = Ok v ->
  exists d', dpop eqb d k = Ok (v, d') /\ NoDup (dkeys d') /\
    (forall x, In x (dkeys d') <-> In x (dkeys d) /\ x <> k) /\
    (forall x, x <> k -> dget eqb d' x = dget eqb d x).
Proof.
  induction d as [|[k' v'] d IH]; simpl; intros k v Hn H; [discriminate|].
  inv Hn. destruct (eqb k k') eqn:E.
  - apply eqb_eq in E; subst k'. inv H. exists d; repeat split; auto.
    + intros ->; auto.
    + intros [[E|E] Hx]; congruence.
    + intros x Hx. rewrite eqb_neq by auto; auto.
  - destruct (IH k v H3 H) as [d' [E1 [E2 [E3 E4]]]]. rewrite E1; simpl.
    exists ((k', v') :: d'); split; auto. simpl. repeat split.
    + constructor; auto. rewrite E3; tauto.
    + destruct H0 as [->|H0]; auto. apply E3 in H0; tauto.
    + destruct H0 as [->|H0]; [intros ->; rewrite eqb_refl' in E; discriminate|].
      apply E3 in H0; tauto.
    + intros [[->|Hx] Hne]; auto. right; apply E3; auto.
    + intros x Hx. destruct (eqb x k'); auto.
Qed.
End Facts.
