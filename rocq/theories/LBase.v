(** Lemmas about PyBase: lists, ranges, loops that may raise. *)
From Coq Require Export Lia Permutation.
From Verif Require Export PyBase.

Ltac inv H := inversion H; subst; clear H.
Ltac splits := repeat match goal with |- _ /\ _ => split end.

(** Booleans to propositions. *)
Ltac b2p :=
  repeat match goal with
  | H : andb _ _ = true |- _ => apply andb_prop in H; destruct H
  | H : orb _ _ = false |- _ => apply orb_false_iff in H; destruct H
  | H : negb _ = true |- _ => apply negb_true_iff in H
  | H : negb _ = false |- _ => apply negb_false_iff in H
  | H : (_ =? _) = true |- _ => apply Z.eqb_eq in H
  | H : (_ =? _) = false |- _ => apply Z.eqb_neq in H
  | H : (_ <? _) = true |- _ => apply Z.ltb_lt in H
  | H : (_ <? _) = false |- _ => apply Z.ltb_ge in H
  | H : (_ <=? _) = true |- _ => apply Z.leb_le in H
  | H : (_ <=? _) = false |- _ => apply Z.leb_gt in H
  end.

(** * res *)
Lemma rbind_ok : forall {A B} (m : res A) (f : A -> res B) b,
  rbind m f = Ok b <-> exists a, m = Ok a /\ f a = Ok b.
Proof.
  intros A B m f b; destruct m as [a|e]; simpl; split.
  - intros H; exists a; auto.
  - intros [a' [H1 H2]]; inv H1; auto.
  - discriminate.
  - intros [a' [H1 H2]]; discriminate.
Qed.

Lemma rbind_ok_l : forall {A B} (m : res A) (f : A -> res B) a,
  m = Ok a -> rbind m f = f a.
Proof. intros; subst; reflexivity. Qed.

Ltac ok_inv :=
  repeat match goal with
  | H : rbind _ _ = Ok _ |- _ =>
      apply rbind_ok in H; let a := fresh "a" in let H1 := fresh "H" in let H2 := fresh "H" in
      destruct H as [a [H1 H2]]
  | H : Ok _ = Ok _ |- _ => inv H
  | H : Err _ = Ok _ |- _ => discriminate H
  | H : Ok _ = Err _ |- _ => discriminate H
  end.

(** * Loops *)
Lemma foldM_ind : forall {A S} (f : S -> A -> res S) (P : list A -> S -> Prop) l acc,
  P [] acc ->
  (forall pre x post acc, l = pre ++ x :: post -> P pre acc ->
     exists acc', f acc x = Ok acc' /\ P (pre ++ [x]) acc') ->
  exists acc', foldM f l acc = Ok acc' /\ P l acc'.
Proof.
  intros A S f P l acc H0 Hs.
  assert (G : forall post pre acc, l = pre ++ post -> P pre acc ->
            exists acc', foldM f post acc = Ok acc' /\ P l acc').
  { induction post as [|x post IH]; intros pre a Hl Hp.
    - rewrite app_nil_r in Hl; subst. exists a; auto.
    - destruct (Hs pre x post a Hl Hp) as [a' [Hf Hp']].
      simpl. rewrite Hf. simpl. apply (IH (pre ++ [x]) a').
      + rewrite <- app_assoc; simpl; auto.
      + auto. }
  apply (G l [] acc); auto.
Qed.

Lemma foldM_pure : forall {A S} (f : S -> A -> res S) (g : S -> A -> S) (P : S -> Prop) l acc,
  P acc ->
  (forall acc x, In x l -> P acc -> f acc x = Ok (g acc x) /\ P (g acc x)) ->
  foldM f l acc = Ok (fold_left g l acc) /\ P (fold_left g l acc).
Proof.
  intros A S f g P l; induction l as [|x l IH]; intros acc HP Hs; simpl.
  - auto.
  - destruct (Hs acc x (or_introl eq_refl) HP) as [Hf HP'].
    rewrite Hf; simpl. apply IH; auto.
    intros; apply Hs; auto; right; auto.
Qed.

Lemma foldM_app : forall {A S} (f : S -> A -> res S) l1 l2 acc,
  foldM f (l1 ++ l2) acc = rbind (foldM f l1 acc) (foldM f l2).
Proof.
  intros A S f l1; induction l1 as [|x l1 IH]; intros l2 acc; simpl; auto.
  destruct (f acc x); simpl; auto.
Qed.

Lemma foldM_ext : forall {A S} (f g : S -> A -> res S) l acc,
  (forall acc x, In x l -> f acc x = g acc x) -> foldM f l acc = foldM g l acc.
Proof.
  intros A S f g l; induction l as [|x l IH]; intros acc H; simpl; auto.
  rewrite (H acc x) by (left; auto). destruct (g acc x); simpl; auto.
  apply IH; intros; apply H; right; auto.
Qed.

Lemma mapM_ok : forall {A B} (f : A -> res B) (g : A -> B) l,
  (forall x, In x l -> f x = Ok (g x)) -> mapM f l = Ok (map g l).
Proof.
  intros A B f g l; induction l as [|x l IH]; intros H; simpl; auto.
  rewrite (H x) by (left; auto). simpl. rewrite IH; auto.
  intros; apply H; right; auto.
Qed.

Lemma filterM_ok : forall {A} (f : A -> res bool) (g : A -> bool) l,
  (forall x, In x l -> f x = Ok (g x)) -> filterM f l = Ok (filter g l).
Proof.
  intros A f g l; induction l as [|x l IH]; intros H; simpl; auto.
  rewrite (H x) by (left; auto). simpl. rewrite IH; auto.
  intros; apply H; right; auto.
Qed.

Lemma anyM_ok : forall {A} (f : A -> res bool) (g : A -> bool) l,
  (forall x, In x l -> f x = Ok (g x)) -> anyM f l = Ok (existsb g l).
Proof.
  intros A f g l; induction l as [|x l IH]; intros H; simpl; auto.
  rewrite (H x) by (left; auto). simpl. destruct (g x); simpl; auto.
  apply IH; intros; apply H; right; auto.
Qed.

(** * range *)
Lemma in_py_range : forall n i, In i (py_range n) <-> 0 <= i < n.
Proof.
  intros n i; unfold py_range; rewrite in_map_iff; split.
  - intros [k [Hk Hin]]; apply in_seq in Hin; lia.
  - intros H; exists (Z.to_nat i); split; [lia|]. apply in_seq; lia.
Qed.

Lemma length_py_range : forall n, length (py_range n) = Z.to_nat n.
Proof. intros n; unfold py_range; rewrite map_length, seq_length; auto. Qed.

Lemma NoDup_map_inj : forall {A B} (f : A -> B) l,
  (forall x y, In x l -> In y l -> f x = f y -> x = y) -> NoDup l -> NoDup (map f l).
Proof.
  intros A B f l; induction l as [|x l IH]; intros Hi Hn; simpl; constructor.
  - inv Hn. intros Hin; apply in_map_iff in Hin; destruct Hin as [y [Hy Hin]].
    assert (y = x) by (apply Hi; simpl; auto). subst; auto.
  - inv Hn; apply IH; auto. intros; apply Hi; simpl; auto.
Qed.

Lemma NoDup_py_range : forall n, NoDup (py_range n).
Proof.
  intros n; unfold py_range; apply NoDup_map_inj; [intros; lia | apply seq_NoDup].
Qed.

Lemma in_py_range2 : forall a b i, In i (py_range2 a b) <-> a <= i < b.
Proof.
  intros a b i; unfold py_range2; rewrite in_map_iff; split.
  - intros [k [Hk Hin]]; apply in_py_range in Hin; lia.
  - intros H; exists (i - a); split; [lia|]. apply in_py_range; lia.
Qed.

Lemma NoDup_py_range2 : forall a b, NoDup (py_range2 a b).
Proof.
  intros; unfold py_range2; apply NoDup_map_inj; [intros; lia | apply NoDup_py_range].
Qed.

Lemma length_py_range2 : forall a b, length (py_range2 a b) = Z.to_nat (b - a).
Proof. intros; unfold py_range2; rewrite map_length, length_py_range; auto. Qed.

Lemma py_range_app : forall n, 0 <= n -> py_range (n + 1) = py_range n ++ [n].
Proof.
  intros n Hn; unfold py_range. replace (Z.to_nat (n + 1)) with (Z.to_nat n + 1)%nat by lia.
  rewrite seq_app, map_app; simpl. repeat f_equal; lia.
Qed.

Lemma nth_py_range : forall n k d, (k < Z.to_nat n)%nat -> nth k (py_range n) d = Z.of_nat k.
Proof.
  intros n k d H; unfold py_range.
  rewrite (nth_indep _ d (Z.of_nat 0)) by (rewrite map_length, seq_length; auto).
  rewrite map_nth, seq_nth by auto. reflexivity.
Qed.

(** * list_prod *)
Lemma NoDup_list_prod : forall {A B} (l : list A) (m : list B),
  NoDup l -> NoDup m -> NoDup (list_prod l m).
Proof.
  intros A B l m; induction l as [|x l IH]; intros Hl Hm; simpl.
  - constructor.
  - inv Hl. assert (Hd : forall p, In p (map (fun y => (x, y)) m) -> ~ In p (list_prod l m)).
    { intros [a b] Ha Hb. apply in_map_iff in Ha; destruct Ha as [y [Hy _]]; inv Hy.
      apply in_prod_iff in Hb; tauto. }
    assert (Hx : NoDup (map (fun y => (x, y)) m)).
    { apply NoDup_map_inj; auto. intros u v _ _ E; inv E; auto. }
    specialize (IH H2 Hm). clear H1 H2 Hm.
    induction (map (fun y => (x, y)) m) as [|p t IHt]; simpl; auto.
    inv Hx. constructor.
    + intros Hin; apply in_app_iff in Hin; destruct Hin as [Hin|Hin]; auto.
      apply (Hd p); simpl; auto.
    + apply IHt; auto. intros q Hq; apply Hd; simpl; auto.
Qed.

Lemma NoDup_app_iff : forall {A} (l m : list A),
  NoDup (l ++ m) <-> NoDup l /\ NoDup m /\ (forall x, In x l -> ~ In x m).
Proof.
  intros A l m; induction l as [|x l IH]; simpl.
  - split; [intros; repeat split; auto; constructor | tauto].
  - split.
    + intros H; inv H. apply IH in H3; destruct H3 as [Hl [Hm Hd]].
      rewrite in_app_iff in H2. repeat split; auto.
      * constructor; auto.
      * intros y [->|Hy]; auto.
    + intros [Hl [Hm Hd]]; inv Hl. constructor.
      * rewrite in_app_iff; intros [H|H]; auto. apply (Hd x); auto.
      * apply IH; repeat split; auto.
Qed.

Lemma length_list_prod : forall {A B} (l : list A) (m : list B),
  length (list_prod l m) = (length l * length m)%nat.
Proof. intros; apply prod_length. Qed.

(** * Indexing *)
Lemma py_idx_ok : forall n i, 0 <= i < Z.of_nat n -> py_idx n i = Ok (Z.to_nat i).
Proof.
  intros n i H; unfold py_idx.
  destruct (0 <=? i) eqn:E1, (i <? Z.of_nat n) eqn:E2; b2p; simpl; auto; lia.
Qed.

Lemma py_idx_err : forall n i, ~ (- Z.of_nat n <= i < Z.of_nat n) -> py_idx n i = Err IndexError.
Proof.
  intros n i H; unfold py_idx.
  destruct (0 <=? i) eqn:E1, (i <? Z.of_nat n) eqn:E2, (- Z.of_nat n <=? i) eqn:E3,
    (i <? 0) eqn:E4; b2p; simpl; auto; lia.
Qed.

Lemma py_idx_inv : forall n i k, py_idx n i = Ok k ->
  (k < n)%nat /\ (i = Z.of_nat k \/ i = Z.of_nat k - Z.of_nat n).
Proof.
  intros n i k; unfold py_idx.
  destruct (0 <=? i) eqn:E1, (i <? Z.of_nat n) eqn:E2, (- Z.of_nat n <=? i) eqn:E3,
    (i <? 0) eqn:E4; b2p; simpl; intros H; inv H; lia.
Qed.

Lemma list_get_ok : forall {A} (l : list A) i d, 0 <= i < py_len l ->
  list_get l i = Ok (nth (Z.to_nat i) l d).
Proof.
  intros A l i d H; unfold list_get, py_len in *. rewrite py_idx_ok by auto. simpl.
  rewrite (nth_error_nth' l d) by lia. reflexivity.
Qed.

Lemma list_get_err : forall {A} (l : list A) i, ~ (- py_len l <= i < py_len l) ->
  list_get l i = Err IndexError.
Proof. intros A l i H; unfold list_get; rewrite py_idx_err; auto. Qed.

Lemma length_list_upd : forall {A} k (v : A) l, length (list_upd k v l) = length l.
Proof. intros A k v l; revert k; induction l; destruct k; simpl; auto. Qed.

Lemma nth_list_upd : forall {A} k (v : A) l k' d,
  nth k' (list_upd k v l) d = if ((k' =? k) && (k <? length l))%nat then v else nth k' l d.
Proof.
  intros A k v l; revert k; induction l as [|x l IH]; intros k k' d; simpl.
  - rewrite andb_false_r. destruct k, k'; auto.
  - destruct k, k'; simpl; auto. rewrite IH. reflexivity.
Qed.

Lemma list_upd_same : forall {A} (l : list A) k d, list_upd k (nth k l d) l = l.
Proof. intros A l; induction l; destruct k; simpl; intros; f_equal; auto. Qed.

Lemma In_list_upd : forall {A} k (v : A) l x, In x (list_upd k v l) -> x = v \/ In x l.
Proof.
  intros A k v l; revert k; induction l as [|y l IH]; intros k x H; simpl in H.
  - destruct k; destruct H.
  - destruct k; simpl in H; destruct H as [H|H]; subst; simpl; auto.
    apply IH in H; tauto.
Qed.

(** * list.remove *)
Lemma coord_eqb_eq : forall a b, coord_eqb a b = true <-> a = b.
Proof.
  intros [a1 a2] [b1 b2]; unfold coord_eqb; simpl; split.
  - intros H; b2p; subst; auto.
  - intros H; inv H. rewrite !Z.eqb_refl; auto.
Qed.

Lemma coord_eqb_neq : forall a b, coord_eqb a b = false <-> a <> b.
Proof.
  intros a b; split; intros H.
  - intros E; apply coord_eqb_eq in E; congruence.
  - destruct (coord_eqb a b) eqn:E; auto. apply coord_eqb_eq in E; contradiction.
Qed.

Lemma coord_eqb_refl : forall a, coord_eqb a a = true.
Proof. intros; apply coord_eqb_eq; auto. Qed.

Lemma coord_eq_dec : forall a b : coord, {a = b} + {a <> b}.
Proof. intros a b; destruct (coord_eqb a b) eqn:E; [left; apply coord_eqb_eq; auto | right; apply coord_eqb_neq; auto]. Qed.

Lemma list_remove_split : forall l1 x l2, ~ In x l1 ->
  list_remove coord_eqb x (l1 ++ x :: l2) = Ok (l1 ++ l2).
Proof.
  induction l1 as [|y l1 IH]; intros x l2 H; simpl.
  - rewrite coord_eqb_refl; auto.
  - destruct (coord_eqb x y) eqn:E.
    + apply coord_eqb_eq in E; subst; simpl in H; tauto.
    + rewrite IH by (simpl in H; tauto). reflexivity.
Qed.

Lemma in_split_first : forall (x : coord) l, In x l ->
  exists l1 l2, l = l1 ++ x :: l2 /\ ~ In x l1.
Proof.
  intros x l; induction l as [|y l IH]; intros H; simpl in H; [destruct H|].
  destruct (coord_eq_dec x y) as [->|n].
  - exists [], l; auto.
  - destruct IH as [l1 [l2 [E Hn]]]; [intuition congruence|].
    exists (y :: l1), l2; subst; split; auto. simpl; intuition congruence.
Qed.

Lemma list_remove_not_in : forall x l, ~ In x l -> list_remove coord_eqb x l = Err ValueError.
Proof.
  intros x l; induction l as [|y l IH]; intros H; simpl; auto.
  destruct (coord_eqb x y) eqn:E.
  - apply coord_eqb_eq in E; subst; simpl in H; tauto.
  - rewrite IH by (simpl in H; tauto); reflexivity.
Qed.

Lemma list_remove_perm : forall x l, In x l ->
  exists t, list_remove coord_eqb x l = Ok t /\ Permutation l (x :: t).
Proof.
  intros x l H. destruct (in_split_first x l H) as [l1 [l2 [E Hn]]]; subst.
  exists (l1 ++ l2); split; [apply list_remove_split; auto|].
  symmetry; apply Permutation_middle.
Qed.

Lemma list_remove_nodup : forall x l, In x l -> NoDup l ->
  exists t, list_remove coord_eqb x l = Ok t /\ NoDup t /\
            (forall y, In y t <-> In y l /\ y <> x).
Proof.
  intros x l Hin Hnd. destruct (list_remove_perm x l Hin) as [t [E P]].
  exists t; split; auto.
  assert (Hn : NoDup (x :: t)) by (eapply Permutation_NoDup; eauto).
  inv Hn. split; auto. intros y; split.
  - intros Hy; split.
    + eapply Permutation_in; [symmetry; eauto | right; auto].
    + intros ->; auto.
  - intros [Hy Hne]. apply (Permutation_in _ P) in Hy. simpl in Hy; intuition congruence.
Qed.

(** * list.pop *)
Lemma list_pop_app : forall {A} (l : list A) x, list_pop (l ++ [x]) = Ok (x, l).
Proof. intros; unfold list_pop. rewrite rev_app_distr; simpl. rewrite rev_involutive; auto. Qed.

(** * combinations *)
Lemma combinations_length : forall {A} n (l : list A) c, In c (combinations n l) -> length c = n.
Proof.
  intros A n; induction n as [|n IHn]; intros l; induction l as [|x l IHl]; intros c H; simpl in H.
  - destruct H as [<-|[]]; auto.
  - destruct H as [<-|[]]; auto.
  - destruct H.
  - apply in_app_iff in H; destruct H as [H|H].
    + apply in_map_iff in H; destruct H as [c' [<- H]]. simpl; f_equal; eauto.
    + apply IHl; auto.
Qed.

Lemma combinations_incl : forall {A} n (l : list A) c, In c (combinations n l) -> incl c l.
Proof.
  intros A n; induction n as [|n IHn]; intros l; induction l as [|x l IHl]; intros c H; simpl in H.
  - destruct H as [<-|[]]; intros y [].
  - destruct H as [<-|[]]; intros y [].
  - destruct H.
  - apply in_app_iff in H; destruct H as [H|H].
    + apply in_map_iff in H; destruct H as [c' [<- H]].
      apply IHn in H. intros y [->|Hy]; simpl; auto.
    + apply IHl in H. intros y Hy; right; auto.
Qed.

Lemma combinations_nodup : forall {A} n (l : list A) c, NoDup l -> In c (combinations n l) -> NoDup c.
Proof.
  intros A n; induction n as [|n IHn]; intros l; induction l as [|x l IHl]; intros c Hl H; simpl in H.
  - destruct H as [<-|[]]; constructor.
  - destruct H as [<-|[]]; constructor.
  - destruct H.
  - inv Hl. apply in_app_iff in H; destruct H as [H|H].
    + apply in_map_iff in H; destruct H as [c' [<- H]].
      constructor; [|eapply IHn; eauto]. apply combinations_incl in H. auto.
    + apply IHl; auto.
Qed.

(** * Misc *)
Lemma filter_ext_in' : forall {A} (f g : A -> bool) l,
  (forall x, In x l -> f x = g x) -> filter f l = filter g l.
Proof. intros; apply filter_ext_in; auto. Qed.

Lemma NoDup_filter : forall {A} (f : A -> bool) l, NoDup l -> NoDup (filter f l).
Proof. intros; apply NoDup_filter; auto. Qed.

Lemma existsb_false_iff : forall {A} (f : A -> bool) l,
  existsb f l = false <-> (forall x, In x l -> f x = false).
Proof.
  intros A f l; split.
  - intros H x Hx. destruct (f x) eqn:E; auto.
    assert (existsb f l = true) by (apply existsb_exists; eauto). congruence.
  - intros H. destruct (existsb f l) eqn:E; auto.
    apply existsb_exists in E; destruct E as [x [Hx E]]. rewrite H in E; auto.
Qed.

(** Pigeonhole for finite sets given as duplicate-free lists. *)
Lemma NoDup_incl_length_le : forall {A} (l m : list A),
  NoDup l -> incl l m -> (length l <= length m)%nat.
Proof. intros; apply NoDup_incl_length; auto. Qed.

Lemma filter_length_le : forall {A} (f : A -> bool) l, (length (filter f l) <= length l)%nat.
Proof.
  intros A f l; induction l as [|x l IH]; simpl; auto. destruct (f x); simpl; lia.
Qed.
