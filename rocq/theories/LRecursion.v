(** Proofs about the depth of the recursive searches. *)
From Verif Require Export SpecRecursion LBrute LDlx2 LCreate.

(** * Runs *)
Lemma same_refl : forall {A R} (g : gen unit A R), same_run g g.
Proof. split; auto. Qed.
Lemma same_bind : forall {A R R'} (g g' : gen unit A R) (f f' : R -> gen unit A R'),
  same_run g g' -> (forall r, same_run (f r) (f' r)) -> same_run (gbind g f) (gbind g' f').
Proof.
  intros A R R' g g' f f' [H1 H2] Hf. split.
  - rewrite !gyields_gbind, H1, H2. f_equal. destruct (gresult g' tt); auto. apply Hf.
  - rewrite !gresult_gbind, H2. destruct (gresult g' tt); cbn [rbind]; auto. apply Hf.
Qed.
Lemma forgen_for : forall {A B R S} (body : unit * S -> B -> gen unit A (unit * S)) (inner : gen unit B R) st,
  same_run (gforgen body inner st)
    (gbind (gfor body (gyields inner tt) st) (fun st' => match gresult inner tt with Ok _ => Ret st' | Err e => Raise e end)).
Proof.
  intros A B R S body inner; induction inner as [r|b k IH|e]; intros st; cbn [gforgen gyields gresult gfor gbind]; try apply same_refl.
  assert (X : forall st', same_run (gforgen body (k (fst st')) st')
     (gbind (gfor body (gyields (k tt) tt) st') (fun st'' => match gresult (k tt) tt with Ok _ => Ret st'' | Err e => Raise e end))).
  { intros [[] x]. apply IH. }
  split.
  - rewrite !gyields_gbind, !gresult_gbind, ?gyields_gbind. rewrite <- app_assoc. f_equal. destruct (gresult (body st b) tt) as [st'|e]; cbn [rbind app]; auto.
    rewrite (proj1 (X st')), gyields_gbind. reflexivity.
  - rewrite !gresult_gbind. destruct (gresult (body st b) tt) as [st'|e]; cbn [rbind]; auto. rewrite (proj2 (X st')), gresult_gbind. reflexivity.
Qed.
Lemma same_forgen : forall {A B R R' S} (body : unit * S -> B -> gen unit A (unit * S)) (g : gen unit B R) (g' : gen unit B R') st,
  gyields g tt = gyields g' tt -> (forall e, gresult g tt = Err e <-> gresult g' tt = Err e) -> same_run (gforgen body g st) (gforgen body g' st).
Proof.
  intros A B R R' S body g g' st H1 H2. destruct (forgen_for body g st) as [A1 A2], (forgen_for body g' st) as [B1 B2].
  assert (X : match gresult g tt with Ok _ => True | Err e => gresult g' tt = Err e end /\ match gresult g' tt with Ok _ => True | Err e => gresult g tt = Err e end).
  { split; [destruct (gresult g tt) as [r|e]; auto; apply (proj1 (H2 e)); auto|destruct (gresult g' tt) as [r|e]; auto; apply (proj2 (H2 e)); auto]. }
  destruct X as [X1 X2].
  split; [rewrite A1, B1|rewrite A2, B2]; clear A1 A2 B1 B2; rewrite H1; destruct (gresult g tt) as [r|e], (gresult g' tt) as [r'|e'];
    try reflexivity; try discriminate; injection X1 as ->; reflexivity.
Qed.

(** * Less room *)
Definition less {A R} (g g' : gen unit A R) : Prop :=
  same_run g g' \/ (gresult g tt = Err OutOfFuel /\ exists r, gyields g' tt = gyields g tt ++ r).
Lemma less_refl : forall {A R} (g : gen unit A R), less g g.
Proof. left. apply same_refl. Qed.
Lemma less_fuel : forall {A R} (g : gen unit A R), less (Raise OutOfFuel) g.
Proof. right. split; auto. exists (gyields g tt). reflexivity. Qed.
Lemma less_trans : forall {A R} (f g h : gen unit A R), less f g -> less g h -> less f h.
Proof.
  intros A R f g h [[A1 A2]|[A1 [r A2]]] [[B1 B2]|[B1 [q B2]]].
  - left. split; congruence.
  - right. split; [congruence|]. exists q. congruence.
  - right. split; auto. exists r. congruence.
  - right. split; auto. exists (r ++ q). rewrite B2, A2, app_assoc. reflexivity.
Qed.
Lemma less_bind : forall {A R R'} (g g' : gen unit A R) (f f' : R -> gen unit A R'),
  less g g' -> (forall r, less (f r) (f' r)) -> less (gbind g f) (gbind g' f').
Proof.
  intros A R R' g g' f f' [[H1 H2]|[H1 [r H2]]] Hf.
  - destruct (gresult g tt) as [x|e] eqn:E.
    + destruct (Hf x) as [[A1 A2]|[A1 [q A2]]].
      * left. split; [rewrite !gyields_gbind, H1, E, <- H2, A1; auto|rewrite !gresult_gbind, E, <- H2; exact A2].
      * right. split; [rewrite gresult_gbind, E; exact A1|]. exists q. rewrite !gyields_gbind, H1, E, <- H2, A2, app_assoc. reflexivity.
    + left. split; [rewrite !gyields_gbind, H1, E, <- H2; auto|rewrite !gresult_gbind, E, <- H2; auto].
  - right. split; [rewrite gresult_gbind, H1; auto|]. rewrite !gyields_gbind, H1, H2, app_nil_r. eexists. rewrite <- app_assoc. reflexivity.
Qed.
Lemma less_for : forall {A S B} (f f' : S -> B -> gen unit A S) l acc, (forall a x, less (f a x) (f' a x)) -> less (gfor f l acc) (gfor f' l acc).
Proof.
  intros A S B f f' l; induction l as [|x l IH]; intros acc H; cbn [gfor]; [apply less_refl|]. apply less_bind; auto.
Qed.
Lemma for_app : forall {A S B} (f : S -> B -> gen unit A S) l m acc, same_run (gfor f (l ++ m) acc) (gbind (gfor f l acc) (gfor f m)).
Proof.
  intros A S B f l m; induction l as [|x l IH]; intros acc; cbn [gfor app gbind]; [apply same_refl|].
  split.
  - rewrite !gyields_gbind, !gresult_gbind. rewrite <- app_assoc. f_equal. destruct (gresult (f acc x) tt) as [a|e]; cbn [rbind app]; auto.
    rewrite (proj1 (IH a)), gyields_gbind. reflexivity.
  - rewrite !gresult_gbind. destruct (gresult (f acc x) tt) as [a|e]; cbn [rbind]; auto. rewrite (proj2 (IH a)), gresult_gbind. reflexivity.
Qed.
Lemma less_forgen : forall {A B R S} (body : unit * S -> B -> gen unit A (unit * S)) (g g' : gen unit B R) st,
  less g g' -> less (gforgen body g st) (gforgen body g' st).
Proof.
  intros A B R S body g g' st [[H1 H2]|[H1 [r H2]]].
  - left. apply same_forgen; auto. intros e. rewrite H2. tauto.
  - destruct (forgen_for body g st) as [A1 A2], (forgen_for body g' st) as [B1 B2]. rewrite H1 in A1, A2. rewrite H2 in B1, B2.
    rewrite gyields_gbind in A1, B1. rewrite gresult_gbind in A2, B2.
    destruct (for_app body (gyields g tt) r st) as [C1 C2]. rewrite C1, C2 in B1. rewrite C2 in B2. rewrite gyields_gbind, !gresult_gbind in B1. rewrite gresult_gbind in B2.
    destruct (gresult (gfor body (gyields g tt) st) tt) as [x|e] eqn:E; cbn [rbind] in *.
    + right. split; [exact A2|]. rewrite B1, A1. cbn [gyields]. rewrite app_nil_r, <- app_assoc. eexists. reflexivity.
    + left. split; [rewrite A1, B1, <- app_assoc; reflexivity|congruence].
Qed.
Lemma less_ok : forall {A R} (g g' : gen unit A R), less g g' -> gresult g tt <> Err OutOfFuel -> same_run g g'.
Proof. intros A R g g' [H|[H _]] N; [auto|contradiction]. Qed.

Lemma brute_less : forall ord n m s, (n <= m)%nat -> less (do_bruteforce n ord s) (do_bruteforce m ord s).
Proof.
  intros ord n; induction n as [|n IH]; intros m s H; [apply less_fuel|]. destruct m as [|m]; [lia|]. cbn [do_bruteforce].
  apply less_bind; [apply less_refl|]. intros l. apply less_bind; [apply less_refl|]. intros [|[r c] e]; [apply less_refl|].
  apply less_bind; [apply less_refl|]. intros cs. apply less_for. intros a v. apply less_bind; [apply less_refl|]. intros t.
  apply less_bind; [apply less_refl|]. intros u. apply less_bind; [apply less_refl|]. intros [x y]. apply less_bind; [apply IH; lia|].
  intros z. apply less_refl.
Qed.
Lemma xsolve_less : forall ord Y n m X sol, (n <= m)%nat -> less (xsolve n ord Y X sol) (xsolve m ord Y X sol).
Proof.
  intros ord Y n; induction n as [|n IH]; intros m X sol H; [apply less_fuel|]. destruct m as [|m]; [lia|]. cbn [xsolve].
  destruct X as [|e X]; [apply less_refl|]. apply less_bind; [apply less_refl|]. intros rows. apply less_for. intros a v.
  apply less_bind; [apply less_refl|]. intros [x y]. apply less_bind; [apply IH; lia|]. intros z. apply less_refl.
Qed.

(** * bruteforce *)
Lemma empty_nempty : forall s k, empty_fields s k -> k = nempty s.
Proof.
  intros s k [l [N [I <-]]]. unfold nempty. apply Permutation_length. apply NoDup_Permutation; auto.
  - apply NoDup_filter, NoDup_coords.
  - intros p. rewrite I, filter_In, in_coords, Z.eqb_eq. tauto.
Qed.
Lemma nempty_empty : forall s, empty_fields s (nempty s).
Proof.
  intros s. exists (filter (fun p => num s p =? 0) (coords s)). split; [apply NoDup_filter, NoDup_coords|]. split; auto.
  intros p. rewrite filter_In, in_coords, Z.eqb_eq. tauto.
Qed.
