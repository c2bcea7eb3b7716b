(** Lemmas about box sizes that are not positive. *)
From Verif Require Export LEmpty SpecLatin MGenerate LBrute LDlx2.

(** * Results and generators that agree up to a relation *)
Definition res_rel {A B} (P : A -> B -> Prop) (r : res A) (r' : res B) : Prop :=
  match r, r' with Ok a, Ok b => P a b | Err e, Err e' => e = e' | _, _ => False end.

Lemma rr_bind : forall {A B A' B'} (P : A -> B -> Prop) (Q : A' -> B' -> Prop) r r' f f',
  res_rel P r r' -> (forall a b, P a b -> res_rel Q (f a) (f' b)) -> res_rel Q (rbind r f) (rbind r' f').
Proof. intros A B A' B' P Q [a|e] [b|e'] f f' H F; cbn in *; auto; try contradiction. Qed.
Lemma rr_same : forall {A A' B'} (Q : A' -> B' -> Prop) (r : res A) f f',
  (forall a, res_rel Q (f a) (f' a)) -> res_rel Q (rbind r f) (rbind r f').
Proof. intros A A' B' Q [a|e] f f' F; cbn; auto. Qed.
Lemma rr_eq : forall {A} (r r' : res A), res_rel eq r r' -> r = r'.
Proof. intros A [a|e] [b|e'] H; cbn in H; try contradiction; subst; auto. Qed.
Lemma rr_refl : forall {A} (r : res A), res_rel eq r r.
Proof. intros A [a|e]; cbn; auto. Qed.
Lemma rr_foldM : forall {A B S S'} (P : S -> S' -> Prop) (E : A -> B -> Prop) (f : S -> A -> res S) (f' : S' -> B -> res S') l l' a b,
  (forall a b x y, P a b -> E x y -> res_rel P (f a x) (f' b y)) -> Forall2 E l l' -> P a b -> res_rel P (foldM f l a) (foldM f' l' b).
Proof.
  intros A B S S' P E f f' l l' a b F H. revert a b. induction H as [|x y l l' Hx H IH]; intros a b HP; cbn [foldM]; [exact HP|].
  apply (rr_bind P P); auto.
Qed.
Lemma forall2_same : forall {A} (l : list A), Forall2 eq l l.
Proof. induction l; constructor; auto. Qed.

Inductive grel {A B R R'} (P : A -> B -> Prop) (Q : R -> R' -> Prop) : gen unit A R -> gen unit B R' -> Prop :=
| gr_ret : forall r r', Q r r' -> grel P Q (Ret r) (Ret r')
| gr_raise : forall e, grel P Q (Raise e) (Raise e)
| gr_yield : forall a b k k', P a b -> (forall i, grel P Q (k i) (k' i)) -> grel P Q (Yield a k) (Yield b k').

Lemma grel_lift : forall {A B R R'} (P : A -> B -> Prop) (Q : R -> R' -> Prop) r r',
  res_rel Q r r' -> grel P Q (lift r) (lift r').
Proof. intros A B R R' P Q [a|e] [b|e'] H; cbn in *; try contradiction; subst; constructor; auto. Qed.
Lemma grel_bind : forall {A B R R' T T'} (P : A -> B -> Prop) (Q : R -> R' -> Prop) (Q' : T -> T' -> Prop) g g' f f',
  grel P Q g g' -> (forall r r', Q r r' -> grel P Q' (f r) (f' r')) -> grel P Q' (gbind g f) (gbind g' f').
Proof.
  intros A B R R' T T' P Q Q' g g' f f' H F. induction H; cbn [gbind]; auto; constructor; auto.
Qed.
Lemma grel_gfor : forall {A B X S S'} (P : A -> B -> Prop) (Q : S -> S' -> Prop) (f : S -> X -> gen unit A S) f' l a b,
  (forall a b x, Q a b -> grel P Q (f a x) (f' b x)) -> Q a b -> grel P Q (gfor f l a) (gfor f' l b).
Proof.
  intros A B X S S' P Q f f' l a b F. revert a b. induction l as [|x l IH]; intros a b H; cbn [gfor]; [constructor; auto|].
  apply (grel_bind P Q); auto.
Qed.
Lemma grel_gforgen : forall {A B A0 B0 R R' T T'} (P : A -> B -> Prop) (P0 : A0 -> B0 -> Prop) (Q0 : R -> R' -> Prop) (Q : (unit * T) -> (unit * T') -> Prop)
    (body : (unit * T) -> A0 -> gen unit A (unit * T)) body' g g' st st',
  (forall st st' a b, Q st st' -> P0 a b -> grel P Q (body st a) (body' st' b)) -> grel P0 Q0 g g' -> Q st st' ->
  grel P Q (gforgen body g st) (gforgen body' g' st').
Proof.
  intros A B A0 B0 R R' T T' P P0 Q0 Q body body' g g' st st' F H. revert st st'.
  induction H as [r r' Hr|e|a b k k' Hab Hk IH]; intros st st' HQ; cbn [gforgen]; try (constructor; auto).
  apply (grel_bind P Q); [apply F; auto|]. intros [[] r] [[] r'] HR. apply IH; auto.
Qed.
Lemma grel_yields : forall {A B R R'} (P : A -> B -> Prop) (Q : R -> R' -> Prop) g g', grel P Q g g' ->
  Forall2 P (gyields g tt) (gyields g' tt) /\ res_rel Q (gresult g tt) (gresult g' tt).
Proof.
  intros A B R R' P Q g g' H. induction H as [r r' Hr|e|a b k k' Hab Hk IH]; cbn; auto.
  destruct (IH tt). split; auto.
Qed.

(** * Two negative numbers: the same as boxes of one column *)
Section Neg.
Variables w h : Z.
Hypothesis Hw : w < 0.
Hypothesis Hh : h < 0.

Definition rel (s t : sudoku) : Prop := box_width s = w /\ box_height s = h /\ t = redim 1 (w * h) s.

Lemma rel_coords : forall s t, rel s t -> coords s = coords t.
Proof. intros s t [A [B ->]]. unfold coords, indices. cbn [redim box_width box_height]. rewrite A, B, Z.mul_1_l. reflexivity. Qed.
Lemma rel_numbers : forall s t, rel s t -> numbers s = numbers t.
Proof. intros s t [A [B ->]]. unfold numbers. cbn [redim box_width box_height]. rewrite A, B, Z.mul_1_l. reflexivity. Qed.
Lemma rel_get : forall s t, rel s t -> getitem s = getitem t.
Proof. intros s t [A [B ->]]. reflexivity. Qed.
Lemma rel_getc : forall s t, rel s t -> get_candidates s = get_candidates t.
Proof. intros s t [A [B ->]]. reflexivity. Qed.
Lemma rel_quad : forall s t r c, rel s t ->
  quad_without_row_and_column_of s r c = [] /\ quad_without_row_and_column_of t r c = [].
Proof.
  intros s t r c [A [B ->]]. unfold quad_without_row_and_column_of. cbn [redim box_width box_height]. rewrite A, B. split.
  - rewrite (range_neg h) by lia. reflexivity.
  - rewrite Z.mod_1_r, Z.sub_0_r.
    match goal with |- ?m = [] => enough (X : forall x, ~ In x m) by (destruct m as [|x m0]; [reflexivity|destruct (X x); left; auto]) end.
    intros x I. apply in_map_iff in I. destruct I as [[i j] [_ I]]. apply filter_In in I. destruct I as [I X]. apply in_prod_iff in I.
    destruct I as [_ I]. cbn in I. destruct I as [<- | []]. cbn [fst snd] in X. rewrite Z.add_0_r, Z.eqb_refl in X. cbn in X.
    rewrite andb_false_r in X. discriminate.
Qed.
Lemma rel_sur : forall s t r c b, rel s t -> surrounding_of s r c b = surrounding_of t r c b.
Proof.
  intros s t r c b H. unfold surrounding_of. destruct (rel_quad s t r c H) as [-> ->].
  unfold row_of, column_of, indices. destruct H as [A [B ->]]. cbn [redim box_width box_height]. rewrite A, B, Z.mul_1_l. reflexivity.
Qed.
Lemma rel_set : forall s t r c v, rel s t -> res_rel rel (setitem s r c v) (setitem t r c v).
Proof.
  intros s t r c v [A [B ->]]. unfold setitem. cbn [redim s_numbers s_candidates box_width box_height].
  apply rr_same; intros x. apply rr_same; intros y. apply rr_same; intros z. cbn. unfold rel. cbn. auto.
Qed.
Lemma rel_setc : forall s t r c v, rel s t -> res_rel rel (set_candidates s r c v) (set_candidates t r c v).
Proof.
  intros s t r c v [A [B ->]]. unfold set_candidates. cbn [redim s_numbers s_candidates box_width box_height].
  apply rr_same; intros x. apply rr_same; intros y. apply rr_same; intros z. cbn. unfold rel. cbn. auto.
Qed.
Lemma rel_rem : forall s t r c v, rel s t -> res_rel rel (remove_candidates s r c v) (remove_candidates t r c v).
Proof.
  intros s t r c v [A [B ->]]. unfold remove_candidates. cbn [redim s_numbers s_candidates box_width box_height].
  apply rr_same; intros x. apply rr_same; intros y. apply rr_same; intros z. apply rr_same; intros u. cbn. unfold rel. cbn. auto.
Qed.
Lemma rel_copy : forall s t b, rel s t -> res_rel rel (copy s b) (copy t b).
Proof.
  intros s t b H. unfold copy. cbv zeta. rewrite <- (rel_coords s t H), <- (rel_get s t H), <- (rel_getc s t H).
  apply (rr_bind rel rel).
  - apply (rr_foldM rel eq); [|apply forall2_same|].
    + intros a b0 x y Hab ->. apply rr_same. intros v. apply rel_set; auto.
    + destruct H as [A [B ->]]. unfold rel, new_sudoku, box_size, redim. cbn. rewrite A, B. splits; auto.
      f_equal; destruct (w * h); auto.
  - intros a b0 Hab. destruct b; [|exact Hab]. apply (rr_foldM rel eq); [|apply forall2_same|auto].
    intros a1 b1 x y Hab1 ->. apply rr_same. intros v. apply rel_setc; auto.
Qed.
Lemma rel_calc : forall s t r c, rel s t -> calc_candidates s r c = calc_candidates t r c.
Proof.
  intros s t r c H. unfold calc_candidates. rewrite (rel_get s t H), (rel_sur s t r c false H), (rel_numbers s t H). reflexivity.
Qed.
Lemma rel_init : forall s t b, rel s t -> res_rel rel (init_candidates s b) (init_candidates t b).
Proof.
  intros s t b H. unfold init_candidates. rewrite (rel_coords s t H). apply (rr_foldM rel eq); [|apply forall2_same|auto].
  intros s1 t1 x y H1 ->. rewrite (rel_get _ _ H1). apply rr_same. intros v. destruct (negb b || _); [|exact H1].
  rewrite (rel_calc _ _ _ _ H1). apply rr_same. intros c. apply rel_setc; auto.
Qed.
Lemma rel_conflict : forall s t, rel s t -> has_conflict s = has_conflict t.
Proof.
  intros s t H. unfold has_conflict. rewrite (rel_coords s t H), (rel_get s t H).
  induction (coords t) as [|x l IH]; auto. cbn [anyM]. rewrite IH, (rel_sur _ _ _ _ _ H). reflexivity.
Qed.

(** Consuming a generator over the shared sudoku, on both sides. *)
Definition same_run {A} (s t : sudoku) (g g' : gen sudoku A sudoku) : Prop :=
  gyields g s = gyields g' t /\ res_rel rel (gresult g s) (gresult g' t).
Lemma sr_ret : forall {A} s t, rel s t -> @same_run A s t (Ret s) (Ret t).
Proof. intros A s t H. split; auto. Qed.
Lemma sr_yield : forall {A} (a : A) s t, rel s t -> same_run s t (yield a) (yield a).
Proof. intros A a s t H. split; auto. Qed.
Lemma sr_lift : forall {A T} s t (m : res T) (f f' : T -> gen sudoku A sudoku),
  (forall x, same_run s t (f x) (f' x)) -> same_run s t (do* x := lift m in f x) (do* x := lift m in f' x).
Proof. intros A T s t [x|e] f f' H; cbn; auto. split; cbn; auto. Qed.
Lemma sr_gfor : forall {A X} (f : sudoku -> X -> gen sudoku A sudoku) f' l s t a b,
  rel a b -> (forall x a b, rel a b -> same_run s t (f a x) (f' b x)) -> same_run s t (gfor f l a) (gfor f' l b).
Proof.
  intros A X f f' l s t a b H F. revert a b H. induction l as [|x l IH]; intros a b H; cbn [gfor]; [split; auto|].
  destruct (F x a b H) as [Y R]. unfold same_run. rewrite !gyields_gbind, !gresult_gbind, Y.
  destruct (gresult (f a x) s) as [a'|e], (gresult (f' b x) t) as [b'|e']; cbn in R; try contradiction.
  - destruct (IH a' b' R) as [Y' R']. cbn [rbind]. rewrite Y'. auto.
  - subst. cbn. auto.
Qed.
Lemma sr_glist : forall {A} s t (g g' : gen sudoku A sudoku), same_run s t g g' -> glist g s = glist g' t.
Proof.
  intros A s t g g' [Y R]. unfold glist. rewrite Y.
  destruct (gresult g s), (gresult g' t); cbn in *; try contradiction; subst; auto.
Qed.
(** States that are not the consumed object itself *)
Lemma rel_empty : forall s t, rel s t -> glist (empty s) s = glist (empty t) t.
Proof.
  intros s t H. apply sr_glist. unfold empty. rewrite (rel_coords s t H). apply sr_gfor; auto.
  intros x a b Hab. rewrite (rel_get _ _ Hab). apply sr_lift. intros v. destruct (v =? 0).
  - apply sr_yield. auto.
  - split; auto.
Qed.
Lemma rel_conflicts : forall s t cs, rel s t -> glist (find_conflicts s cs) s = glist (find_conflicts t cs) t.
Proof.
  intros s t cs H. apply sr_glist. unfold find_conflicts. rewrite (rel_coords s t H). apply sr_gfor; auto.
  intros x a b Hab. rewrite (rel_get _ _ Hab). apply sr_lift. intros v. destruct (v =? 0); [split; auto|].
  rewrite (rel_sur _ _ _ _ _ Hab). apply sr_lift. intros sur. apply sr_gfor; auto.
  intros y a1 b1 Hab1. rewrite (rel_get _ _ Hab1). apply sr_lift. intros u. destruct (u =? v); [|split; auto].
  apply sr_yield. auto.
Qed.
Lemma rel_solved : forall s t, rel s t -> is_solved s = is_solved t.
Proof. intros s t H. unfold is_solved. rewrite (rel_empty s t H), (rel_conflicts s t [] H). reflexivity. Qed.

Lemma rel_sort : forall s t l, rel s t -> sort_by_len s l = sort_by_len t l.
Proof. intros s t l H. unfold sort_by_len. rewrite (rel_getc s t H). reflexivity. Qed.
Lemma rel_save : forall s t r c v sur, rel s t ->
  res_rel (fun x y => fst x = fst y /\ rel (snd x) (snd y)) (save_and_remove s r c v sur) (save_and_remove t r c v sur).
Proof.
  intros s t r c v sur H. unfold save_and_remove. rewrite (rel_getc s t H). apply rr_same. intros cs.
  apply (rr_foldM _ eq); [|apply forall2_same|cbn; auto].
  intros [d s1] [d' s2] x y [E Hs] ->. cbn in E, Hs. subst d'. rewrite (rel_getc _ _ Hs). apply rr_same. intros c0.
  apply (rr_bind rel); [apply rel_rem; auto|]. intros a b Hab. cbn. auto.
Qed.
Lemma rel_restore : forall s t d, rel s t -> res_rel rel (restore s d) (restore t d).
Proof.
  intros s t d H. unfold restore. apply (rr_foldM rel eq); [|apply forall2_same|auto].
  intros a b x y Hab ->. apply rel_setc; auto.
Qed.
Lemma rel_search : forall fuel ord ord' s t, (forall s t l, rel s t -> ord s l = ord' t l) -> rel s t ->
  grel rel rel (do_bruteforce fuel ord s) (do_bruteforce fuel ord' t).
Proof.
  induction fuel as [|fuel IH]; intros ord ord' s t O H; cbn [do_bruteforce]; [constructor|].
  rewrite (rel_empty s t H). apply (grel_bind rel eq); [apply grel_lift, rr_refl|]. intros l _ <-.
  rewrite (rel_sort s t l H). apply (grel_bind rel eq); [apply grel_lift, rr_refl|]. intros [|[r c] l'] _ <-.
  - cbn. constructor; auto. intros i. constructor; auto.
  - rewrite (rel_getc s t H). apply (grel_bind rel eq); [apply grel_lift, rr_refl|]. intros cs _ <-. rewrite (O s t cs H).
    apply grel_gfor; auto. intros a b x Hab.
    apply (grel_bind rel rel); [apply grel_lift, rel_set; auto|]. clear Hab a b. intros a b Hab.
    rewrite (rel_sur _ _ _ _ _ Hab). apply (grel_bind rel eq); [apply grel_lift, rr_refl|]. intros sur _ <-.
    apply (grel_bind rel (fun x y => fst x = fst y /\ rel (snd x) (snd y))); [apply grel_lift, rel_save; auto|].
    intros [d a1] [d' b1] [E Hab1]. cbn in E, Hab1. subst d'.
    apply (grel_bind rel rel); [apply IH; auto|]. intros a2 b2 H2.
    apply (grel_bind rel rel); [apply grel_lift, rel_restore; auto|]. intros a3 b3 H3.
    apply grel_lift, rel_set; auto.
Qed.
Lemma rel_brute : forall ord ord' s t, (forall s t l, rel s t -> ord s l = ord' t l) -> rel s t ->
  grel rel eq (bruteforce ord s) (bruteforce ord' t).
Proof.
  intros ord ord' s t O H. unfold bruteforce. rewrite (rel_conflict s t H), (rel_coords s t H).
  apply (grel_bind rel eq); [apply grel_lift, rr_refl|]. intros [|] _ <-; [constructor; auto|].
  apply (grel_bind rel rel); [apply grel_lift, rel_copy; auto|]. intros a b Hab.
  apply (grel_bind rel rel); [apply grel_lift, rel_init; auto|]. intros a1 b1 Hab1.
  apply (grel_bind rel eq); [|intros; constructor; auto].
  apply (grel_gforgen rel rel rel eq); [|apply rel_search; auto|auto].
  intros st st' a2 b2 <- Hab2. apply (grel_bind rel rel); [apply grel_lift, rel_copy; auto|]. intros a3 b3 Hab3.
  cbn. constructor; auto. intros i. constructor; auto.
Qed.

(** * What it means *)
Lemma rel_field : forall s t p, rel s t -> (field s p <-> field t p).
Proof. intros s t p [A [B ->]]. unfold field, cell. cbn [redim box_width box_height]. rewrite A, B, Z.mul_1_l. tauto. Qed.
Lemma rel_num : forall s t p, rel s t -> num s p = num t p.
Proof. intros s t p H. unfold num. rewrite (rel_get s t H). auto. Qed.
Lemma rel_peers : forall s t p q, rel s t -> field s p -> field s q -> (line_peers p q <-> peers (box_width t) (box_height t) p q).
Proof.
  intros s t p q [A [B ->]] [P1 P2] [Q1 Q2]. unfold line_peers, peers, same_box. cbn [redim box_width box_height].
  rewrite A, B in *. rewrite !Z.div_1_r. unfold same_row, same_col. tauto.
Qed.
Lemma rel_wf : forall s t, rel s t -> sudoku_ok s -> wf t.
Proof.
  intros s t [A [B ->]] K. apply sudoku_ok_wf; cbn [redim box_width box_height]; try nia.
  unfold sudoku_ok in *. cbv zeta in *. cbn [redim box_width box_height s_numbers s_candidates]. rewrite A, B in K. rewrite Z.mul_1_l. exact K.
Qed.
Lemma rel_ok : forall s t, rel s t -> wf t -> sudoku_ok s.
Proof.
  intros s t [A [B ->]] K. apply wf_sudoku_ok in K.
  unfold sudoku_ok in *. cbv zeta in *. cbn [redim box_width box_height s_numbers s_candidates] in K. rewrite A, B. rewrite Z.mul_1_l in K. exact K.
Qed.
Lemma rel_completion : forall s t f, rel s t -> (latin_completion s f <-> completion t f).
Proof.
  intros s t f H. unfold latin_completion, completion.
  assert (E : box_width s * box_height s = box_width t * box_height t).
  { destruct H as [A [B ->]]. cbn [redim box_width box_height]. rewrite A, B. ring. }
  rewrite E. split; intros [X Y]; split; intros p.
  - intros F. rewrite <- (rel_num s t p H). apply X. apply (rel_field s t); auto.
  - intros q F G P. apply (rel_field s t p H) in F. apply (rel_field s t q H) in G. apply Y; auto. apply (rel_peers s t); auto.
  - intros F. rewrite (rel_num s t p H). apply X. apply (rel_field s t); auto.
  - intros q F G P. apply Y; try (apply (rel_field s t); auto; fail). apply (rel_peers s t); auto.
Qed.
Lemma rel_differ : forall s t, rel s t -> (lines_differ s <-> conflict_free t).
Proof.
  intros s t H. unfold lines_differ, conflict_free. split; intros X p q F G P N.
  - apply (rel_field s t p H) in F. apply (rel_field s t q H) in G. rewrite <- !(rel_num s t _ H) in *.
    apply X; auto. apply (rel_peers s t); auto.
  - rewrite !(rel_num s t _ H) in *. apply X; auto; try (apply (rel_field s t); auto; fail). apply (rel_peers s t); auto.
Qed.
Lemma rel_complete : forall s t, rel s t -> (complete s <-> complete t).
Proof.
  intros s t H. unfold complete. split; intros X p F.
  - rewrite <- (rel_num s t p H). apply X. apply (rel_field s t); auto.
  - rewrite (rel_num s t p H). apply X. apply (rel_field s t); auto.
Qed.
Lemma rel_back : forall s t, rel s t -> s = redim w h t.
Proof. intros [w0 h0 n c] t [A [B ->]]. cbn in *. subst. reflexivity. Qed.
Lemma enumerates_rel : forall s t ys zs, rel s t -> Forall2 rel ys zs -> enumerates t (completion t) zs -> lists_exactly s (latin_completion s) ys.
Proof.
  intros s t ys zs H F [A [B C]]. split; [|split].
  - intros y I. destruct (Forall2_In_l _ _ _ y F I) as [z [Iz R]]. destruct (A z Iz) as [Wz [Sz Pz]].
    split; [apply (rel_ok y z); auto|]. split.
    + destruct R as [R1 [R2 _]], H as [H1 [H2 _]]. unfold box_size. rewrite R1, R2, H1, H2. auto.
    + apply (rel_completion s t _ H). destruct Pz as [X Y]. split.
      * intros p Fp. rewrite (rel_num y z p R). apply X; auto.
      * intros p q Fp Fq Pq. rewrite !(rel_num y z _ R). apply Y; auto.
  - intros f P. apply (rel_completion s t f H) in P. destruct (B f P) as [z [Iz Z]]. destruct (Forall2_In_r _ _ _ z F Iz) as [y [Iy R]].
    exists y. split; auto. intros p Fp. rewrite (rel_num y z p R). apply Z. apply (rel_field y z); auto.
  - clear A B. revert zs F C. induction ys as [|y ys IH]; intros zs F C; [constructor|].
    inversion F as [|y' z ys' zs' R F']; subst. inversion C as [|z' zs0 C1 C2]; subst. constructor; [|apply (IH _ F' C2)].
    rewrite Forall_forall in C1 |- *. intros y' I. destruct (Forall2_In_l _ _ _ y' F' I) as [z' [Iz R']].
    destruct (C1 z' Iz) as [p [Fp D]]. exists p. split; [apply (rel_field s t); auto|]. rewrite (rel_num y z p R), (rel_num y' z' p R'). auto.
Qed.
End Neg.

(** * dlx with two negative numbers *)
Lemma x_add_keys : forall X k i, match x_add X k i with
  | Ok X' => dkeys X' = dkeys X /\ In k (dkeys X) | Err e => e = KeyError end.
Proof.
  intros X k i. unfold x_add, dkeys. assert (G : match dget xkey_eqb X k with
    | Ok v => In k (map fst X) /\ forall v', map fst (dset xkey_eqb X k v') = map fst X | Err e => e = KeyError end).
  { induction X as [|[k' v] X IH]; cbn [dget dset]; auto.
    assert (E : xkey_eqb k k' = true -> k = k') by apply xkey_eqb_eq.
    destruct (xkey_eqb k k').
    - split; [left; symmetry; apply E; auto|]. intros v'. reflexivity.
    - destruct (dget xkey_eqb X k); auto. destruct IH as [I J]. split; [right; auto|]. intros v'. cbn. f_equal. auto. }
  destruct (dget xkey_eqb X k); cbn [rbind]; auto. destruct G as [I J]. split; auto.
Qed.
Lemma x_adds_keys : forall ks i X, match foldM (fun X j => x_add X j i) ks X with
  | Ok X' => dkeys X' = dkeys X /\ (forall k, In k ks -> In k (dkeys X)) | Err e => e = KeyError end.
Proof.
  induction ks as [|k ks IH]; intros i X; cbn [foldM]; [split; auto; contradiction|].
  pose proof (x_add_keys X k i) as H. destruct (x_add X k i) as [X1|e]; cbn [rbind]; auto. destruct H as [H1 H2].
  specialize (IH i X1). destruct (foldM _ ks X1) as [X2|e]; auto. destruct IH as [I1 I2]. rewrite H1 in *. split; auto.
  intros k' [<- | I]; auto.
Qed.
Lemma cover_keys : forall Y X, match foldM (fun X (irow : xrow * list xkey) => foldM (fun X j => x_add X j (fst irow)) (snd irow) X) Y X with
  | Ok X' => forall i ks k, In (i, ks) Y -> In k ks -> In k (dkeys X) | Err e => e = KeyError end.
Proof.
  induction Y as [|[i ks] Y IH]; intros X; cbn [foldM]; [contradiction|].
  cbn [fst snd]. pose proof (x_adds_keys ks i X) as H. destruct (foldM _ ks X) as [X1|e]; cbn [rbind]; auto. destruct H as [H1 H2].
  specialize (IH X1). destruct (foldM _ Y X1) as [X2|e]; auto. rewrite H1 in IH. intros i' ks' k [E|I] Ik; [injection E as <- <-; auto|eauto].
Qed.
Lemma cover_missing : forall X Y i ks k, In (i, ks) Y -> In k ks -> ~ In k X -> exact_cover X Y = Err KeyError.
Proof.
  intros X Y i ks k I Ik N. unfold exact_cover. pose proof (cover_keys Y (map (fun j => (j, [])) X)) as H. cbv zeta.
  destruct (foldM _ Y _) as [X'|e]; [|congruence]. destruct N. specialize (H i ks k I Ik). unfold dkeys in H.
  rewrite map_map, map_id in H. exact H.
Qed.
Lemma neg_cover : forall w h, w < 0 -> h < 0 -> 1 < w * h -> exact_cover (all_keys (h * w)) (build_Y h w) = Err KeyError.
Proof.
  intros w h Hw Hh N. apply (cover_missing _ _ (0, 1, 1) (keys_of h w (0, 1, 1)) (BN (-1) 1)).
  - unfold build_Y. apply (in_map (fun i => (i, keys_of h w i))). unfold all_rows. apply in_prod; [apply in_prod|].
    + apply in_py_range. lia.
    + apply in_py_range. lia.
    + apply in_py_range2. lia.
  - cbn [keys_of]. right; right; right; left. f_equal. rewrite Zdiv_0_l.
    enough (1 / w = -1) by lia. symmetry. apply (Z.div_unique_neg 1 w (-1) (1 + w)); lia.
  - unfold all_keys. rewrite !in_app_iff, !in_map_iff. intros [H|[H|[H|H]]]; destruct H as [[a b] [E I]]; try discriminate E.
    injection E as E1 E2. cbn [fst snd] in *. subst. apply in_prod_iff in I. destruct I as [I _]. apply in_py_range in I. lia.
Qed.
Lemma neg_dlx : forall ord s, sudoku_ok s -> box_width s < 0 -> box_height s < 0 -> 1 < box_width s * box_height s ->
  dlx ord s = Raise KeyError.
Proof.
  intros ord s K Hw Hh N. set (w := box_width s) in *. set (h := box_height s) in *.
  assert (R : rel w h s (redim 1 (w * h) s)) by (unfold rel; auto).
  pose proof (rel_copy w h s _ false R) as C. unfold dlx.
  destruct (copy_ok (redim 1 (w * h) s) false (rel_wf w h Hw Hh s _ R K)) as [t [E _]]. rewrite E in C.
  destruct (copy s false) as [t0|e]; cbn in C; [|contradiction]. destruct C as [C1 [C2 _]].
  cbn [lift gbind]. unfold do_dlx. rewrite C1, C2, (neg_cover w h Hw Hh N). reflexivity.
Qed.

(** * Generating *)
Lemma choice_none : forall k n, n <= 0 -> choice k (py_range n) = Err IndexError.
Proof. intros k n H. rewrite range_neg by auto. reflexivity. Qed.
Lemma neg_create : forall o w h, w <= 0 \/ h <= 0 -> create_solution o (w, h) = Err IndexError.
Proof.
  intros o w h H. unfold create_solution. cbv zeta. cbn [new_sudoku box_width box_height fst snd].
  destruct (Z_le_gt_dec h 0) as [Hh|Hh]; [rewrite choice_none by auto; reflexivity|].
  destruct H as [H|H]; [|lia]. rewrite (choice_none _ w H).
  unfold choice. destruct (py_range h) eqn:E; [reflexivity|]. rewrite <- E in *.
  rewrite (list_get_ok (py_range h) (co_row o mod py_len (py_range h)) 0).
  2: { assert (0 < py_len (py_range h)) by (rewrite E; unfold py_len; cbn; lia).
    pose proof (Z.mod_pos_bound (co_row o) (py_len (py_range h))). lia. }
  reflexivity.
Qed.

(** * bruteforce *)
Lemma neg_brute : forall ord s, (forall t l, Permutation (ord t l) l) -> sudoku_ok s -> box_width s < 0 -> box_height s < 0 ->
  gresult (bruteforce ord s) tt = Ok tt /\ lists_exactly s (latin_completion s) (gyields (bruteforce ord s) tt).
Proof.
  intros ord s O K Hw Hh. set (w := box_width s) in *. set (h := box_height s) in *.
  assert (R : rel w h s (redim 1 (w * h) s)) by (unfold rel; auto). set (t := redim 1 (w * h) s) in *.
  pose proof (rel_wf w h Hw Hh s t R K) as W.
  set (ord' := fun u l => ord (redim w h u) l).
  assert (OO : forall s t l, rel w h s t -> ord s l = ord' t l).
  { intros a b l H. unfold ord'. rewrite <- (rel_back w h a b H). reflexivity. }
  destruct (grel_yields _ _ _ _ (rel_brute w h Hh ord ord' s t OO R)) as [Y E].
  destruct (C19_proof ord' t (fun u l => O (redim w h u) l) W) as [E' EN]. rewrite E' in E.
  split; [destruct (gresult (bruteforce ord s) tt) as [[]|]; [reflexivity|contradiction]|].
  apply (enumerates_rel w h s t _ _ R Y EN).
Qed.

(** * Any box size *)
Lemma size_cases : forall w h, w * h <= 0 \/ (w < 0 /\ h < 0) \/ (1 <= w /\ 1 <= h).
Proof.
  intros w h. destruct (Z_le_gt_dec (w * h) 0) as [H|H]; [left; exact H|]. right.
  destruct (Z_lt_ge_dec w 0) as [X|X], (Z_lt_ge_dec h 0) as [Y|Y]; try (exfalso; nia); [left; auto|right].
  assert (w <> 0) by (intros ->; lia). assert (h <> 0) by (intros ->; lia). lia.
Qed.
Lemma init_any : forall s b, sudoku_ok s -> exists t, init_candidates s b = Ok t.
Proof.
  intros s b K. destruct (size_cases (box_width s) (box_height s)) as [H|[[Hw Hh]|[Hw Hh]]].
  - exists s. rewrite (no_fields_inv s K H). unfold init_candidates. rewrite e_coords by auto. reflexivity.
  - assert (R : rel (box_width s) (box_height s) s (redim 1 (box_width s * box_height s) s)) by (unfold rel; auto).
    pose proof (rel_init _ _ Hh s _ b R) as X.
    destruct (init_candidates_ok _ b (rel_wf _ _ Hw Hh s _ R K)) as [t [E _]]. rewrite E in X.
    destruct (init_candidates s b) as [u|]; [exists u; auto|contradiction].
  - destruct (init_candidates_ok s b (sudoku_ok_wf s K Hw Hh)) as [t [E _]]. eauto.
Qed.
Lemma brute_any : forall ord s, (forall t l, Permutation (ord t l) l) -> sudoku_ok s ->
  gresult (bruteforce ord s) tt = Ok tt /\ forall y, In y (gyields (bruteforce ord s) tt) -> sudoku_ok y /\ box_size y = box_size s.
Proof.
  intros ord s O K. destruct (size_cases (box_width s) (box_height s)) as [H|[[Hw Hh]|[Hw Hh]]].
  - pose proof (e_brute _ _ H ord) as E. rewrite <- (no_fields_inv s K H) in E. unfold glist in E.
    destruct (gresult (bruteforce ord s) tt) as [[]|]; cbn in E; [|discriminate]. injection E as E. split; auto.
    intros y I. rewrite E in I. destruct I as [<- | []]. auto.
  - destruct (neg_brute ord s O K Hw Hh) as [E [L _]]. split; auto. intros y I. destruct (L y I) as [A [B _]]. auto.
  - pose proof (sudoku_ok_wf s K Hw Hh) as W. destruct (C19_proof ord s O W) as [E [L _]]. split; auto.
    intros y I. destruct (L y I) as [A [B _]]. split; auto. apply wf_sudoku_ok; auto.
Qed.

Lemma neg_generate : forall o min_count y w h, w <= 0 \/ h <= 0 ->
  generate o min_count y (w, h) =
    if (w * h) * (w * h) <? min_count then Err ValueError
    else match y with SymOther => Err ValueError | _ => Err IndexError end.
Proof.
  intros o m y w h H. unfold generate. cbn [fst snd]. replace (w ^ 2 * h ^ 2) with (w * h * (w * h)) by ring.
  cbv zeta. destruct (_ <? m); auto. rewrite (neg_create _ w h H). destruct y; reflexivity.
Qed.
Lemma neg_template : forall fuel o template tries, box_width template <= 0 \/ box_height template <= 0 ->
  generate_from_template (S fuel) o template tries = if tries =? 0 then Err RuntimeError else Err IndexError.
Proof.
  intros fuel o t n H. unfold generate_from_template. cbn [template_loop]. unfold box_size. rewrite (neg_create _ _ _ H). cbn [rbind].
  destruct (Z.ltb_spec 0 n), (Z.ltb_spec n 0), (Z.eqb_spec n 0); try lia; reflexivity.
Qed.
