(** Proofs about signature_str, help_command and the binding of arguments (C90-C92). *)
From Verif Require Import SpecHelp LBase LStr LDict LShell.

(** * signature_str *)
Lemma nth_rotate : forall {A} (l : list A) r k, (r < length l)%nat -> (k < length l)%nat ->
  nth_error (rotate r l) k = nth_error l (if (r + k <? length l)%nat then r + k else r + k - length l)%nat.
Proof.
  intros A l r k Hr Hk. unfold rotate. destruct (Nat.ltb_spec (r + k) (length l)).
  - rewrite nth_error_app1 by (rewrite skipn_length; lia).
    rewrite <- (firstn_skipn r l) at 2. rewrite nth_error_app2; rewrite firstn_length_le by lia; [|lia].
    f_equal; lia.
  - rewrite nth_error_app2 by (rewrite skipn_length; lia). rewrite skipn_length.
    rewrite <- (firstn_skipn r l) at 3. rewrite nth_error_app1 by (rewrite firstn_length_le; lia). f_equal; lia.
Qed.
Lemma len_rotate : forall {A} (l : list A) r, length (rotate r l) = length l.
Proof. intros. unfold rotate. rewrite app_length, skipn_length, firstn_length. lia. Qed.
Lemma skipn_cons : forall {A} (l : list A) k x, nth_error l k = Some x -> skipn k l = x :: skipn (S k) l.
Proof.
  induction l as [|y l IH]; intros [|k] x H; cbn [nth_error] in H; try discriminate.
  - injection H as <-. reflexivity.
  - cbn [skipn]. rewrite (IH _ _ H). reflexivity.
Qed.

Section Signature.
Variable ds : list value.
Variable n : nat.
Notation d := (length ds).
Hypothesis Hd : (0 < d <= n)%nat.

Lemma get_default : forall k, (k < d)%nat -> (n <= 2 * d)%nat ->
  exists x, nth_error (rotate (n mod d) ds) k = Some x /\ list_get ds (Z.of_nat (n - d + k) - Z.of_nat d) = Ok x.
Proof.
  intros k Hk Hn. assert (M : (n mod d < d)%nat) by (apply Nat.mod_upper_bound; lia).
  assert (E : n = d \/ n = (2 * d)%nat \/ (d < n < 2 * d)%nat) by lia.
  assert (P : exists p, (p < d)%nat /\ nth_error (rotate (n mod d) ds) k = nth_error ds p /\
                py_idx d (Z.of_nat (n - d + k) - Z.of_nat d) = Ok p).
  { destruct E as [E|[E|E]].
    - exists k. assert (M0 : (n mod d = 0)%nat) by (rewrite E; apply Nat.mod_same; lia).
      split; auto. split.
      + rewrite nth_rotate by lia. rewrite M0. destruct (Nat.ltb_spec (0 + k) d); [reflexivity|lia].
      + unfold py_idx. destruct (Z.leb_spec 0 (Z.of_nat (n - d + k) - Z.of_nat d)); [lia|]. cbn [andb].
        destruct (Z.leb_spec (- Z.of_nat d) (Z.of_nat (n - d + k) - Z.of_nat d)); [|lia].
        destruct (Z.ltb_spec (Z.of_nat (n - d + k) - Z.of_nat d) 0); [|lia]. cbn [andb]. f_equal. lia.
    - exists k. assert (M0 : (n mod d = 0)%nat) by (rewrite E; apply Nat.mod_mul; lia).
      split; auto. split.
      + rewrite nth_rotate by lia. rewrite M0. destruct (Nat.ltb_spec (0 + k) d); [reflexivity|lia].
      + unfold py_idx. destruct (Z.leb_spec 0 (Z.of_nat (n - d + k) - Z.of_nat d)); [|lia].
        destruct (Z.ltb_spec (Z.of_nat (n - d + k) - Z.of_nat d) (Z.of_nat d)); [|lia]. cbn [andb]. f_equal. lia.
    - assert (M0 : (n mod d = n - d)%nat).
      { replace n with ((n - d) + 1 * d)%nat at 1 by lia. rewrite Nat.mod_add by lia. apply Nat.mod_small. lia. }
      destruct (Nat.ltb_spec (n - d + k) d) as [L|L].
      + exists (n - d + k)%nat. split; [lia|]. split.
        * rewrite nth_rotate by lia. rewrite M0. destruct (Nat.ltb_spec (n - d + k) d); [reflexivity|lia].
        * unfold py_idx. destruct (Z.leb_spec 0 (Z.of_nat (n - d + k) - Z.of_nat d)); [lia|]. cbn [andb].
          destruct (Z.leb_spec (- Z.of_nat d) (Z.of_nat (n - d + k) - Z.of_nat d)); [|lia].
          destruct (Z.ltb_spec (Z.of_nat (n - d + k) - Z.of_nat d) 0); [|lia]. cbn [andb]. f_equal. lia.
      + exists (n - d + k - d)%nat. split; [lia|]. split.
        * rewrite nth_rotate by lia. rewrite M0. destruct (Nat.ltb_spec (n - d + k) d); [lia|reflexivity].
        * unfold py_idx. destruct (Z.leb_spec 0 (Z.of_nat (n - d + k) - Z.of_nat d)); [|lia].
          destruct (Z.ltb_spec (Z.of_nat (n - d + k) - Z.of_nat d) (Z.of_nat d)); [|lia]. cbn [andb]. f_equal. lia. }
  destruct P as [p [Hp [P1 P2]]]. destruct (nth_error ds p) as [x|] eqn:X; [|apply nth_error_None in X; lia].
  exists x. split; [rewrite P1; reflexivity|]. unfold list_get. rewrite P2. cbn [rbind]. rewrite X. reflexivity.
Qed.

Lemma last_items : forall a, (length a <= d)%nat -> (n <= 2 * d)%nat ->
  signature_items ds (Z.of_nat n) (Z.of_nat (n - length a)) a =
  Ok (map item_text (combine a (map Some (skipn (d - length a) (rotate (n mod d) ds))))).
Proof.
  induction a as [|name a IH]; intros Ha Hn; [reflexivity|]. cbn [length] in *.
  destruct (get_default (d - S (length a)) ltac:(lia) Hn) as [x [X1 X2]].
  cbn [signature_items]. unfold py_len.
  destruct (Z.eqb_spec (Z.of_nat d) 0); [lia|]. cbn [negb andb].
  destruct (Z.leb_spec (Z.of_nat n - Z.of_nat d) (Z.of_nat (n - S (length a)))); [|lia].
  replace (n - d + (d - S (length a)))%nat with (n - S (length a))%nat in X2 by lia.
  rewrite X2. cbn [rbind]. replace (Z.of_nat (n - S (length a)) + 1) with (Z.of_nat (n - length a)) by lia.
  rewrite (skipn_cons _ _ _ X1). cbn [map combine item_text snd fst].
  replace (S (d - S (length a))) with (d - length a)%nat by lia.
  rewrite IH by lia. reflexivity.
Qed.

Lemma last_error : forall a, a <> [] -> (length a <= n)%nat -> (2 * d < n)%nat ->
  signature_items ds (Z.of_nat n) (Z.of_nat (n - length a)) a = Err IndexError.
Proof.
  assert (G : forall i, list_get ds i = Err IndexError \/ exists x, list_get ds i = Ok x).
  { intros i. unfold list_get, py_idx. destruct (_ && _); cbn [rbind].
    - destruct (nth_error _ _); eauto.
    - destruct (_ && _); cbn [rbind]; auto. destruct (nth_error _ _); eauto. }
  induction a as [|name a IH]; intros Ha Hm Hn; [congruence|]. cbn [length] in *.
  cbn [signature_items]. unfold py_len.
  destruct (Z.eqb_spec (Z.of_nat d) 0); [lia|]. cbn [negb andb].
  replace (Z.of_nat (n - S (length a)) + 1) with (Z.of_nat (n - length a)) by lia.
  destruct a as [|name' a].
  - cbn [length]. destruct (Z.leb_spec (Z.of_nat n - Z.of_nat d) (Z.of_nat (n - 1))); [|lia].
    assert (G1 : list_get ds (Z.of_nat (n - 1) - Z.of_nat d) = Err IndexError).
    { unfold list_get, py_idx.
      destruct (Z.ltb_spec (Z.of_nat (n - 1) - Z.of_nat d) (Z.of_nat d)); [lia|].
      destruct (Z.ltb_spec (Z.of_nat (n - 1) - Z.of_nat d) 0); [lia|].
      rewrite !andb_false_r. reflexivity. }
    rewrite G1. reflexivity.
  - rewrite IH by (try discriminate; cbn [length] in *; lia).
    destruct (Z.of_nat n - Z.of_nat d <=? _); [|reflexivity].
    match goal with |- context [list_get ds ?i] => destruct (G i) as [E|[x E]]; rewrite E end; reflexivity.
Qed.

Lemma first_items : forall a, (length a <= n)%nat -> (n <= 2 * d)%nat ->
  signature_items ds (Z.of_nat n) (Z.of_nat (n - length a)) a =
  Ok (map item_text (combine a (repeat None (length a - d) ++ map Some (skipn (d - length a) (rotate (n mod d) ds))))).
Proof.
  induction a as [|name a IH]; intros Ha Hn; [reflexivity|].
  destruct (le_lt_dec (length (name :: a)) d) as [L|L].
  - rewrite last_items by auto. replace (length (name :: a) - d)%nat with 0%nat by lia. reflexivity.
  - cbn [length] in *. cbn [signature_items]. unfold py_len.
    destruct (Z.leb_spec (Z.of_nat n - Z.of_nat d) (Z.of_nat (n - S (length a)))); [lia|]. rewrite andb_false_r.
    cbn [rbind]. replace (Z.of_nat (n - S (length a)) + 1) with (Z.of_nat (n - length a)) by lia.
    rewrite IH by lia. cbn [rbind].
    replace (S (length a) - d)%nat with (S (length a - d)) by lia.
    replace (d - length a)%nat with 0%nat by lia. replace (d - S (length a))%nat with 0%nat by lia. reflexivity.
Qed.
End Signature.

Lemma no_defaults : forall a n i, signature_items [] n i a = Ok a.
Proof. induction a as [|x a IH]; intros; cbn [signature_items py_len length]; [reflexivity|]. cbn. rewrite IH. reflexivity. Qed.
Lemma plain_items : forall a, map item_text (combine a (repeat None (length a))) = a.
Proof. induction a as [|x a IH]; cbn; [reflexivity|]. rewrite IH. reflexivity. Qed.

Lemma C90_general_proof : forall f, let n := length (shown_args f) in let d := length (f_defaults f) in (d <= n)%nat ->
  (d = 0%nat -> signature_str f = Ok (signature_of (shown_args f) [])) /\
  ((0 < d)%nat -> (n <= 2 * d)%nat -> signature_str f = Ok (signature_of (shown_args f) (rotate (n mod d) (f_defaults f)))) /\
  ((0 < d)%nat -> (2 * d < n)%nat -> signature_str f = Err IndexError).
Proof.
  intros f n d Hd. unfold signature_str. fold (shown_args f). unfold py_len. fold n. splits.
  - intros E. destruct (f_defaults f) as [|x l]; [|discriminate]. rewrite no_defaults. cbn [rbind].
    unfold signature_of. cbn [length map]. rewrite Nat.sub_0_r, app_nil_r, plain_items. reflexivity.
  - intros H1 H2. assert (F := first_items (f_defaults f) n ltac:(unfold n, d in *; lia) (shown_args f) ltac:(unfold n; lia) ltac:(unfold n, d in *; lia)).
    replace (n - length (shown_args f))%nat with 0%nat in F by (unfold n; lia). change (Z.of_nat 0) with 0 in F.
    rewrite F. cbn [rbind]. unfold signature_of. fold n. fold d.
    rewrite len_rotate. fold d. replace (d - n)%nat with 0%nat by lia. reflexivity.
  - intros H1 H2. assert (F := last_error (f_defaults f) n ltac:(unfold n, d in *; lia) (shown_args f)
      ltac:(intros X; unfold n in H2; rewrite X in H2; cbn [length] in H2; lia) ltac:(unfold n; lia) ltac:(unfold n, d in *; lia)).
    replace (n - length (shown_args f))%nat with 0%nat in F by (unfold n; lia). change (Z.of_nat 0) with 0 in F.
    rewrite F. reflexivity.
Qed.

Lemma C90_right_proof : forall f, let n := length (shown_args f) in let d := length (f_defaults f) in
  d = 0%nat \/ n = d \/ n = (2 * d)%nat -> signature_str f = Ok (signature_of (shown_args f) (f_defaults f)).
Proof.
  intros f n d H. assert (D : d = 0%nat \/ (0 < d)%nat) by lia. destruct D as [D|D].
  - destruct (C90_general_proof f) as [A _]; [unfold d in D; rewrite D; lia|].
    unfold d in *. destruct (f_defaults f); [auto|discriminate].
  - destruct (C90_general_proof f) as [_ [A _]]; [unfold n, d in *; lia|].
    rewrite A by (unfold n, d in *; lia). do 2 f_equal.
    assert (M : (n mod d = 0)%nat).
    { destruct H as [H|[H|H]]; [lia| |]; rewrite H; [apply Nat.mod_same|apply Nat.mod_mul]; lia. }
    unfold n, d in M. rewrite M. unfold rotate. cbn [skipn firstn]. apply app_nil_r.
Qed.

(** * Arguments *)
Lemma kw_get : forall (kw : kwargs) k, NoDup (map fst kw) ->
  (exists v, dget str_eqb kw k = Ok v /\ In (k, v) kw) \/
  ((exists e, dget str_eqb kw k = Err e) /\ forall v, ~ In (k, v) kw).
Proof.
  intros kw k N. destruct (dget str_eqb kw k) as [v|e] eqn:E.
  - left. exists v. split; auto. apply (dget_In str_eqb str_eqb_eq). auto.
  - right. split; [eauto|]. intros v Hv. pose proof (dget_NoDup str_eqb str_eqb_eq kw k v N Hv). congruence.
Qed.
Lemma kw_fun : forall (kw : kwargs) k v w, NoDup (map fst kw) -> In (k, v) kw -> In (k, w) kw -> v = w.
Proof.
  intros kw k v w N A B. pose proof (dget_NoDup str_eqb str_eqb_eq kw k v N A).
  pose proof (dget_NoDup str_eqb str_eqb_eq kw k w N B). congruence.
Qed.

Lemma bind_rest_iff : forall ps kw, NoDup (map fst kw) -> forall vs,
  bind_rest ps kw = Ok vs <->
  length vs = length ps /\
  (forall i k d, nth_error ps i = Some (k, d) ->
     (forall v, In (k, v) kw -> nth_error vs i = Some v) /\
     ((forall v, ~ In (k, v) kw) -> d <> None /\ nth_error vs i = d)).
Proof.
  intros ps kw N. induction ps as [|[k d] ps IH]; intros vs; cbn [bind_rest].
  - split.
    + intros E. injection E as <-. split; [reflexivity|]. intros [|i] k d E; discriminate.
    + intros [E _]. destruct vs; [reflexivity|discriminate].
  - assert (X : forall v vs', (forall w, In (k, w) kw -> v = w) -> ((forall w, ~ In (k, w) kw) -> d = Some v) ->
       (bind_rest ps kw = Ok vs' <-> length (v :: vs') = length ((k, d) :: ps) /\
        (forall i k' d', nth_error ((k, d) :: ps) i = Some (k', d') ->
          (forall w, In (k', w) kw -> nth_error (v :: vs') i = Some w) /\
          ((forall w, ~ In (k', w) kw) -> d' <> None /\ nth_error (v :: vs') i = d')))).
    { intros v vs' A B. rewrite IH. cbn [length]. split.
      - intros [L H]. split; [lia|]. intros [|i] k' d' E; cbn [nth_error] in *; [|apply H; auto].
        injection E as <- <-. split; [intros w Hw; f_equal; auto|]. intros Q. rewrite B by auto. split; [discriminate|reflexivity].
      - intros [L H]. split; [lia|]. intros i k' d' E. exact (H (S i) k' d' E). }
    assert (Y : (bind_rest ((k, d) :: ps) kw = Ok vs -> exists v vs', vs = v :: vs' /\ bind_rest ps kw = Ok vs' /\
                  (forall w, In (k, w) kw -> v = w) /\ ((forall w, ~ In (k, w) kw) -> d = Some v)) /\
                (forall v vs', vs = v :: vs' -> bind_rest ps kw = Ok vs' -> (forall w, In (k, w) kw -> v = w) ->
                  ((forall w, ~ In (k, w) kw) -> d = Some v) -> bind_rest ((k, d) :: ps) kw = Ok vs)).
    { cbn [bind_rest]. destruct (kw_get kw k N) as [[v [E Hv]]|[[e E] Hv]]; rewrite E.
      - cbn [rbind]. split.
        + destruct (bind_rest ps kw) as [l|]; cbn [rbind]; intros Q; [|discriminate]. injection Q as <-.
          exists v, l. splits; auto. * intros w Hw. eapply kw_fun; eauto. * intros Z0. exfalso. eapply Z0; eauto.
        + intros v' vs' -> E' A B. rewrite E'. cbn [rbind]. rewrite (A v Hv). reflexivity.
      - split.
        + destruct d as [v|]; cbn [rbind]; [|discriminate]. destruct (bind_rest ps kw) as [l|]; cbn [rbind]; intros Q; [|discriminate].
          injection Q as <-. exists v, l. splits; auto. intros w Hw. exfalso. eapply Hv; eauto.
        + intros v' vs' -> E' A B. rewrite (B Hv). cbn [rbind]. rewrite E'. reflexivity. }
    change (match dget str_eqb kw k with Ok v => _ | Err _ => _ end) with (match dget str_eqb kw k, d with Ok v, _ => Ok v | Err _, Some v => Ok v | Err _, None => Err TypeError end).
    split.
    + intros E. destruct (proj1 Y E) as [v [vs' [-> [E' [A B]]]]]. apply X; auto.
    + intros H. destruct vs as [|v vs']; [destruct H as [H _]; discriminate|].
      assert (A : forall w, In (k, w) kw -> v = w).
      { intros w Hw. destruct H as [_ H]. destruct (H 0%nat k d eq_refl) as [H1 _]. specialize (H1 w Hw). cbn in H1. congruence. }
      assert (B : (forall w, ~ In (k, w) kw) -> d = Some v).
      { intros Q. destruct H as [_ H]. destruct (H 0%nat k d eq_refl) as [_ H1]. destruct (H1 Q) as [_ H2]. cbn in H2. congruence. }
      apply (proj2 Y v vs'); auto. apply (proj2 (X v vs' A B)); auto.
Qed.

Lemma bind_rest_err : forall ps kw e, bind_rest ps kw = Err e -> e = TypeError.
Proof.
  induction ps as [|[k d] ps IH]; intros kw e E; cbn [bind_rest] in E; [discriminate|].
  destruct (dget str_eqb kw k) as [v|]; [|destruct d as [v|]]; cbn [rbind] in E; try (injection E as <-; reflexivity);
  destruct (bind_rest ps kw) as [l|] eqn:B; cbn [rbind] in E; try discriminate; injection E as <-; eapply IH; eauto.
Qed.

Lemma nth_eq : forall {A} (l m : list A), (forall i, nth_error l i = nth_error m i) -> l = m.
Proof.
  induction l as [|x l IH]; intros [|y m] H; auto; try (specialize (H 0%nat); discriminate).
  f_equal; [specialize (H 0%nat); cbn in H; congruence|]. apply IH. intros i. exact (H (S i)).
Qed.
Lemma nth_skipn : forall {A} (l : list A) n i, nth_error (skipn n l) i = nth_error l (n + i).
Proof. induction l as [|x l IH]; intros [|n] i; cbn [skipn nth_error Nat.add]; auto. destruct i; reflexivity. Qed.

Lemma str_mem_iff : forall x l, str_mem x l = true <-> In x l.
Proof.
  intros x l. unfold str_mem. rewrite existsb_exists. split.
  - intros [y [H E]]. apply str_eqb_eq in E. subst; auto.
  - intros H. exists x. split; auto. apply str_eqb_eq; auto.
Qed.

Lemma C92_bind_proof : forall ps args kw, NoDup (map fst kw) ->
  (forall vs, bind ps args kw = Ok vs <-> binds ps args kw vs) /\
  (forall e, bind ps args kw = Err e -> e = TypeError).
Proof.
  intros ps args kw N. unfold bind. destruct (Nat.ltb_spec (length ps) (length args)) as [L|L].
  { split; [|congruence]. intros vs. split; [discriminate|]. intros [_ [H _]]. lia. }
  destruct (forallb _ _) eqn:F.
  - assert (F' : forall k v, In (k, v) kw -> exists i d, (length args <= i)%nat /\ nth_error ps i = Some (k, d)).
    { intros k v H. rewrite forallb_forall in F. specialize (F k (in_map fst _ _ H)). apply str_mem_iff in F.
      apply in_map_iff in F. destruct F as [[k' d] [E Q]]. cbn in E. subst k'. apply In_nth_error in Q. destruct Q as [i Q].
      rewrite nth_skipn in Q. exists (length args + i)%nat, d. split; [lia|auto]. }
    split.
    + intros vs. split.
      * destruct (bind_rest _ kw) as [l|] eqn:B; cbn [rbind]; intros E; [|discriminate]. injection E as <-.
        apply bind_rest_iff in B; auto. destruct B as [B1 B2]. rewrite skipn_length in B1. unfold binds. splits; auto.
        -- rewrite app_length. lia.
        -- intros i v H. rewrite nth_error_app1; auto. apply nth_error_Some; congruence.
        -- intros i k d Hi H. rewrite nth_error_app2 by auto. apply (B2 (i - length args)%nat). rewrite nth_skipn.
           rewrite <- H. f_equal. lia.
      * intros [B1 [B2 [B3 [B4 B5]]]].
        assert (E : vs = args ++ skipn (length args) vs).
        { rewrite <- (firstn_skipn (length args) vs) at 1. f_equal. apply nth_eq. intros i.
          destruct (le_lt_dec (length args) i).
          - replace (nth_error args i) with (@None value) by (symmetry; apply nth_error_None; auto).
            apply nth_error_None. rewrite firstn_length. lia.
          - destruct (nth_error args i) as [v|] eqn:Q; [|apply nth_error_None in Q; lia].
            rewrite <- (B4 i v Q). rewrite <- (firstn_skipn (length args) vs) at 2. rewrite nth_error_app1; auto.
            rewrite firstn_length. lia. }
        assert (R : bind_rest (skipn (length args) ps) kw = Ok (skipn (length args) vs)).
        { apply bind_rest_iff; auto. rewrite !skipn_length. split; [lia|]. intros i k d H. rewrite nth_skipn in H.
          rewrite nth_skipn. apply (B5 (length args + i)%nat); auto. lia. }
        rewrite R. cbn [rbind]. rewrite <- E. reflexivity.
    + intros e. destruct (bind_rest _ kw) as [l|] eqn:B; cbn [rbind]; intros E; [discriminate|]. injection E as <-.
      eapply bind_rest_err; eauto.
  - split; [|congruence]. intros vs. split; [discriminate|]. intros [_ [_ [H _]]]. exfalso.
    assert (F' : forallb (fun k => str_mem k (map fst (skipn (length args) ps))) (map fst kw) = true).
    { apply forallb_forall. intros k Hk. apply in_map_iff in Hk. destruct Hk as [[k' v] [E Hk]]. cbn in E. subst k'.
      destruct (H k v Hk) as [i [d [Hi Q]]]. apply str_mem_iff. apply in_map_iff. exists (k, d). split; auto.
      apply nth_error_In with (i - length args)%nat. rewrite nth_skipn. rewrite <- Q. f_equal. lia. }
    congruence.
Qed.

(** * Help *)
Lemma first_nl : forall d : pystr, In 10 d -> exists l rest, d = l ++ 10 :: rest /\ ~ In 10 l.
Proof.
  induction d as [|c d IH]; intros H; [destruct H|]. destruct (Z.eq_dec c 10) as [->|N].
  - exists [], d. split; auto.
  - destruct H as [H|H]; [congruence|]. destruct (IH H) as [l [rest [-> Q]]]. exists (c :: l), rest. split; auto.
    intros [X|X]; [congruence|contradiction].
Qed.
Fixpoint nodup_list (l : list pystr) : bool :=
  match l with [] => true | x :: t => negb (str_mem x t) && nodup_list t end.
Lemma nodup_list_ok : forall l, nodup_list l = true -> NoDup l.
Proof.
  induction l as [|x l IH]; intros H; [constructor|]. cbn [nodup_list] in H. apply andb_true_iff in H. destruct H as [A B].
  constructor; auto. intros Q. apply str_mem_iff in Q. rewrite Q in A. discriminate.
Qed.
Lemma split_line : forall d, (~ In 10 d /\ split_go [10] d 0 = [d]) \/
  (exists l rest, ~ In 10 l /\ d = l ++ 10 :: rest /\ split_go [10] d 0 = l :: split_go [10] rest 0).
Proof.
  intros d. destruct (in_dec Z.eq_dec 10 d) as [H|H].
  - right. destruct (first_nl d H) as [l [rest [E N]]]. exists l, rest. splits; auto.
    rewrite E. rewrite split_go_item by auto.
    replace (split_go [10] (10 :: rest) 0) with ([] :: split_go [10] rest 0) by (symmetry; apply (split_go_sep 10 [] rest)).
    cbn [app_head]. rewrite app_nil_r. reflexivity.
  - left. split; auto. rewrite <- (app_nil_r d) at 1. rewrite split_go_item by auto. cbn. rewrite app_nil_r. reflexivity.
Qed.
Lemma join_lines : forall n d, (length d <= n)%nat -> join [10] (split_go [10] d 0) = d.
Proof.
  induction n as [|n IH]; intros d H; destruct (split_line d) as [[N E]|[l [rest [N [E S]]]]].
  - rewrite E. reflexivity.
  - subst d. rewrite app_length in H. cbn [length] in H. lia.
  - rewrite E. reflexivity.
  - rewrite S. assert (R : join [10] (split_go [10] rest 0) = rest).
    { apply IH. subst d. rewrite app_length in H. cbn [length] in H. lia. }
    destruct (split_go [10] rest 0) as [|y ys] eqn:Q; [exfalso; eapply split_go_nonempty; eauto|].
    rewrite join_cons. rewrite R. subst d. reflexivity.
Qed.

Lemma help_one_ok : forall docs name v, In name (dkeys SPECS) ->
  exists line rest, help_line docs name line /\ other_lines (docs name) rest /\
    help_one docs name v = Ok (if v then line ++ rest else line).
Proof.
  intros docs name v Hn. apply (dget_keys str_eqb str_eqb_eq) in Hn. destruct Hn as [f Hf].
  assert (In (name, f) SPECS) by (apply (dget_In str_eqb str_eqb_eq); auto).
  assert (S : exists sig, signature_str f = Ok sig).
  { assert (A : forallb (fun e => match signature_str (snd e) with Ok _ => true | Err _ => false end) SPECS = true) by (vm_compute; reflexivity).
    rewrite forallb_forall in A. specialize (A _ H). cbn [snd] in A. destruct (signature_str f); [eauto|discriminate]. }
  destruct S as [sig S]. unfold help_one. rewrite Hf. cbn [rbind]. rewrite S. cbn [rbind].
  destruct (docs name) as [d|] eqn:D.
  - destruct (split_line d) as [[N E]|[l [rest [N [E Sp]]]]].
    + exists (name ++ lit " " ++ sig ++ lit ": " ++ strip d), []. splits.
      * exists f, sig, (strip d). splits; auto. rewrite D. cbn [first_line]. exists d, []. splits; auto.
      * cbn [other_lines]. left. auto.
      * rewrite E. cbn [hd tl join]. rewrite app_nil_r. destruct d; destruct v; rewrite ?app_nil_r; reflexivity.
    + exists (name ++ lit " " ++ sig ++ lit ": " ++ strip l), rest. splits.
      * exists f, sig, (strip l). splits; auto. rewrite D. cbn [first_line]. exists l, rest. splits; auto.
      * cbn [other_lines]. right. exists l. auto.
      * rewrite Sp. cbn [hd tl]. rewrite (join_lines (length rest)) by lia.
        destruct d as [|z d]; [destruct l; discriminate|]. destruct v; reflexivity.
  - exists (name ++ lit " " ++ sig ++ lit ": " ++ lit "(Not documented)"), []. splits.
    + exists f, sig, (lit "(Not documented)"). splits; auto. rewrite D. reflexivity.
    + reflexivity.
    + rewrite app_nil_r. destruct v; reflexivity.
Qed.

Lemma help_lines_ok : forall docs names s, (forall x, In x names -> In x (dkeys SPECS)) ->
  exists lines, Forall2 (help_line docs) names lines /\
    foldM (fun s name => let* t := help_one docs name false in Ok (s ++ lit " - " ++ t ++ [10])) names s =
    Ok (s ++ concat (map (fun l => lit " - " ++ l ++ [10]) lines)).
Proof.
  intros docs names. induction names as [|x names IH]; intros s H.
  - exists []. split; [constructor|]. cbn. rewrite app_nil_r. reflexivity.
  - destruct (help_one_ok docs x false) as [line [rest [A [B C]]]]; [apply H; left; auto|].
    destruct (IH (s ++ lit " - " ++ line ++ [10])) as [lines [F E]]; [intros; apply H; right; auto|].
    exists (line :: lines). split; [constructor; auto|]. cbn [foldM]. rewrite C. cbn [rbind]. rewrite E.
    cbn [map concat]. rewrite !app_assoc. reflexivity.
Qed.

Lemma help_sections_ok : forall docs sections s, (forall x, In x (concat (map snd sections)) -> In x (dkeys SPECS)) ->
  exists texts, Forall2 (fun section text => exists lines, Forall2 (help_line docs) (snd section) lines /\
                           text = fst section ++ [10] ++ concat (map (fun l => lit " - " ++ l ++ [10]) lines) ++ [10])
                        sections texts /\
    foldM (fun s section =>
             let* s := foldM (fun s name => let* t := help_one docs name false in Ok (s ++ lit " - " ++ t ++ [10]))
                             (snd section) (s ++ fst section ++ [10]) in
             Ok (s ++ [10])) sections s = Ok (s ++ concat texts).
Proof.
  intros docs sections. induction sections as [|[title names] sections IH]; intros s H.
  - exists []. split; [constructor|]. cbn. rewrite app_nil_r. reflexivity.
  - cbn [map snd concat] in H.
    destruct (help_lines_ok docs names (s ++ title ++ [10])) as [lines [F E]]; [intros; apply H; apply in_app_iff; auto|].
    set (t := title ++ [10] ++ concat (map (fun l => lit " - " ++ l ++ [10]) lines) ++ [10]).
    destruct (IH (s ++ t)) as [texts [F' E']]; [intros; apply H; apply in_app_iff; auto|].
    exists (t :: texts). split.
    + constructor; auto. exists lines. split; auto.
    + cbn [foldM snd fst]. rewrite E. cbn [rbind].
      replace ((s ++ title ++ [10]) ++ concat (map (fun l => lit " - " ++ l ++ [10]) lines)) with ((s ++ title ++ [10]) ++ concat (map (fun l => lit " - " ++ l ++ [10]) lines)) by reflexivity.
      replace (((s ++ title ++ [10]) ++ concat (map (fun l => lit " - " ++ l ++ [10]) lines)) ++ [10]) with (s ++ t)
        by (unfold t; rewrite !app_assoc; reflexivity).
      rewrite E'. cbn [concat]. rewrite app_assoc. reflexivity.
Qed.

Lemma help_names : Permutation (concat (map snd COMMANDS_HELP)) (dkeys COMMANDS) /\ NoDup (dkeys COMMANDS) /\ dkeys SPECS = dkeys COMMANDS.
Proof.
  assert (N : NoDup (dkeys COMMANDS)).
  { apply nodup_list_ok. vm_compute. reflexivity. }
  splits; auto.
  apply NoDup_Permutation; auto.
  - apply nodup_list_ok. vm_compute. reflexivity.
  - assert (A : forallb (fun x => str_mem x (dkeys COMMANDS)) (concat (map snd COMMANDS_HELP)) = true) by (vm_compute; reflexivity).
    assert (B : forallb (fun x => str_mem x (concat (map snd COMMANDS_HELP))) (dkeys COMMANDS) = true) by (vm_compute; reflexivity).
    rewrite forallb_forall in A, B. intros x. split; intros H; apply str_mem_iff; auto.
Qed.

Lemma help_all_ok : forall docs c v, truth c = Some false -> truth v <> None ->
  exists t, help_command docs c v = Some (Ok t) /\ help_text docs COMMANDS_HELP t.
Proof.
  intros docs c v C V. unfold help_command. rewrite C. destruct (truth v) as [b|]; [|congruence].
  destruct (help_sections_ok docs COMMANDS_HELP []) as [texts [F E]].
  { intros x H. destruct help_names as [P [_ ->]]. eapply Permutation_in; eauto. }
  rewrite E. cbn [rbind app]. eexists. split; [reflexivity|]. exists texts. split; auto.
Qed.
