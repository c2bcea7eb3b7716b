(** Proofs about texts that differ only in the script of their digits. *)
From Verif Require Export SpecScript LDecode4 MCodec.
Import PyStr.

Definition like (c c' : Z) : Prop := c = c' \/ same_digit c c'.
Notation tl_ := (Forall2 like).

Lemma like_space : forall c c', like c c' -> is_space c = is_space c'.
Proof. intros c c' [->|[d [A B]]]; auto. apply digit_of_facts in A, B. intuition congruence. Qed.
Lemma like_decimal : forall c c', like c c' -> decimal c = decimal c'.
Proof. intros c c' [->|[d [A B]]]; auto. apply decimal_iff in A, B. congruence. Qed.
Lemma like_eqb : forall c c' x, like c c' -> (forall d, ~ digit_of x d) -> (c =? x) = (c' =? x).
Proof.
  intros c c' x [->|[d [A B]]] N; auto. assert (c <> x) by (intros ->; eapply N; eauto). assert (c' <> x) by (intros ->; eapply N; eauto).
  rewrite (proj2 (Z.eqb_neq _ _)), (proj2 (Z.eqb_neq _ _)); auto.
Qed.
Lemma small_no : forall x, x < 48 -> forall d, ~ digit_of x d.
Proof. intros x H d D. apply digit_of_facts in D. lia. Qed.
Lemma mid_no : forall x, 57 < x <= 127 -> forall d, ~ digit_of x d.
Proof. intros x H d D. apply digit_of_facts in D. lia. Qed.
Lemma like_int_space : forall c c', like c c' -> int_space c = int_space c'.
Proof.
  intros c c' L. unfold int_space. rewrite (like_space c c' L). destruct L as [->|[d [A B]]]; auto.
  apply digit_of_facts in A, B. destruct A as [_ [A1 [A2 _]]], B as [_ [B1 _]]. rewrite B1. reflexivity.
Qed.

Lemma tl_refl : forall t, tl_ t t.
Proof. induction t; constructor; auto. left; auto. Qed.
Lemma f2_app : forall {A B} (R : A -> B -> Prop) a a' b b', Forall2 R a a' -> Forall2 R b b' -> Forall2 R (a ++ b) (a' ++ b').
Proof. intros A B R a a' b b' H K. induction H; cbn [app]; auto. Qed.
Lemma f2_rev : forall {A B} (R : A -> B -> Prop) a b, Forall2 R a b -> Forall2 R (rev a) (rev b).
Proof. intros A B R a b H. induction H; cbn [rev]; auto. apply f2_app; auto. Qed.
Lemma f2_len : forall {A B} (R : A -> B -> Prop) a b, Forall2 R a b -> length a = length b.
Proof. intros A B R a b H. induction H; cbn [length]; auto. Qed.
Lemma f2_skipn : forall {A B} (R : A -> B -> Prop) n a b, Forall2 R a b -> Forall2 R (skipn n a) (skipn n b).
Proof. intros A B R n. induction n; intros a b H; auto. destruct H; cbn [skipn]; auto. Qed.

Lemma tl_drop : forall f s s', (forall c c', like c c' -> f c = f c') -> tl_ s s' -> tl_ (drop_while f s) (drop_while f s').
Proof.
  intros f s s' F H. induction H as [|c c' s s' L H IH]; cbn [drop_while]; auto. rewrite (F c c' L). destruct (f c'); auto.
Qed.
Lemma tl_strip_by : forall f s s', (forall c c', like c c' -> f c = f c') -> tl_ s s' -> tl_ (strip_by f s) (strip_by f s').
Proof. intros f s s' F H. unfold strip_by. apply f2_rev, tl_drop; auto. apply f2_rev, tl_drop; auto. Qed.
Lemma tl_strip : forall s s', tl_ s s' -> tl_ (strip s) (strip s').
Proof. intros. apply tl_strip_by; auto. apply like_space. Qed.

Lemma tl_digits : forall l l' acc b, tl_ l l' -> digits_val l acc b = digits_val l' acc b.
Proof.
  intros l l' acc b H. revert acc b. induction H as [|c c' l l' L H IH]; intros acc b; auto. cbn [digits_val].
  rewrite (like_decimal c c' L). destruct (decimal c') as [d|] eqn:D; auto.
  rewrite (like_eqb c c' 95 L) by (apply mid_no; lia). destruct ((c' =? 95) && b); auto.
Qed.
Lemma tl_signed : forall l l', tl_ l l' -> signed l = signed l'.
Proof.
  intros l l' H. destruct H as [|c c' l l' L H]; auto. pose proof (tl_digits _ _ 0 false (Forall2_cons _ _ L H)) as X.
  destruct L as [->|[d [A B]]].
  - unfold signed. destruct (Z.eq_dec c' 45) as [->|N1]; [rewrite (tl_digits _ _ _ _ H); auto|].
    destruct (Z.eq_dec c' 43) as [->|N2]; [apply tl_digits; auto|]. rewrite !(sign_match _ c' _ _ _ N1 N2). auto.
  - apply digit_of_facts in A, B. unfold signed. rewrite (sign_match _ c) by lia. rewrite (sign_match _ c') by lia. auto.
Qed.
Lemma tl_int : forall s s', tl_ s s' -> int_of_str s = int_of_str s'.
Proof.
  assert (U : forall t, int_of_str t = match signed (strip_by int_space t) with Some n => Ok n | None => Err ValueError end) by reflexivity.
  intros s s' H. rewrite !U. rewrite (tl_signed (strip_by int_space s) (strip_by int_space s')); auto. apply tl_strip_by; auto. apply like_int_space.
Qed.

Lemma tl_replace : forall x by_ s s', (forall d, ~ digit_of x d) -> tl_ s s' -> tl_ (replace_char x by_ s) (replace_char x by_ s').
Proof.
  intros x by_ s s' N H. induction H as [|c c' s s' L H IH]; unfold replace_char; cbn [flat_map]; auto.
  apply f2_app; auto. rewrite (like_eqb c c' x L N). destruct (c' =? x); [apply tl_refl|constructor; auto].
Qed.
Lemma tl_clean : forall e ns ss cs s s', tl_ s s' -> tl_ (clean s e ns ss cs) (clean s' e ns ss cs).
Proof.
  intros e ns ss cs s s' H. unfold clean. apply tl_strip in H. revert H. generalize (strip s) (strip s').
  assert (W : forall c, In c WHITESPACE -> c < 48) by (intros c I; unfold WHITESPACE in I; cbn [In] in I; lia).
  revert W. generalize WHITESPACE. intros ws. induction ws as [|x ws IH]; intros W a b H; auto. cbn [fold_left]. apply IH; [intros; apply W; right; auto|].
  destruct (char_in x (e ++ ss ++ cs ++ ns)); auto. apply tl_replace; auto. apply small_no, W. left; auto.
Qed.

Lemma tl_starts : forall p s s', no_digits p -> tl_ s s' -> starts_with p s = starts_with p s'.
Proof.
  induction p as [|x p IH]; intros s s' N H; auto. destruct H as [|c c' s s' L H]; auto. cbn [starts_with].
  rewrite !(Z.eqb_sym x). rewrite (like_eqb c c' x L) by (intros d; apply N; left; auto). f_equal. apply IH; auto. intros y d I; apply N; right; auto.
Qed.
Lemma tl_cut : forall p s s', no_digits p -> tl_ s s' ->
  (cut p s = None /\ cut p s' = None) \/ exists a b a' b', cut p s = Some (a, b) /\ cut p s' = Some (a', b') /\ tl_ a a' /\ tl_ b b'.
Proof.
  intros p s s' N H. induction H as [|c c' s s' L H IH].
  - destruct (cut p []) as [[a b]|] eqn:E; [right; exists a, b, a, b; splits; auto; apply tl_refl|left; auto].
  - assert (X : starts_with p (c :: s) = starts_with p (c' :: s')) by (apply tl_starts; auto).
    cbn [cut]. rewrite X. destruct (starts_with p (c' :: s')).
    + right. exists [], (skipn (length p) (c :: s)), [], (skipn (length p) (c' :: s')). splits; auto. apply f2_skipn. auto.
    + destruct IH as [[-> ->]|[a [b [a' [b' [-> [-> [A B]]]]]]]]; [left; auto|]. right. exists (c :: a), b, (c' :: a'), b'. splits; auto.
Qed.
Lemma tl_cons_head : forall c c' l l', like c c' -> Forall2 tl_ l l' -> Forall2 tl_ (cons_head c l) (cons_head c' l').
Proof. intros c c' l l' L H. destruct H as [|x x' l l' X H]; cbn [cons_head]; constructor; auto. Qed.
Lemma tl_split_go : forall p s s' k, no_digits p -> tl_ s s' -> Forall2 tl_ (split_go p s k) (split_go p s' k).
Proof.
  intros p s s' k N H. revert k. induction H as [|c c' s s' L H IH]; intros k; [repeat constructor|]. cbn [split_go]. destruct k as [|k]; auto.
  rewrite (tl_starts p (c :: s) (c' :: s')) by auto. destruct (starts_with p (c' :: s')); [constructor; auto|]. apply tl_cons_head; auto.
Qed.
Lemma tl_chars : forall s s', tl_ s s' -> Forall2 tl_ (map (fun c => [c]) s) (map (fun c => [c]) s').
Proof. intros s s' H. induction H; cbn [map]; constructor; auto. Qed.

Lemma tl_item : forall e a a', (forall c d, e = [c] -> digit_of c d -> d = 0) -> tl_ a a' ->
  (if str_is a e then Ok 0 else int_of_str a) = (if str_is a' e then Ok 0 else int_of_str a').
Proof.
  assert (X : forall e a, (forall c d, e = [c] -> digit_of c d -> d = 0) -> str_is a e = true -> (exists c d, a = [c] /\ digit_of c d) -> int_of_str a = Ok 0).
  { intros e a E S [c [d [-> D]]]. apply andb_true_iff in S. destruct S as [_ S]. apply str_eqb_eq in S. subst e.
    rewrite (E c d) in D; auto. apply int_char. auto. }
  assert (Y : forall e a a', (forall c d, e = [c] -> digit_of c d -> d = 0) -> tl_ a a' -> str_is a e = true ->
    (if str_is a' e then Ok 0 else int_of_str a') = Ok 0).
  { intros e a a' E H S. destruct (str_is a' e) eqn:S'; auto. pose proof S as S0. apply andb_true_iff in S. destruct S as [U S]. apply str_eqb_eq in S.
    destruct H as [|c c' a a' L H]; [congruence|]. destruct H as [|c2 c2' a a' L2 H]; [|discriminate]. destruct L as [->|[d [A B]]]; [congruence|].
    rewrite <- (tl_int [c] [c']) by (constructor; [right; exists d; auto|constructor]). eapply X; eauto. }
  intros e a a' E H. destruct (str_is a e) eqn:S; [symmetry; eapply Y; eauto|]. destruct (str_is a' e) eqn:S'; [|apply tl_int; auto].
  assert (H' : tl_ a' a). { clear - H. induction H; constructor; auto. destruct H as [->|[d [A B]]]; [left; auto|right; exists d; auto]. }
  pose proof (Y e a' a E H' S') as Z. rewrite S in Z. auto.
Qed.
Lemma tl_fields : forall e, (forall c d, e = [c] -> digit_of c d -> d = 0) -> forall l l' s r c, Forall2 tl_ l l' -> read_fields e l s r c = read_fields e l' s r c.
Proof.
  intros e E l l' s r c H. revert s r c. induction H as [|a a' l l' X H IH]; intros s r c; auto. cbn [read_fields]. rewrite (tl_item e a a' E X).
  destruct (if str_is a' e then Ok 0 else int_of_str a') as [v|x]; auto. cbn [rbind]. destruct (setitem s r c v) as [s1|x]; auto. cbn [rbind].
  destruct (box_width s1 * box_height s1 <=? c + 1); [destruct (box_width s1 * box_height s1 <=? r + 1)|destruct (box_width s1 * box_height s1 <=? r)]; auto.
Qed.
Lemma tl_mapM : forall l l', Forall2 tl_ l l' -> mapM int_of_str l = mapM int_of_str l'.
Proof. intros l l' H. induction H as [|a a' l l' X H IH]; auto. cbn [mapM]. rewrite (tl_int a a' X), IH. reflexivity. Qed.
Lemma tl_cands : forall ns, no_digits ns -> forall l l' s r c, Forall2 tl_ l l' -> read_candidates ns l s r c = read_candidates ns l' s r c.
Proof.
  intros ns N l l' s r c H. revert s r c. induction H as [|a a' l l' X H IH]; intros s r c; auto. cbn [read_candidates]. apply tl_strip in X.
  assert (Y : exists i i', match ns with [] => Ok (map (fun x => [x]) (strip a)) | _ => split ns (strip a) end = Ok i /\
    match ns with [] => Ok (map (fun x => [x]) (strip a')) | _ => split ns (strip a') end = Ok i' /\ Forall2 tl_ i i').
  { destruct ns as [|n ns]; cbn [split]; eexists; eexists; splits; auto; [apply tl_chars; auto|apply tl_split_go; auto]. }
  destruct Y as [i [i' [-> [-> I]]]]. cbn [rbind]. rewrite (tl_mapM i i' I). destruct (mapM int_of_str i') as [v|x]; auto. cbn [rbind].
  destruct (set_candidates s r c v) as [s1|x]; auto. cbn [rbind].
  destruct (c + 1 =? box_width s1 * box_height s1); [destruct (r + 1 =? box_width s1 * box_height s1)|destruct (r =? box_width s1 * box_height s1)]; auto.
Qed.

Lemma tl_decode : forall e ns ss cs b t t', (forall c d, e = [c] -> digit_of c d -> d = 0) -> no_digits ns -> no_digits ss -> no_digits cs ->
  tl_ t t' -> decode t e ns ss cs b = decode t' e ns ss cs b.
Proof.
  intros e ns ss cs b t t' E Nn Ns Nc H. unfold decode. apply (tl_clean e ns ss cs) in H.
  revert H. generalize (clean t e ns ss cs) (clean t' e ns ss cs). intros x x' H. destruct ss as [|s0 ss]; auto. cbn [rbind].
  assert (X : exists a b' a' b'', (match cut (s0 :: ss) x with Some (a, b) => (a, b) | None => (x, []) end) = (a, b') /\
    (match cut (s0 :: ss) x' with Some (a, b) => (a, b) | None => (x', []) end) = (a', b'') /\ tl_ a a' /\ tl_ b' b'').
  { destruct (tl_cut (s0 :: ss) x x' Ns H) as [[-> ->]|[p [q [p' [q' [-> [-> [P Q]]]]]]]]; [exists x, [], x', []|exists p, q, p', q']; auto. }
  destruct X as [p [q [p' [q' [-> [-> [P Q]]]]]]].
  assert (I : exists i i', match ns with [] => map (fun c => [c]) p | _ => split_go ns p 0 end = i /\
    match ns with [] => map (fun c => [c]) p' | _ => split_go ns p' 0 end = i' /\ Forall2 tl_ i i').
  { eexists. eexists. splits; auto. destruct ns; [apply tl_chars; auto|apply tl_split_go; auto]. }
  destruct I as [i [i' [-> [-> I]]]].
  assert (L : py_len i = py_len i') by (unfold py_len; rewrite (f2_len _ _ _ I); auto). rewrite L.
  destruct (match b with Some b => Ok b | None => infer_box_size (py_len i') end) as [bs|y]; auto. cbn [rbind].
  rewrite (tl_fields e E i i' _ 0 0 I). destruct (read_fields e i' (new_sudoku bs) 0 0) as [s|y]; auto. cbn [rbind].
  destruct Q as [|c c' q q' Lc Q]; auto. unfold split. destruct cs as [|c0 cs]; auto. cbn [rbind].
  apply tl_cands; auto. apply tl_split_go; auto.
Qed.

(** Blanks around *)
Lemma strip_outer : forall a b s, only_blanks a -> only_blanks b -> strip (a ++ s ++ b) = strip s.
Proof.
  intros a b s A B. unfold strip. apply strip_by_iff. destruct (proj1 (strip_by_iff is_space s (strip_by is_space s)) eq_refl) as [u [v [E [U [F L]]]]].
  exists (a ++ u), (v ++ b). splits; auto.
  - rewrite E at 1. rewrite <- !app_assoc. reflexivity.
  - intros c I. rewrite !in_app_iff in I. destruct I as [[I|I]|[I|I]]; auto; apply U, in_app_iff; auto.
Qed.
Lemma decode_outer : forall a b s e ns ss cs bs, only_blanks a -> only_blanks b -> decode (a ++ s ++ b) e ns ss cs bs = decode s e ns ss cs bs.
Proof. intros a b s e ns ss cs bs A B. unfold decode, clean. rewrite (strip_outer a b s A B). reflexivity. Qed.
Lemma action_outer : forall a b s w h, only_blanks a -> only_blanks b -> decode_action (a ++ s ++ b) w h = decode_action s w h.
Proof. intros a b s w h A B. unfold decode_action. rewrite (strip_outer a b s A B). reflexivity. Qed.

(** Actions *)
Lemma strip_middle : forall l m r, m <> [] -> (forall c, In c m -> is_space c = false) ->
  strip (l ++ m ++ r) = drop_while is_space l ++ m ++ rev (drop_while is_space (rev r)).
Proof.
  intros l m r Hm M. unfold strip. apply strip_by_iff. destruct (drop_spec is_space l) as [a [E1 [A D1]]]. destruct (drop_spec is_space (rev r)) as [b [E2 [B D2]]].
  exists a, (rev b). splits.
  - rewrite E1 at 1. rewrite <- !app_assoc. do 3 f_equal. rewrite <- (rev_involutive r) at 1. rewrite E2 at 1. apply rev_app_distr.
  - intros c I. apply in_app_iff in I. destruct I as [I|I]; auto. apply B, in_rev; auto.
  - intros c t X. destruct (drop_while is_space l) as [|y l0] eqn:E; [|cbn [app] in X; injection X as <- _; eapply D1; eauto].
    cbn [app] in X. destruct m as [|x m]; [congruence|]. cbn [app] in X. injection X as <- _. apply M; left; auto.
  - intros c t X. apply (f_equal (@rev _)) in X. rewrite !rev_app_distr, rev_involutive in X. cbn [rev app] in X.
    destruct (drop_while is_space (rev r)) as [|y r0] eqn:E; [|cbn [app] in X; injection X as <- _; eapply D2; eauto].
    cbn [app] in X. apply M. apply in_rev. destruct (rev m) as [|x m'] eqn:R; [apply (f_equal (@rev _)) in R; rewrite rev_involutive in R; contradiction|].
    cbn [app] in X. injection X as <- _. left; auto.
Qed.
Lemma drop_in : forall f s c, In c (drop_while f s) -> In c s.
Proof. intros f s c H. destruct (drop_spec f s) as [b [E _]]. rewrite E. apply in_app_iff; auto. Qed.
Lemma tl_in : forall s s' x, tl_ s s' -> (forall d, ~ digit_of x d) -> In x s' -> In x s.
Proof.
  intros s s' x H N I. induction H as [|c c' s s' L H IH]; [destruct I|]. destruct I as [<-|I]; [|right; auto].
  destruct L as [->|[d [A B]]]; [left; auto|]. destruct (N d B).
Qed.
Lemma no_cut : forall x m t, ~ In x t -> cut (x :: m) t = None.
Proof. intros x m t N. apply cut_no. intros [a [b ->]]. apply N. apply in_app_iff. right; left; auto. Qed.
Lemma head_cut : forall x m l r, ~ In x l -> (forall c, In c m -> c <> x) -> cut (x :: m) (l ++ (x :: m) ++ r) = Some (l, r).
Proof.
  intros x m l r N M. induction l as [|c l IH].
  - cbn [app cut]. assert (S : starts_with (x :: m) (x :: m ++ r) = true) by (apply starts_with_iff; exists r; reflexivity). rewrite S.
    cbn [length skipn]. rewrite skipn_app, skipn_all, Nat.sub_diag. reflexivity.
  - cbn [app]. cbn [cut]. assert (S : starts_with (x :: m) (c :: l ++ x :: m ++ r) = false).
    { cbn [starts_with]. rewrite (proj2 (Z.eqb_neq x c)); auto. intros ->. apply N; left; auto. }
    rewrite S. assert (IH' := IH (fun I => N (or_intror I))). cbn [app] in IH'. rewrite IH'. reflexivity.
Qed.
Lemma dash_start : forall l m r u, ~ In 45 l -> ~ In 45 m -> m <> [] -> l ++ m ++ r <> 45 :: u.
Proof.
  intros l m r u N M Hm E. destruct l as [|c l]; cbn [app] in E; [|injection E as -> _; apply N; left; auto].
  destruct m as [|c m]; [congruence|]. cbn [app] in E. injection E as -> _. apply M; left; auto.
Qed.
Lemma tl_ints : forall r r', tl_ r r' -> ints_of_chars r = ints_of_chars r'.
Proof.
  intros r r' H. unfold ints_of_chars. induction H as [|c c' r r' L H IH]; auto. cbn [mapM]. rewrite IH, (tl_int [c] [c']); auto.
Qed.
Lemma tl_set : forall l r r' w h, ~ In 45 l -> ~ In 61 l -> ~ In 60 (l ++ r) -> tl_ r r' ->
  decode_action (l ++ lit "=" ++ r) w h = decode_action (l ++ lit "=" ++ r') w h.
Proof.
  intros l r r' w h N1 N2 N3 H. change (lit "=") with [61].
  assert (M : forall c, In c [61] -> is_space c = false) by (intros c [<-|[]]; reflexivity).
  pose proof (strip_middle l [61] r ltac:(discriminate) M) as S. pose proof (strip_middle l [61] r' ltac:(discriminate) M) as S'.
  assert (H0 : tl_ (rev (drop_while is_space (rev r))) (rev (drop_while is_space (rev r')))) by (apply f2_rev, tl_drop; [apply like_space|apply f2_rev; auto]).
  assert (N3' : ~ In 60 (l ++ r')).
  { rewrite in_app_iff in *. intros [I|I]; apply N3; auto. right. apply (tl_in r r' 60); auto. apply mid_no; lia. }
  assert (G : forall r, ~ In 60 (l ++ r) -> ~ In 60 (drop_while is_space l ++ [61] ++ rev (drop_while is_space (rev r)))).
  { clear - N1. intros r N I. apply N. rewrite !in_app_iff in *. destruct I as [I|[I|I]]; [left; eapply drop_in; eauto|destruct I as [I|[]]; discriminate|].
    right. apply in_rev in I. apply drop_in in I. apply in_rev; auto. }
  assert (D : forall c, ~ In c l -> ~ In c (drop_while is_space l)) by (intros c N I; apply N; eapply drop_in; eauto).
  assert (E : forall r u, drop_while is_space l ++ [61] ++ r <> 45 :: u) by (intros; apply dash_start; auto; [intros [X|[]]; discriminate|discriminate]).
  rewrite (action_other _ _ w h S) by (intros; apply E). rewrite (action_other _ _ w h S') by (intros; apply E).
  change (lit "<>") with [60; 62]. change (lit "=") with [61]. rewrite (no_cut 60 [62] _ (G r N3)), (no_cut 60 [62] _ (G r' N3')).
  rewrite !head_cut by (auto; intros c []). rewrite (tl_int _ _ H0). reflexivity.
Qed.
Lemma tl_remove : forall l r r' w h, ~ In 45 l -> ~ In 60 l -> tl_ r r' ->
  decode_action (l ++ lit "<>" ++ r) w h = decode_action (l ++ lit "<>" ++ r') w h.
Proof.
  intros l r r' w h N1 N2 H. change (lit "<>") with [60; 62].
  assert (M : forall c, In c [60; 62] -> is_space c = false) by (intros c [<-|[<-|[]]]; reflexivity).
  pose proof (strip_middle l [60; 62] r ltac:(discriminate) M) as S. pose proof (strip_middle l [60; 62] r' ltac:(discriminate) M) as S'.
  assert (H0 : tl_ (rev (drop_while is_space (rev r))) (rev (drop_while is_space (rev r')))) by (apply f2_rev, tl_drop; [apply like_space|apply f2_rev; auto]).
  assert (D : forall c, ~ In c l -> ~ In c (drop_while is_space l)) by (intros c N I; apply N; eapply drop_in; eauto).
  assert (E : forall r u, drop_while is_space l ++ [60; 62] ++ r <> 45 :: u) by (intros; apply dash_start; auto; [intros [X|[X|[]]]; discriminate|discriminate]).
  rewrite (action_other _ _ w h S) by (intros; apply E). rewrite (action_other _ _ w h S') by (intros; apply E).
  change (lit "<>") with [60; 62]. rewrite !head_cut by (auto; intros c [<-|[]]; discriminate). rewrite (tl_ints _ _ H0). reflexivity.
Qed.

(** Fields are named with ASCII digits only. *)
Lemma fields_chars : forall s w h l c, ndecode s w h (lit ",") [] = Ok l -> In c s -> letter c \/ digit c \/ c = 44 \/ In c WHITESPACE.
Proof.
  intros s w h l c E I. destruct (Z_lt_le_dec w 1) as [Hw|Hw]; [rewrite ndecode_small in E by auto; discriminate|].
  destruct (Z_lt_le_dec h 1) as [Hh|Hh]; [rewrite ndecode_small in E by auto; discriminate|].
  destruct (groups_ok (lit ",") [] commas_ok (number_separator [] (w * h)) s) as [gs [_ G]].
  rewrite (ndecode_iff (lit ",") [] commas_ok w h Hw Hh (default_plain (w * h)) s gs l G) in E. destruct E as [fs [F _]].
  destruct G as [s' [C [Es _]]].
  assert (J : In c s' \/ In c WHITESPACE).
  { destruct C as [[_ ->]|[_ [_ [ps [-> [-> _]]]]]]; auto. apply in_join in I. destruct I as [I|[a [A B]]]; auto. left. apply in_concat. eauto. }
  destruct J as [J|J]; [|tauto]. clear C I. subst s'. apply in_join in J. destruct J as [J|[g [A B]]].
  - change (lit ",") with [44] in J. destruct J as [<-|[]]. tauto.
  - assert (X : exists f, accepted (number_separator [] (w * h)) (w * h) g f).
    { clear - F A. induction F as [|y f gs fs Y F IH]; [destruct A|]. destruct A as [<-|A]; [eauto|auto]. }
    destruct X as [f [[[_ [Lt [ts [-> T]]]] _] _]]. apply in_concat in B. destruct B as [t [B1 B2]].
    assert (Y : exists q, In q f /\ exists u, t = fst q :: u /\ written (number_separator [] (w * h)) u (snd q)).
    { clear - T B1. induction T as [|y q ts f Y T IH]; [destruct B1|]. destruct B1 as [<-|B1]; [exists q; split; [left|]; auto|].
      destruct (IH B1) as [p [P1 P2]]. exists p; split; [right|]; auto. }
    destruct Y as [[q ks] [Y1 [u [-> [ps [-> [_ [D _]]]]]]]]. cbn [fst] in *. destruct B2 as [<-|B2]; [left; eapply Lt; eauto|].
    apply in_join in B2. destruct B2 as [B2|[a [A1 A2]]]; [|right; left; apply (D a A1); auto].
    unfold number_separator in B2. destruct (w * h <=? 9); [destruct B2|]. destruct B2 as [<-|[]]. tauto.
Qed.
