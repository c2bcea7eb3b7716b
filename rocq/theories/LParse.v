(** Lemmas about parse. *)
From Verif Require Export LShell6 LHelp SpecParse.

(** ** Names *)
Lemma given_iff : forall name sp, given name sp <-> dget str_eqb COMMANDS name = Ok sp.
Proof.
  intros name sp. split.
  - intros [[H E]|[[H E]|[[H E]|[H E]]]]; subst sp; [| | |subst name; reflexivity]; cbn [In plain_names sudoku_names shell_names] in H;
      repeat (destruct H as [H|H]; [subst name; reflexivity|]); contradiction.
  - intros H. apply (dget_In str_eqb str_eqb_eq) in H. unfold COMMANDS in H. cbn [In] in H. unfold given, plain_names, sudoku_names, shell_names. cbn [In].
    repeat (destruct H as [H|H]; [injection H as <- <-; tauto|]). contradiction.
Qed.
Lemma is_name_iff : forall name, is_name name <-> In name (dkeys COMMANDS).
Proof.
  intros name. rewrite (dget_keys str_eqb str_eqb_eq). unfold is_name. split; intros [sp H]; exists sp; apply given_iff; auto.
Qed.
Lemma given_special : forall name sp, dget str_eqb COMMANDS name = Ok sp -> forallb (fun n => str_mem n SPECIAL_ARGS) sp = true.
Proof.
  intros name sp H. apply given_iff in H. destruct H as [[_ E]|[[_ E]|[[_ E]|[_ E]]]]; subst; reflexivity.
Qed.
Lemma name_no_eq : forall x, is_name x -> ~ In 61 x.
Proof.
  intros x H. apply is_name_iff in H. cbn [dkeys COMMANDS map fst In] in H.
  repeat (destruct H as [H|H]; [subst; cbn; intuition discriminate|]). contradiction.
Qed.
Lemma end_no_name : ~ is_name (lit "end").
Proof. intros H. apply is_name_iff, str_mem_In in H. vm_compute in H. discriminate. Qed.

(** ** Items *)
Lemma cut_eq_some : forall a b, ~ In 61 a -> cut (lit "=") (a ++ 61 :: b) = Some (a, b).
Proof.
  intros a b H. change (lit "=") with [61]. induction a as [|x a IH].
  - reflexivity.
  - rewrite <- app_comm_cons, cut_cons. cbn [starts_with]. destruct (Z.eqb_spec 61 x) as [E|N]; [exfalso; apply H; left; auto|]. cbn [andb].
    rewrite IH; auto. intros I; apply H; right; auto.
Qed.
Lemma cut_eq_none : forall a, ~ In 61 a -> cut (lit "=") a = None.
Proof.
  intros a H. change (lit "=") with [61]. induction a as [|x a IH]; [reflexivity|]. rewrite cut_cons. cbn [starts_with].
  destruct (Z.eqb_spec 61 x) as [E|N]; [exfalso; apply H; left; auto|]. cbn [andb]. rewrite IH; auto. intros I; apply H; right; auto.
Qed.
Lemma first_eq : forall x : pystr, ~ In 61 x \/ exists n t, x = n ++ 61 :: t /\ ~ In 61 n.
Proof.
  induction x as [|c x IH]; [left; intros []|]. destruct (Z.eq_dec c 61) as [->|N].
  - right. exists [], x. split; auto.
  - destruct IH as [H|[n [t [-> H]]]]; [left; intros [E|E]; auto|]. right. exists (c :: n), t. split; auto. intros [E|E]; auto.
Qed.

(** What parse_item does with an item of each meaning *)
Definition put_kw (W : world) (acc : list value * kwargs) (m : meaning) : res (list value * kwargs) :=
  match m with
  | Named n t => let* x := literal W t in Ok (fst acc, dset str_eqb (snd acc) n x)
  | Positional v => Ok (fst acc ++ [v], snd acc)
  | Literal t => let* x := literal W t in Ok (fst acc ++ [x], snd acc)
  end.
Lemma item_means : forall W acc x m, means x m -> parse_item W acc x = put_kw W acc m.
Proof.
  intros W [a k] x m H. unfold parse_item. destruct H as [n t H|x H| |x H1 H2 H3]; cbn [put_kw fst snd].
  - rewrite cut_eq_some; auto.
  - rewrite cut_eq_none by (apply name_no_eq; auto). apply is_name_iff, str_mem_In in H. rewrite H. reflexivity.
  - reflexivity.
  - rewrite cut_eq_none by auto.
    destruct (str_mem x (dkeys COMMANDS)) eqn:M; [exfalso; apply H2, is_name_iff, str_mem_In; auto|].
    destruct (str_mem x SHELL_KEYWORDS) eqn:M2; [exfalso; apply str_mem_In in M2; destruct M2 as [M2|[]]; auto|]. reflexivity.
Qed.
Lemma means_total : forall x, exists m, means x m.
Proof.
  intros x. destruct (first_eq x) as [H|[n [t [-> H]]]]; [|exists (Named n t); constructor; auto].
  destruct (str_mem x (dkeys COMMANDS)) eqn:M.
  - exists (Positional (VCommand x)). constructor. apply is_name_iff, str_mem_In; auto.
  - assert (N : ~ is_name x) by (intros I; apply is_name_iff, str_mem_In in I; congruence).
    destruct (str_eqb x (lit "end")) eqn:E.
    + apply str_eqb_eq in E. subst. exists (Positional (VKeyword (lit "end"))). constructor.
    + exists (Literal x). constructor; auto. intros ->. discriminate.
Qed.
Lemma app_eq_first : forall (n n' : pystr) t t', n ++ 61 :: t = n' ++ 61 :: t' -> ~ In 61 n -> ~ In 61 n' -> n = n' /\ t = t'.
Proof.
  intros n n' t t' E H H'. assert (X : Some (n, t) = Some (n', t')) by (rewrite <- !cut_eq_some by auto; f_equal; auto).
  injection X; auto.
Qed.
Lemma means_unique : forall x m m', means x m -> means x m' -> m = m'.
Proof.
  assert (A : forall x m, means x m -> forall m', means x m' -> m = m').
  { intros x m H. destruct H as [n t H|x H| |x H1 H2 H3]; intros m' H'; inv H'; auto;
      try (exfalso; match goal with
        | H : is_name (_ ++ 61 :: _) |- _ => apply name_no_eq in H; apply H; apply in_app_iff; right; left; auto
        | H : ~ In 61 (_ ++ 61 :: _) |- _ => apply H; apply in_app_iff; right; left; auto
        | H : is_name (lit "end") |- _ => apply end_no_name; auto
        | H : ~ In 61 ?x, E : _ ++ 61 :: _ = ?x |- _ => apply H; rewrite <- E; apply in_app_iff; right; left; auto
        end; fail).
    all: try contradiction.
    all: try (exfalso; match goal with
        | H : is_name ?x, E : _ ++ 61 :: _ = ?x |- _ => apply name_no_eq in H; apply H; rewrite <- E; apply in_app_iff; right; left; auto
        | E : ?n ++ 61 :: ?t = ?y |- _ => assert (I : In 61 y) by (rewrite <- E; apply in_app_iff; right; left; auto); cbn in I; intuition discriminate
        | E : ?y = ?n ++ 61 :: ?t |- _ => assert (I : In 61 y) by (rewrite E; apply in_app_iff; right; left; auto); cbn in I; intuition discriminate
        end; fail).
    match goal with E : _ ++ 61 :: _ = _ ++ 61 :: _ |- _ => apply app_eq_first in E; auto; destruct E as [-> ->]; reflexivity end. }
  intros x m m' H H'. eapply A; eauto.
Qed.

(** ** Lists of items *)
Lemma foldM_app : forall {A B} (f : A -> B -> res A) l m a, foldM f (l ++ m) a = (let* b := foldM f l a in foldM f m b).
Proof. intros A B f l m. induction l as [|x l IH]; intros a; cbn [foldM app rbind]; auto. destruct (f a x); cbn [rbind]; auto. Qed.

Lemma dset_new_str : forall (k : kwargs) n v, ~ In n (map fst k) -> dset str_eqb k n v = k ++ [(n, v)].
Proof. intros. apply (dset_new str_eqb str_eqb_eq); auto. Qed.
Lemma dset_old_str : forall (k1 k2 : kwargs) n v0 v, ~ In n (map fst k1) -> dset str_eqb (k1 ++ (n, v0) :: k2) n v = k1 ++ (n, v) :: k2.
Proof.
  induction k1 as [|[n' v'] k1 IH]; intros k2 n v0 v H; cbn [dset app].
  - rewrite (eqb_refl' str_eqb str_eqb_eq). reflexivity.
  - rewrite (eqb_neq str_eqb str_eqb_eq) by (intros ->; apply H; left; auto). rewrite (IH k2 n v0 v); auto. intros I; apply H; right; auto.
Qed.
Lemma kw_split : forall (k : kwargs) n, In n (map fst k) -> exists k1 v0 k2, k = k1 ++ (n, v0) :: k2 /\ ~ In n (map fst k1).
Proof.
  induction k as [|[n' v'] k IH]; intros n H; [destruct H|]. destruct (str_eqb n n') eqn:E.
  - apply str_eqb_eq in E. subst. exists [], v', k. split; auto.
  - assert (N : n <> n') by (intros ->; rewrite (eqb_refl' str_eqb str_eqb_eq) in E; discriminate).
    destruct H as [H|H]; [exfalso; apply N; symmetry; exact H|]. destruct (IH n H) as [k1 [v0 [k2 [-> X]]]]. exists ((n', v') :: k1), v0, k2. split; auto.
    intros [I|I]; [apply N; symmetry; exact I|auto].
Qed.
Lemma in_dec_str : forall (n : pystr) l, In n l \/ ~ In n l.
Proof. intros. destruct (str_mem n l) eqn:E; [left; apply str_mem_In; auto|right; intros I; apply str_mem_In in I; congruence]. Qed.

Lemma literal_ok : forall W t v, literal W t = Ok v <-> w_literal W t = LitOk v.
Proof. intros. unfold literal. destruct (w_literal W t); split; congruence. Qed.
Lemma literal_err : forall W t e, literal W t = Err e <-> bad_literal W t e.
Proof.
  intros. unfold literal, bad_literal. destruct (w_literal W t); split.
  - discriminate.
  - intros [[X _]|X]; discriminate.
  - intros X; left; split; congruence.
  - intros [[_ ->]|X]; [auto|discriminate].
  - intros X; right; congruence.
  - intros [[X _]|X]; congruence.
Qed.

Lemma reads_iff : forall W l a k, reads W l a k <-> foldM (parse_item W) l ([], []) = Ok (a, k).
Proof.
  intros W l. induction l as [|x l IH] using rev_ind; intros a k.
  - cbn [foldM]. split; intros H.
    + inv H; auto; destruct l; discriminate.
    + injection H as <- <-. constructor.
  - rewrite foldM_app. split.
    + intros H. inv H; try (destruct l; discriminate); match goal with E : _ ++ [_] = _ ++ [_] |- _ => apply app_inj_tail in E; destruct E as [-> ->] end;
        match goal with R : reads _ _ _ _ |- _ => apply IH in R; rewrite R end; cbn [rbind foldM];
        erewrite item_means by eassumption; cbn [put_kw fst snd rbind]; auto;
        match goal with L : w_literal _ _ = LitOk _ |- _ => apply literal_ok in L; rewrite L end; cbn [rbind]; auto.
      * rewrite dset_new_str; auto.
      * rewrite dset_old_str; auto.
    + destruct (foldM (parse_item W) l ([], [])) as [[a0 k0]|e] eqn:F; cbn [rbind foldM]; [|discriminate].
      assert (R : reads W l a0 k0) by (apply IH; auto). destruct (means_total x) as [m M]. rewrite (item_means W _ x m M).
      destruct m as [n t|v|t]; cbn [put_kw fst snd rbind].
      * destruct (literal W t) as [v|e] eqn:L; cbn [rbind]; [|discriminate]. apply literal_ok in L. intros E. injection E as <- <-.
        destruct (in_dec_str n (map fst k0)) as [I|I].
        -- apply kw_split in I. destruct I as [k1 [v0 [k2 [-> I]]]]. rewrite dset_old_str by auto. eapply reads_again; eauto.
        -- rewrite dset_new_str by auto. eapply reads_new; eauto.
      * intros E. injection E as <- <-. eapply reads_word; eauto.
      * destruct (literal W t) as [v|e] eqn:L; cbn [rbind]; [|discriminate]. apply literal_ok in L. intros E. injection E as <- <-.
        assert (t = x) by (inv M; auto). subst. eapply reads_literal; eauto.
Qed.
Lemma bad_iff : forall W acc x e, bad_argument W x e <-> parse_item W acc x = Err e.
Proof.
  intros W [a k] x e. destruct (means_total x) as [m M]. rewrite (item_means W (a, k) x m M). unfold bad_argument. split.
  - intros [t [B [X|[n X]]]]; pose proof (means_unique x _ _ X M); subst m; cbn [put_kw]; apply literal_err in B; rewrite B; reflexivity.
  - destruct m as [n t|v|t]; cbn [put_kw]; [|discriminate|]; destruct (literal W t) as [v|e0] eqn:L; cbn [rbind]; try discriminate;
      intros E; injection E as ->; exists t; (split; [apply literal_err; auto|eauto]).
Qed.
Lemma reads_err : forall W l e, foldM (parse_item W) l ([], []) = Err e <->
  exists l1 x l2 a k, l = l1 ++ x :: l2 /\ reads W l1 a k /\ bad_argument W x e.
Proof.
  intros W l e. induction l as [|x l IH] using rev_ind.
  - cbn [foldM]. split; [discriminate|]. intros [l1 [x [l2 [a [k [E _]]]]]]. destruct l1; discriminate.
  - rewrite foldM_app. destruct (foldM (parse_item W) l ([], [])) as [[a0 k0]|e0] eqn:F; cbn [rbind foldM].
    + split.
      * destruct (parse_item W (a0, k0) x) as [acc|e1] eqn:E; cbn [rbind]; [discriminate|]. intros X. injection X as ->.
        exists l, x, [], a0, k0. split; [auto|]. split; [apply reads_iff; auto|]. apply (bad_iff W (a0, k0)); auto.
      * intros [l1 [y [l2 [a [k [E [R B]]]]]]]. destruct l2 as [|z l2 _] using rev_ind.
        -- apply app_inj_tail in E. destruct E as [-> ->]. apply (bad_iff W (a0, k0)) in B. rewrite B. reflexivity.
        -- exfalso. rewrite app_comm_cons, app_assoc in E. apply app_inj_tail in E. destruct E as [-> _].
           apply (proj2 IH) in F || idtac. assert (Q : @Ok (list value * kwargs) (a0, k0) = Err e) by (apply IH; exists l1, y, l2, a, k; auto). discriminate.
    + split.
      * intros X. injection X as ->. destruct (proj1 IH eq_refl) as [l1 [y [l2 [a [k [-> [R B]]]]]]].
        exists l1, y, (l2 ++ [x]), a, k. split; [rewrite <- app_assoc; auto|]. auto.
      * intros [l1 [y [l2 [a [k [E [R B]]]]]]]. destruct l2 as [|z l2 _] using rev_ind.
        -- apply app_inj_tail in E. destruct E as [-> ->]. apply reads_iff in R. congruence.
        -- rewrite app_comm_cons, app_assoc in E. apply app_inj_tail in E. destruct E as [-> _].
           apply IH. exists l1, y, l2, a, k; auto.
Qed.

(** ** Texts *)
Lemma join_split : forall (s : pystr), join [32] (split_go [32] s 0) = s /\ forall x, In x (split_go [32] s 0) -> ~ In 32 x.
Proof.
  induction s as [|c s [IH1 IH2]]; [split; [reflexivity|intros x [<-|[]]; intros []]|].
  cbn [split_go starts_with]. pose proof (split_go_nonempty [32] s 0) as NE. destruct (Z.eqb_spec 32 c) as [<-|N]; cbn [andb length Nat.sub].
  - destruct (split_go [32] s 0) as [|y l]; [contradiction|]. split.
    + cbn [join app] in *. f_equal. exact IH1.
    + intros x [<-|I]; [intros []|auto].
  - destruct (split_go [32] s 0) as [|y l]; [contradiction|]. split.
    + cbn [cons_head]. destruct l; cbn [join app] in *; f_equal; exact IH1.
    + cbn [cons_head]. intros x [<-|I]; [|apply IH2; right; auto]. intros [E|E]; [auto|]. apply (IH2 y); [left; auto|auto].
Qed.
Lemma items_split : forall s name l, items_of s name l <-> split_go [32] s 0 = name :: l.
Proof.
  intros s name l. unfold items_of. change (lit " ") with [32]. split.
  - intros [-> H]. apply split_join; [discriminate|auto].
  - intros E. destruct (join_split s) as [J H]. rewrite E in J, H. split; auto.
Qed.
Lemma items_exist : forall s, exists name l, items_of s name l.
Proof.
  intros s. pose proof (split_go_nonempty [32] s 0) as N. destruct (split_go [32] s 0) as [|name l] eqn:E; [contradiction|].
  exists name, l. apply items_split; auto.
Qed.
Lemma parse_items : forall W s name l, items_of s name l -> parse W s =
  (let* (args, kw) := foldM (parse_item W) l ([], []) in
   let* special := dget str_eqb COMMANDS name in
   if forallb (fun name => str_mem name SPECIAL_ARGS) special then Ok (mkCommand name special args kw) else Err ValueError).
Proof. intros W s name l H. apply items_split in H. unfold parse, PyStr.split. change (lit " ") with [32]. cbn [rbind]. rewrite H. reflexivity. Qed.

Lemma parse_ok : forall W s c, parse W s = Ok c <->
  exists l, items_of s (c_func c) l /\ given (c_func c) (c_special c) /\ reads W l (c_args c) (c_kwargs c).
Proof.
  intros W s c. split.
  - destruct (items_exist s) as [name [l H]]. rewrite (parse_items W s name l H).
    destruct (foldM (parse_item W) l ([], [])) as [[a k]|e] eqn:F; cbn [rbind]; [|discriminate].
    destruct (dget str_eqb COMMANDS name) as [sp|e] eqn:G; cbn [rbind]; [|discriminate].
    rewrite (given_special name sp G). intros E. injection E as <-. cbn [c_func c_special c_args c_kwargs].
    exists l. split; auto. split; [apply given_iff; auto|apply reads_iff; auto].
  - intros [l [H [G R]]]. rewrite (parse_items W s _ l H). apply reads_iff in R. rewrite R. cbn [rbind]. apply given_iff in G. rewrite G.
    cbn [rbind]. rewrite (given_special _ _ G). destruct c; reflexivity.
Qed.
Lemma parse_err : forall W s e, parse W s = Err e <->
  exists name l, items_of s name l /\
    ((exists l1 x l2 a k, l = l1 ++ x :: l2 /\ reads W l1 a k /\ bad_argument W x e) \/
     ((exists a k, reads W l a k) /\ ~ is_name name /\ e = KeyError)).
Proof.
  intros W s e. split.
  - destruct (items_exist s) as [name [l H]]. rewrite (parse_items W s name l H). intros E. exists name, l. split; auto.
    destruct (foldM (parse_item W) l ([], [])) as [[a k]|e0] eqn:F; cbn [rbind] in E.
    + right. split; [exists a, k; apply reads_iff; auto|].
      destruct (dget str_eqb COMMANDS name) as [sp|e0] eqn:G; cbn [rbind] in E; [rewrite (given_special name sp G) in E; discriminate|].
      split; [intros [sp X]; apply given_iff in X; congruence|]. apply (dget_err_inv str_eqb) in G. congruence.
    + left. injection E as ->. apply reads_err; auto.
  - intros [name [l [H [B|[[a [k R]] [N ->]]]]]]; rewrite (parse_items W s name l H).
    + apply reads_err in B. rewrite B. reflexivity.
    + apply reads_iff in R. rewrite R. cbn [rbind]. rewrite (dget_err str_eqb str_eqb_eq); auto. rewrite <- is_name_iff; auto.
Qed.

(** ** Numbers *)
Lemma digits_char : forall n c, In c (str_of_int n) -> 45 <= c <= 57.
Proof. intros n c H. apply str_of_int_chars in H. unfold is_digit in H. destruct H as [H|H]; lia. Qed.
Lemma number_literal : forall n, means (str_of_int n) (Literal (str_of_int n)).
Proof.
  intros n. assert (C : forall x, str_of_int n = x -> forall c, In c x -> c <= 57) by (intros x <- c H; apply digits_char in H; lia).
  constructor.
  - intros H. apply digits_char in H. lia.
  - intros H. apply is_name_iff in H. cbn [dkeys COMMANDS map fst In] in H.
    repeat (destruct H as [H|H]; [symmetry in H; specialize (C _ H _ (or_introl eq_refl)); cbn in C; lia|]). contradiction.
  - intros H. specialize (C _ H _ (or_introl eq_refl)). cbn in C. lia.
Qed.
Lemma reads_numbers : forall W l, literal_ints W -> reads W (map str_of_int l) (map VInt l) [].
Proof.
  intros W l H. induction l as [|n l IH] using rev_ind; [constructor|]. rewrite !map_app. cbn [map].
  apply reads_literal; auto. apply number_literal.
Qed.
Lemma name_chars : forall name, is_name name -> name <> [] /\ forall c, In c name -> 95 <= c <= 122.
Proof.
  intros name H. apply is_name_iff in H. cbn [dkeys COMMANDS map fst In] in H.
  repeat (destruct H as [H|H]; [subst; split; [discriminate|]; cbn [lit String.list_ascii_of_string map In]; intros c I; cbn in I;
    repeat (destruct I as [<- |I]; [lia|]); contradiction|]). contradiction.
Qed.
Lemma parse_numbers : forall W name sp l, literal_ints W -> given name sp ->
  parse W (command_text name l) = Ok (mkCommand name sp (map VInt l) []).
Proof.
  intros W name sp l H G. apply parse_ok. cbn [c_func c_special c_args c_kwargs]. exists (map str_of_int l). split.
  - split; [reflexivity|]. intros x [<-|I].
    + intros X. apply (name_chars name (ex_intro _ sp G)) in X. lia.
    + apply in_map_iff in I. destruct I as [n [<- _]]. intros X. apply digits_char in X. lia.
  - split; auto. apply reads_numbers; auto.
Qed.
Lemma text_char : forall name l c, is_name name -> In c (command_text name l) -> 95 <= c <= 122 \/ 45 <= c <= 57 \/ c = 32.
Proof.
  intros name l c H. unfold command_text. change (lit " ") with [32].
  enough (E : forall ts : list pystr, (forall t c, In t ts -> In c t -> 95 <= c <= 122 \/ 45 <= c <= 57) -> In c (join [32] ts) -> 95 <= c <= 122 \/ 45 <= c <= 57 \/ c = 32).
  { intros I. apply (E (name :: map str_of_int l)); auto.
    - intros t d [<-|J] Hd; [left; apply (name_chars name H); auto|]. apply in_map_iff in J. destruct J as [n [<- _]]. right. eapply digits_char; eauto. }
  induction ts as [|t ts IH]; intros T; [intros []|]. destruct ts as [|u ts].
  - cbn [join]. intros I. destruct (T t c (or_introl eq_refl) I); auto.
  - rewrite join_cons. intros I. apply in_app_iff in I. destruct I as [I|I]; [destruct (T t c (or_introl eq_refl) I); auto|].
    apply in_app_iff in I. destruct I as [[I|[]]|I]; [auto|]. apply IH; auto. intros t' c' J. apply T; right; auto.
Qed.
