(** Scripts: lines, comments, continuations; the shell of the library model. *)
From Verif Require Export LShell4.

(** ** The output written so far does not matter *)
Section Out.
Variables (W : world) (o : pystr).
Let g := pre_out o.

Lemma seq_g : forall r h k, (forall st, h (g st) = map_st g (k st)) -> seq_do (map_st g r) h = map_st g (seq_do r k).
Proof. intros [st [e|]] h k H; unfold map_st; cbn [fst snd seq_do]; auto. rewrite H. reflexivity. Qed.

Lemma do_each_out : forall {A} (ex : shell -> A -> outcome) l, (forall st c, ex (g st) c = map_st g (ex st c)) ->
  forall st, do_each ex l (g st) = map_st g (do_each ex l st).
Proof.
  intros A ex l H. induction l as [|c l IH]; intros st; cbn [do_each]; auto. rewrite H. apply seq_g. apply IH.
Qed.
Lemma do_times_out : forall ex k, (forall st, ex (g st) = map_st g (ex st)) ->
  forall st, do_times k ex (g st) = map_st g (do_times k ex st).
Proof.
  intros ex k H. induction k as [|k IH]; intros st; cbn [do_times]; auto. rewrite H. apply seq_g. apply IH.
Qed.

Lemma loop_out : forall ex st v, (forall st c, ex (g st) c = map_st g (ex st c)) ->
  loop_command W ex (g st) v = map_st g (loop_command W ex st v).
Proof.
  intros ex st v H. unfold loop_command. rewrite !(error_g g (neutral_out o)).
  change (loop_active (g st)) with (loop_active st). destruct (is_end v).
  - destruct (negb (loop_active st)); auto.
    change (set_prompt (g st) (command_prompt (sh_interactive (g st)))) with (g (set_prompt st (command_prompt (sh_interactive st)))).
    change (sh_loop_n (g (set_prompt st (command_prompt (sh_interactive st))))) with (sh_loop_n st).
    change (sh_loop_n (set_prompt st (command_prompt (sh_interactive st)))) with (sh_loop_n st).
    rewrite (do_times_out (fun st => do_each ex (sh_loop_list st) st)).
    + apply seq_g. reflexivity.
    + intros st1. change (sh_loop_list (g st1)) with (sh_loop_list st1). apply do_each_out; auto.
  - destruct (to_int W v) as [n|[]]; auto. destruct (0 <? n); auto. destruct (loop_active st); auto.
    change (sh_interactive (g st)) with (sh_interactive st). destruct (sh_interactive st); reflexivity.
Qed.

Lemma execute_out : forall f st c, execute f W (g st) c = map_st g (execute f W st c).
Proof.
  induction f as [|f IH]; intros st c; [reflexivity|]. rewrite !execute_S.
  rewrite <- catch_g by apply neutral_out. f_equal.
  destruct (str_eqb (c_func c) (lit "loop")) eqn:E.
  - unfold call. rewrite E. destruct (bind1 _ _ _ _); [|reflexivity]. apply loop_out. auto.
  - assert (~ is_loop c) by (intros Z; apply str_eqb_eq in Z; unfold is_loop in *; congruence).
    rewrite !call_simple by auto. apply simple_call_g; auto. apply neutral_out.
Qed.
Lemma part_out : forall f st s, execute_part f W (g st) s = map_st g (execute_part f W st s).
Proof.
  intros f st s. unfold execute_part. rewrite !(error_g g (neutral_out o)).
  destruct (parse W (strip s)) as [c|[]]; auto. destruct (str_eqb (c_func c) (lit "exit")); [apply execute_out|].
  change (loop_active (g st)) with (loop_active st). destruct (_ && _); [reflexivity|apply execute_out].
Qed.
Lemma line_out : forall f st line, execute_line f W (g st) line = map_st g (execute_line f W st line).
Proof. intros. unfold execute_line. apply do_each_out. intros; apply part_out. Qed.
End Out.

Lemma same_refl : forall st, same_but_out st st.
Proof. intros; unfold same_but_out; splits; auto. Qed.
Lemma same_trans : forall a b c, same_but_out a b -> same_but_out b c -> same_but_out a c.
Proof. unfold same_but_out; intros; intuition congruence. Qed.
Lemma same_sym : forall a b, same_but_out a b -> same_but_out b a.
Proof. unfold same_but_out; intros; intuition congruence. Qed.
Lemma same_add : forall a t, same_but_out (add_out a t) a.
Proof. intros; unfold same_but_out; splits; auto. Qed.

Definition no_out (st : shell) : shell :=
  mkShell (sh_interactive st) (sh_prompt st) (sh_heap st) (sh_cur st) (sh_running st) (sh_loop_n st) (sh_loop_list st)
    (sh_stack st) [] (sh_err st) (sh_calls st).
Lemma pre_no_out : forall st, pre_out (sh_out st) (no_out st) = st.
Proof. intros []; unfold pre_out, no_out; cbn. rewrite app_nil_r. reflexivity. Qed.
Lemma same_no_out : forall a b, same_but_out a b -> no_out a = no_out b.
Proof.
  intros a b H. destruct a, b. unfold same_but_out in H. cbn in H. unfold no_out; cbn. destruct H as [-> [-> [-> [-> [-> [-> [-> [-> [-> ->]]]]]]]]]. reflexivity.
Qed.

Lemma line_same : forall f W a b line, same_but_out a b ->
  snd (execute_line f W a line) = snd (execute_line f W b line) /\
  same_but_out (fst (execute_line f W a line)) (fst (execute_line f W b line)).
Proof.
  intros f W a b line H. rewrite <- (pre_no_out a), <- (pre_no_out b), !line_out, (same_no_out _ _ H). cbn [map_st fst snd].
  split; auto. unfold same_but_out; splits; auto.
Qed.

(** ** Lines *)
Lemma cut_cons : forall sep c t, cut sep (c :: t) =
  if starts_with sep (c :: t) then Some ([], skipn (length sep) (c :: t))
  else match cut sep t with Some (a, b) => Some (c :: a, b) | None => None end.
Proof. reflexivity. Qed.
Lemma cut_hash : forall a b, ~ In 35 a -> cut (lit "#") (a ++ 35 :: b) = Some (a, b).
Proof.
  intros a b H. change (lit "#") with [35]. induction a as [|x a IH].
  - reflexivity.
  - rewrite <- app_comm_cons, cut_cons. cbn [starts_with]. destruct (Z.eqb_spec 35 x) as [E|N]; [exfalso; apply H; left; auto|]. cbn [andb].
    rewrite IH; auto. intros I; apply H; right; auto.
Qed.
Lemma cut_none : forall a, ~ In 35 a -> cut (lit "#") a = None.
Proof.
  intros a H. change (lit "#") with [35]. induction a as [|x a IH]; [reflexivity|]. rewrite cut_cons. cbn [starts_with].
  destruct (Z.eqb_spec 35 x) as [E|N]; [exfalso; apply H; left; auto|]. cbn [andb]. rewrite IH; auto. intros I; apply H; right; auto.
Qed.

Lemma replace_app : forall a b, replace_char 10 [] (a ++ b) = replace_char 10 [] a ++ replace_char 10 [] b.
Proof. intros. unfold replace_char. apply flat_map_app. Qed.
Lemma replace_in : forall a x, In x (replace_char 10 [] a) -> In x a.
Proof.
  intros a x H. unfold replace_char in H. apply in_flat_map in H. destruct H as [y [Hy H]]. destruct (y =? 10); [destruct H|].
  destruct H as [<-|[]]; auto.
Qed.

Lemma text_comment : forall a b, ~ In 35 a -> line_text (a ++ 35 :: b) = line_text a.
Proof.
  intros a b H. unfold line_text. rewrite replace_app.
  change (replace_char 10 [] (35 :: b)) with (35 :: replace_char 10 [] b).
  rewrite cut_hash, cut_none; auto; intros I; apply replace_in in I; auto.
Qed.
Lemma text_newline : forall a, line_text (a ++ [10]) = line_text a.
Proof. intros a. unfold line_text. rewrite replace_app. cbn. rewrite app_nil_r. reflexivity. Qed.
Lemma text_plain : forall a, ~ In 35 a -> ~ In 10 a -> line_text a = strip a.
Proof.
  intros a H N. unfold line_text. replace (replace_char 10 [] a) with a; [rewrite cut_none; auto|].
  clear H. induction a as [|x a IH]; [reflexivity|]. unfold replace_char. cbn [flat_map].
  destruct (Z.eqb_spec x 10) as [->|]; [exfalso; apply N; left; auto|]. cbn [app]. f_equal. apply IH. intros I; apply N; right; auto.
Qed.

Section Run.
Variable W : world.

Definition logical_from (pending : pystr) (input : list pystr) : list pystr :=
  match logical_lines input with
  | [] => []
  | x :: xs => (pending ++ x) :: xs
  end.

Lemma run_same : forall input pending a b, (forall l, In l input -> l <> []) -> same_but_out a b ->
  snd (run_loop 2 W input pending a) = snd (run_logical W (logical_from pending input) b) /\
  same_but_out (fst (run_loop 2 W input pending a)) (fst (run_logical W (logical_from pending input) b)).
Proof.
  induction input as [|line input IH]; intros pending a b Hin S; cbn [run_loop].
  - unfold logical_from. cbn [logical_lines run_logical]. replace (sh_running a) with (sh_running b) by (unfold same_but_out in S; intuition congruence).
    destruct (sh_running b); [|split; auto]. cbn [add_out sh_interactive].
    destruct (sh_interactive a); split; auto; eapply same_trans; eauto; unfold same_but_out; splits; auto.
  - destruct (sh_running a) eqn:Ra.
    2: { assert (Rb : sh_running b = false) by (unfold same_but_out in S; intuition congruence).
         assert (X : run_logical W (logical_from pending (line :: input)) b = done b).
         { destruct (logical_from pending (line :: input)); cbn [run_logical]; rewrite Rb; reflexivity. }
         rewrite X. split; auto. }
    assert (Rb : sh_running b = true) by (unfold same_but_out in S; intuition congruence).
    assert (Hl : line <> []) by (apply Hin; left; auto). destruct line as [|x0 line]; [contradiction|].
    assert (Hin' : forall l, In l input -> l <> []) by (intros; apply Hin; right; auto).
    set (ln := x0 :: line) in *. clearbody ln.
    assert (S' : same_but_out (add_out a (sh_prompt a)) b) by (eapply same_trans; [apply same_add|auto]).
    unfold logical_from. cbn [logical_lines]. destruct (ends_with_backslash (line_text ln)) eqn:Eb.
    + specialize (IH (pending ++ removelast (line_text ln)) (add_out a (sh_prompt a)) b Hin' S').
      unfold logical_from in IH. destruct (logical_lines input) as [|x xs]; auto. rewrite app_assoc. auto.
    + cbn [run_logical]. rewrite Rb.
      assert (X : forall st, run_logical W (logical_lines input) st = run_logical W (logical_from [] input) st).
      { intros st. unfold logical_from. destruct (logical_lines input); reflexivity. }
      destruct (pending ++ line_text ln) as [|y ys] eqn:Ep.
      * cbn [seq_do done]. rewrite X. apply IH; auto.
      * destruct (line_same 2 W _ _ (y :: ys) S') as [L1 L2].
        destruct (execute_line 2 W (add_out a (sh_prompt a)) (y :: ys)) as [a1 [e|]], (execute_line 2 W b (y :: ys)) as [b1 [e'|]];
          cbn [fst snd seq_do] in *; try discriminate; auto. rewrite X. apply IH; auto.
Qed.

Lemma run_lines : forall input st, (forall l, In l input -> l <> []) ->
  snd (run_loop 2 W input [] st) = snd (run_logical W (logical_lines input) st) /\
  same_but_out (fst (run_loop 2 W input [] st)) (fst (run_logical W (logical_lines input) st)).
Proof.
  intros input st H. pose proof (run_same input [] st st H (same_refl st)) as X. unfold logical_from in X.
  destruct (logical_lines input); auto.
Qed.

(** ** Semicolons *)
Lemma split_app : forall c a b, split_go [c] (a ++ c :: b) 0 = split_go [c] a 0 ++ split_go [c] b 0.
Proof.
  intros c a b. induction a as [|x a IH]; cbn [app split_go starts_with].
  - rewrite Z.eqb_refl. cbn [andb length Nat.sub app]. reflexivity.
  - destruct ((c =? x) && true); [cbn [length Nat.sub]; rewrite IH; reflexivity|]. rewrite IH.
    pose proof (split_go_nonempty [c] a 0). destruct (split_go [c] a 0); [contradiction|]. reflexivity.
Qed.
Lemma do_each_app : forall {A} (f : shell -> A -> outcome) l m st, do_each f (l ++ m) st = seq_do (do_each f l st) (do_each f m).
Proof.
  intros A f l m. induction l as [|x l IH]; intros st; cbn [do_each app]; auto.
  destruct (f st x) as [st1 [e|]]; cbn [seq_do]; auto.
Qed.
Lemma line_semicolon : forall f st a b, execute_line f W st (a ++ 59 :: b) = seq_do (execute_line f W st a) (fun st => execute_line f W st b).
Proof. intros. unfold execute_line. change (lit ";") with [59]. rewrite split_app, do_each_app. reflexivity. Qed.

Lemma semicolon_lines : forall st a b, a <> [] -> b <> [] ->
  (forall st', execute_line 2 W st a = (st', None) -> sh_running st' = true) -> sh_running st = true ->
  run_logical W [a ++ 59 :: b] st = run_logical W [a; b] st.
Proof.
  intros st a b Ha Hb H R. cbn [run_logical]. rewrite R. destruct a as [|x a]; [contradiction|]. destruct b as [|y b]; [contradiction|].
  rewrite <- app_comm_cons, app_comm_cons, line_semicolon.
  destruct (execute_line 2 W st (x :: a)) as [st1 [e|]]; cbn [seq_do]; auto.
  rewrite (H st1 eq_refl). reflexivity.
Qed.

(** ** exit *)
Lemma parse_exit : parse W (strip (lit "exit")) = Ok (mkCommand (lit "exit") [lit "shell"] [] []).
Proof. vm_compute. reflexivity. Qed.
Lemma exit_now : forall f st, execute_part (S f) W st (lit "exit") = done (set_running st false).
Proof. intros f st. unfold execute_part. rewrite parse_exit. reflexivity. Qed.

(** ** Depth of the recursion *)
Lemma part_depth : forall f st s, shell_inv st -> execute_part (S (S f)) W st s = execute_part 2 W st s.
Proof.
  intros f st s I. unfold execute_part. destruct (parse W (strip s)) as [c|[]]; auto.
  assert (X : execute (S (S f)) W st c = execute 2 W st c).
  { destruct (str_eqb (c_func c) (lit "loop")) eqn:E.
    - rewrite !execute_S. unfold call. rewrite E. destruct (bind1 _ _ _ _) as [v|]; auto. f_equal.
      destruct (is_end v) eqn:Ev.
      + destruct (sh_loop_n st) as [n|] eqn:En.
        * rewrite !(loop_end_run W _ st I n En v Ev). reflexivity.
        * unfold loop_command. rewrite Ev, loop_active_spec, En by auto. reflexivity.
      + unfold loop_command. rewrite Ev. reflexivity.
    - assert (~ is_loop c) by (intros Z; apply str_eqb_eq in Z; unfold is_loop in *; congruence). rewrite !execute_simple; auto. }
  rewrite X. reflexivity.
Qed.
End Run.
