(** The shell without the assert statements. *)
From Verif Require Export LShell4 SpecShellO.

Definition grows (st : shell) (o : outcome) : Prop := exists l, sh_err (fst o) = sh_err st ++ l.

Lemma grows_same : forall st o, sh_err (fst o) = sh_err st -> grows st o.
Proof. intros st o E. exists []. rewrite app_nil_r. auto. Qed.
Lemma grows_error : forall st st1 m, sh_err st1 = sh_err st -> grows st (error st1 m).
Proof. intros st st1 m E. exists [m]. unfold error. destruct (sh_interactive _); cbn [fst done add_err sh_err]; rewrite E; reflexivity. Qed.
Lemma error_loud : forall st st1 m, sh_err st1 = sh_err st -> ~ quiet st (error st1 m).
Proof.
  intros st st1 m E Q. unfold quiet, error in Q. destruct (sh_interactive _); cbn [fst done add_err sh_err] in Q; rewrite E in Q;
    apply (f_equal (@length _)) in Q; rewrite app_length in Q; cbn [length] in Q; lia.
Qed.
Lemma grows_seq : forall st o g, grows st o -> (forall st1, grows st1 (g st1)) -> grows st (seq_do o g).
Proof.
  intros st [st1 [e|]] g [l E] G; cbn [seq_do fst] in *; [exists l; auto|].
  destruct (G st1) as [l' E']. exists (l ++ l'). rewrite E', E, app_assoc. reflexivity.
Qed.
Lemma grows_catch : forall st o, grows st o -> grows st (catch o).
Proof.
  intros st [st1 [e|]] [l E]; unfold catch; cbn [fst] in *; [|exists l; auto].
  destruct (is_exception e); [|exists l; auto]. destruct (grows_error st1 st1 (MExn e) eq_refl) as [l' E'].
  exists (l ++ l'). rewrite E', E, app_assoc. reflexivity.
Qed.
Lemma quiet_seq : forall st o g, grows st o -> (forall st1, grows st1 (g st1)) -> quiet st (seq_do o g) ->
  quiet st o /\ (forall st1, o = (st1, None) -> quiet st1 (g st1)).
Proof.
  intros st [st1 [e|]] g [l E] G Q; unfold quiet in *; cbn [seq_do fst] in *; [split; auto; discriminate|].
  destruct (G st1) as [l' E']. assert (l = [] /\ l' = []) as [-> ->].
  { rewrite E', E, <- app_assoc in Q. apply (f_equal (@length _)) in Q. rewrite !app_length in Q.
    destruct l, l'; cbn [length] in Q; auto; lia. }
  rewrite app_nil_r in *. split; auto. intros st2 [= <-]. auto.
Qed.
Lemma quiet_catch : forall st o, grows st o -> quiet st (catch o) -> quiet st o.
Proof.
  intros st [st1 [e|]] [l E] Q; unfold catch, quiet in *; cbn [fst] in *; auto.
  destruct (is_exception e); auto. exfalso. destruct (grows_error st1 st1 (MExn e) eq_refl) as [l' E'].
  assert (~ quiet st1 (error st1 (MExn e))) as N by (apply error_loud; auto). apply N. unfold quiet.
  rewrite E', E, <- app_assoc in Q. apply (f_equal (@length _)) in Q. rewrite !app_length in Q.
  destruct l'; cbn [length] in *; [rewrite app_nil_r in E'; auto|lia].
Qed.

Lemma grows_each : forall A (f : shell -> A -> outcome), (forall st x, grows st (f st x)) -> forall l st, grows st (do_each f l st).
Proof. intros A f H l. induction l as [|x l IH]; intros st; cbn [do_each]; [apply grows_same; auto|apply grows_seq; auto]. Qed.
Lemma grows_times : forall f, (forall st, grows st (f st)) -> forall k st, grows st (do_times k f st).
Proof. intros f H k. induction k as [|k IH]; intros st; cbn [do_times]; [apply grows_same; auto|apply grows_seq; auto]. Qed.
Lemma same_each : forall A (f g : shell -> A -> outcome), (forall st x, grows st (f st x)) ->
  (forall st x, quiet st (f st x) -> g st x = f st x) -> forall l st, quiet st (do_each f l st) -> do_each g l st = do_each f l st.
Proof.
  intros A f g G H l. induction l as [|x l IH]; intros st Q; cbn [do_each] in *; auto.
  destruct (quiet_seq st (f st x) (do_each f l)) as [Q1 Q2]; auto; [apply grows_each; auto|].
  rewrite (H _ _ Q1). destruct (f st x) as [st1 [e|]]; cbn [seq_do]; auto.
Qed.
Lemma same_times : forall f g, (forall st, grows st (f st)) ->
  (forall st, quiet st (f st) -> g st = f st) -> forall k st, quiet st (do_times k f st) -> do_times k g st = do_times k f st.
Proof.
  intros f g G H k. induction k as [|k IH]; intros st Q; cbn [do_times] in *; auto.
  destruct (quiet_seq st (f st) (do_times k f)) as [Q1 Q2]; auto; [apply grows_times; auto|].
  rewrite (H _ Q1). destruct (f st) as [st1 [e|]]; cbn [seq_do]; auto.
Qed.

Lemma grows_pre : forall st st1 o, sh_err st1 = sh_err st -> grows st1 o -> grows st o.
Proof. intros st st1 o E [l H]. exists l. congruence. Qed.

Section Exec.
Variable W : world.

Lemma grows_loop : forall exec st v, (forall st c, grows st (exec st c)) -> grows st (loop_command W exec st v).
Proof.
  intros exec st v H. unfold loop_command. destruct (is_end v).
  - destruct (negb (loop_active st)); [apply grows_error; auto|]. cbv zeta. apply grows_seq.
    + eapply grows_pre; [|apply grows_times; intros st1; apply grows_each; auto]. reflexivity.
    + intros st1. apply grows_same; reflexivity.
  - cbv zeta. destruct (to_int W v) as [n|e]; [|destruct e; try (apply grows_same; reflexivity); apply grows_error; auto].
    destruct (0 <? n); [|apply grows_error; auto]. destruct (loop_active st); [apply grows_error; auto|].
    apply grows_same. destruct (sh_interactive st); reflexivity.
Qed.
Lemma grows_stack_pop : forall st p, grows st (stack_pop st p).
Proof. intros st p. unfold stack_pop. destruct (nth_error _ _); apply grows_same; reflexivity. Qed.
Lemma grows_pop : forall st v, grows st (pop_command W st v).
Proof.
  intros st v. unfold pop_command. destruct (sh_stack st) eqn:Es; [apply grows_error; auto|]. rewrite <- Es in *.
  destruct v; try apply grows_stack_pop; cbv zeta;
    (destruct (to_int W _) as [pos|e]; [destruct (_ && _); [apply grows_stack_pop|apply grows_error; auto]|
     destruct e; try (apply grows_same; reflexivity); apply grows_error; auto]).
Qed.
Lemma grows_result : forall st st1 r, sh_err st1 = sh_err st -> grows st (handle_result st1 r).
Proof. intros st st1 r E. destruct r; apply grows_same; cbn; auto. Qed.
Lemma grows_call : forall exec st c, (forall st c, grows st (exec st c)) -> grows st (call W exec st c).
Proof.
  intros exec st c H. unfold call. cbv zeta.
  destruct (str_eqb _ (lit "loop")); [destruct (bind1 _ _ _ _); [apply grows_loop; auto|apply grows_same; auto]|].
  destruct (str_eqb _ (lit "exit")); [destruct (bind0 _ _); apply grows_same; auto|].
  destruct (str_eqb _ (lit "push")).
  { destruct (bind0 _ _); [|apply grows_same; auto]. unfold push_command. destruct (nth_error _ _); [|apply grows_same; auto].
    destruct (copy _ _); apply grows_same; auto. }
  destruct (str_eqb _ (lit "pop")); [destruct (bind1 _ _ _ _); [apply grows_pop|apply grows_same; auto]|].
  destruct (str_eqb _ (lit "stack")); [destruct (bind0 _ _); apply grows_same; auto|].
  destruct (str_mem _ _).
  - destruct (nth_error _ _); [|apply grows_same; auto]. destruct (w_sudoku _ _ _ _ _ _) as [s' r]. apply grows_result; reflexivity.
  - apply grows_result; reflexivity.
Qed.
Lemma grows_execute : forall f st c, grows st (execute f W st c).
Proof.
  induction f as [|f IH]; intros st c; [apply grows_same; reflexivity|]. rewrite execute_S. apply grows_catch, grows_call; auto.
Qed.

Lemma execute_O_S : forall f st c, execute_O (S f) W st c = catch (call_O W (execute_O f W) st c).
Proof. intros. cbn [execute_O]. unfold catch. destruct (call_O W (execute_O f W) st c) as [st' [e|]]; reflexivity. Qed.

Lemma stack_pop_O_in : forall st k p, list_position (length (sh_stack st)) k p -> stack_pop_O st k = stack_pop st p.
Proof.
  intros st k p [L H]. unfold stack_pop_O, py_len. cbv zeta.
  assert (X : (if k <? 0 then k + Z.of_nat (length (sh_stack st)) else k) = Z.of_nat p) by (destruct (k <? 0) eqn:E; b2p; lia).
  rewrite X. replace ((Z.of_nat p <? 0) || (Z.of_nat (length (sh_stack st)) <=? Z.of_nat p)) with false.
  - rewrite Nat2Z.id. reflexivity.
  - symmetry. apply orb_false_intro; [apply Z.ltb_ge|apply Z.leb_gt]; lia.
Qed.
Lemma stack_pop_O_out : forall st k, (forall p, ~ list_position (length (sh_stack st)) k p) -> stack_pop_O st k = (st, Some IndexError).
Proof.
  intros st k H. unfold stack_pop_O, py_len. cbv zeta.
  set (q := if k <? 0 then k + Z.of_nat (length (sh_stack st)) else k).
  destruct ((q <? 0) || (Z.of_nat (length (sh_stack st)) <=? q)) eqn:E; auto. exfalso. apply orb_false_elim in E. destruct E as [E1 E2]. b2p.
  apply (H (Z.to_nat q)). split; [lia|]. unfold q in *. destruct (k <? 0) eqn:Ek; b2p; lia.
Qed.

Lemma pop_O_same : forall st v, quiet st (pop_command W st v) -> pop_command_O W st v = pop_command W st v.
Proof.
  intros st v Q. unfold pop_command, pop_command_O in *. destruct (sh_stack st) as [|a l] eqn:Es; auto. rewrite <- Es in *.
  assert (Ln : (0 < length (sh_stack st))%nat) by (rewrite Es; cbn [length]; lia).
  destruct v; try (apply stack_pop_O_in; split; [lia|]; left; unfold py_len; lia); cbv zeta in *;
    (destruct (to_int W _) as [pos|e]; auto;
     destruct ((0 <=? pos) && (pos <? py_len (sh_stack st))) eqn:Y; [|exfalso; eapply error_loud; [|exact Q]; auto];
     unfold py_len in *; apply andb_prop in Y; destruct Y as [Y1 Y2]; b2p; apply stack_pop_O_in; split; [lia|]; left; lia).
Qed.

Lemma loop_O_same : forall exec exec' st v, (forall st c, grows st (exec st c)) ->
  (forall st c, quiet st (exec st c) -> exec' st c = exec st c) ->
  quiet st (loop_command W exec st v) -> loop_command_O W exec' st v = loop_command W exec st v.
Proof.
  intros exec exec' st v G H Q. unfold loop_command, loop_command_O in *. destruct (is_end v).
  - destruct (negb (loop_active st)); auto. cbv zeta in *.
    match type of Q with quiet st (seq_do (do_times ?k _ ?s) ?g) => set (k' := k) in *; set (s' := s) in *; destruct (quiet_seq s' (do_times k' (fun st => do_each exec (sh_loop_list st) st) s') g) as [Q1 _]; auto end.
    + apply grows_times. intros st1. apply grows_each; auto.
    + intros st1. apply grows_same; reflexivity.
    + rewrite (same_times (fun st => do_each exec (sh_loop_list st) st) (fun st => do_each exec' (sh_loop_list st) st)); auto.
      * intros st1. apply grows_each; auto.
      * intros st1 Q2. apply same_each; auto.
  - cbv zeta in *. destruct (to_int W v) as [n|e]; auto. destruct (0 <? n); auto. exfalso; eapply error_loud; [|exact Q]; auto.
Qed.

Lemma call_O_same : forall exec exec' st c, (forall st c, grows st (exec st c)) ->
  (forall st c, quiet st (exec st c) -> exec' st c = exec st c) ->
  quiet st (call W exec st c) -> call_O W exec' st c = call W exec st c.
Proof.
  intros exec exec' st c G H Q. unfold call_O. destruct (str_eqb (c_func c) (lit "loop")) eqn:El.
  - unfold call in *. cbv zeta in *. rewrite El in *. destruct (bind1 _ _ _ _); auto. apply loop_O_same; auto.
  - destruct (str_eqb (c_func c) (lit "pop")) eqn:Ep.
    + apply str_eqb_eq in Ep. unfold call in *. cbv zeta in *. rewrite Ep in *. change (str_eqb (lit "pop") (lit "loop")) with false in *.
      change (str_eqb (lit "pop") (lit "exit")) with false in *. change (str_eqb (lit "pop") (lit "push")) with false in *.
      change (str_eqb (lit "pop") (lit "pop")) with true in *. cbv iota in *. destruct (bind1 _ _ _ _); auto. apply pop_O_same; auto.
    + unfold call. cbv zeta. rewrite El. reflexivity.
Qed.

Lemma execute_O_same : forall f st c, quiet st (execute f W st c) -> execute_O f W st c = execute f W st c.
Proof.
  induction f as [|f IH]; intros st c Q; auto. rewrite execute_O_S, execute_S in *.
  rewrite (call_O_same (execute f W)); auto; [apply grows_execute|].
  apply quiet_catch in Q; auto. apply grows_call, grows_execute.
Qed.
Lemma part_O_same : forall f st s, quiet st (execute_part f W st s) -> execute_part_O f W st s = execute_part f W st s.
Proof.
  intros f st s Q. unfold execute_part, execute_part_O in *. cbv zeta in *. destruct (parse W (strip s)) as [c|e]; auto.
  destruct (str_eqb (c_func c) (lit "exit")); [apply execute_O_same; auto|].
  destruct (_ && _); auto. apply execute_O_same; auto.
Qed.
Lemma grows_part : forall f st s, grows st (execute_part f W st s).
Proof.
  intros f st s. unfold execute_part. cbv zeta. destruct (parse W (strip s)) as [c|e].
  - destruct (str_eqb (c_func c) (lit "exit")); [apply grows_execute|]. destruct (_ && _); [apply grows_same; reflexivity|apply grows_execute].
  - destruct e; try (apply grows_same; reflexivity); apply grows_error; auto.
Qed.
Theorem C136_same_proof : forall f st line, quiet st (execute_line f W st line) -> execute_line_O f W st line = execute_line f W st line.
Proof. intros f st line Q. unfold execute_line_O. apply same_each; auto; [apply grows_part|apply part_O_same]. Qed.

Lemma loop_call_O : forall exec st c v, loop_arg c v -> call_O W exec st c = loop_command_O W exec st v.
Proof. intros exec st c v [F [[A K]|[A K]]]; unfold call_O; rewrite F, A, K; reflexivity. Qed.
Lemma pop_call_O : forall exec st c v, pop_arg c v -> call_O W exec st c = pop_command_O W st v.
Proof. intros exec st c v [F [[A K]|[[A K]|[A [K ->]]]]]; unfold call_O; rewrite F, A, K; reflexivity. Qed.
Lemma part_loop_O : forall f st s c v, parse W (strip s) = Ok c -> loop_arg c v ->
  execute_part_O (S f) W st s = catch (loop_command_O W (execute_O f W) st v).
Proof.
  intros f st s c v P A. unfold execute_part_O. rewrite P. assert (F : c_func c = lit "loop") by apply A.
  rewrite F. change (str_eqb (lit "loop") (lit "exit")) with false. change (str_eqb (lit "loop") (lit "loop")) with true.
  cbn [negb]. rewrite andb_false_r. rewrite execute_O_S, (loop_call_O _ _ _ _ A). reflexivity.
Qed.
Lemma inactive : forall st, sh_loop_n st = None \/ sh_loop_n st = Some 0 -> loop_active st = false.
Proof. intros st H. unfold loop_active. destruct H as [-> | ->]; reflexivity. Qed.
Lemma catch_error : forall st m, catch (error st m) = error st m.
Proof. intros st m. unfold error. destruct (sh_interactive (add_err st m)); reflexivity. Qed.

Lemma loop_O_start : forall f st s c v n, (sh_loop_n st = None \/ sh_loop_n st = Some 0) -> parse W (strip s) = Ok c -> loop_arg c v -> as_int W v n ->
  execute_part_O (S f) W st s =
    (set_prompt (set_loop st (Some n) (sh_loop_list st)) (if sh_interactive st then lit "loop " ++ str_of_int n ++ lit "> " else sh_prompt st), None).
Proof.
  intros f st s c v n L P A T. rewrite (part_loop_O f st s c v P A). unfold loop_command_O.
  rewrite (as_int_not_end _ _ _ T), (proj1 (as_int_iff _ _ _) T), inactive by auto.
  destruct (sh_interactive st) eqn:Ei; [reflexivity|]. destruct st; reflexivity.
Qed.
Lemma loop_O_end0 : forall f st s c v, (sh_loop_n st = None \/ sh_loop_n st = Some 0) -> parse W (strip s) = Ok c -> loop_arg c v -> end_value v ->
  execute_part_O (S f) W st s = error st (MText (lit "No loop defined.")).
Proof.
  intros f st s c v L P A T. rewrite (part_loop_O f st s c v P A). unfold loop_command_O.
  rewrite (proj1 (end_value_iff _) T), inactive by auto. apply catch_error.
Qed.
Lemma loop_O_direct : forall f st s c, sh_loop_n st = Some 0 -> parse W (strip s) = Ok c ->
  execute_part_O f W st s = execute_O f W st c.
Proof.
  intros f st s c L P. unfold execute_part_O. rewrite P, inactive by auto. cbn [andb]. destruct (str_eqb _ _); auto.
Qed.
Lemma loop_O_note : forall f st s c n, sh_loop_n st = Some n -> n <> 0 -> parse W (strip s) = Ok c -> ~ is_loop c -> ~ is_exit c ->
  execute_part_O f W st s = done (set_loop st (Some n) (sh_loop_list st ++ [c])).
Proof.
  intros f st s c n L N P H1 H2. unfold execute_part_O. rewrite P. unfold loop_active. rewrite L.
  rewrite (str_eqb_false _ _ H2), (str_eqb_false _ _ H1). replace (n =? 0) with false by (symmetry; apply Z.eqb_neq; auto). reflexivity.
Qed.
Lemma body_note : forall f n parts cs st, n <> 0 -> sh_loop_n st = Some n ->
  Forall2 (fun s c => parse W (strip s) = Ok c /\ ~ is_loop c /\ ~ is_exit c) parts cs ->
  do_each (execute_part_O f W) parts st = done (set_loop st (Some n) (sh_loop_list st ++ cs)).
Proof.
  intros f n parts cs st N L H. revert st L. induction H as [|s c parts cs [H1 [H2 H3]] H IH]; intros st L; cbn [do_each].
  - rewrite app_nil_r, <- L. destruct st; reflexivity.
  - rewrite (loop_O_note f st s c n L N H1 H2 H3). cbn [seq_do done]. rewrite IH; auto. cbn [sh_loop_list set_loop]. rewrite <- app_assoc. reflexivity.
Qed.
Lemma do_each_app : forall A (f : shell -> A -> outcome) l1 l2 st, do_each f (l1 ++ l2) st = seq_do (do_each f l1 st) (do_each f l2).
Proof.
  intros A f l1 l2. induction l1 as [|x l1 IH]; intros st; cbn [do_each app]; [reflexivity|].
  destruct (f st x) as [st1 [e|]]; cbn [seq_do]; auto.
Qed.
Lemma loop_O_negative : forall f st s0 c0 v0 n s1 c1 v1 parts cs, sh_loop_n st = None -> sh_loop_list st = [] -> sh_prompt st = command_prompt (sh_interactive st) ->
  parse W (strip s0) = Ok c0 -> loop_arg c0 v0 -> as_int W v0 n -> n < 0 ->
  parse W (strip s1) = Ok c1 -> loop_arg c1 v1 -> end_value v1 ->
  Forall2 (fun s c => parse W (strip s) = Ok c /\ ~ is_loop c /\ ~ is_exit c) parts cs ->
  do_each (execute_part_O (S f) W) ([s0] ++ parts ++ [s1]) st = (st, None).
Proof.
  intros f st s0 c0 v0 n s1 c1 v1 parts cs L Ll Lp P0 A0 T0 N P1 A1 V1 H. cbn [app do_each].
  rewrite (loop_O_start f st s0 c0 v0 n (or_introl L) P0 A0 T0). cbn [seq_do]. rewrite do_each_app.
  rewrite (body_note (S f) n parts cs); auto; [|lia]. cbn [seq_do done do_each sh_loop_list set_loop set_prompt].
  rewrite (part_loop_O f _ s1 c1 v1 P1 A1). unfold loop_command_O. rewrite (proj1 (end_value_iff _) V1).
  unfold loop_active. cbn [sh_loop_n set_loop]. replace (n =? 0) with false by (symmetry; apply Z.eqb_neq; lia). cbn [negb sh_loop_n set_prompt set_loop].
  replace (Z.to_nat n) with O by lia. cbn [do_times seq_do done catch]. destruct st; cbn in *. subst. unfold done. f_equal.
Qed.

Lemma pop_O_part : forall f st s c v, loop_active st = false -> parse W (strip s) = Ok c -> pop_arg c v ->
  execute_part_O (S f) W st s = catch (pop_command_O W st v).
Proof.
  intros f st s c v L P A. unfold execute_part_O. rewrite P, L. cbn [andb]. rewrite execute_O_S, (pop_call_O _ _ _ _ A).
  destruct (str_eqb _ _); reflexivity.
Qed.
Lemma pop_O_int : forall st v k, sh_stack st <> [] -> as_int W v k -> pop_command_O W st v = stack_pop_O st k.
Proof.
  intros st v k E T. unfold pop_command_O. destruct (sh_stack st) eqn:Es; [congruence|].
  apply as_int_iff in T. destruct v; try (rewrite T; reflexivity). discriminate T.
Qed.
End Exec.
