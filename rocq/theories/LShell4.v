(** Errors. *)
From Verif Require Export LShell3.

Lemma str_mem_In : forall s l, str_mem s l = true <-> In s l.
Proof.
  intros s l. unfold str_mem. rewrite existsb_exists. split.
  - intros [x [H E]]. apply str_eqb_eq in E. subst; auto.
  - intros H. exists s. split; auto. apply str_eqb_refl.
Qed.

Lemma failed_refl : forall W st c, failed_call W st c st.
Proof. intros. unfold failed_call. splits; auto. Qed.
Lemma failed_err : forall W st c st' m, failed_call W st c st' -> failed_call W st c (add_err st' m).
Proof. intros W st c st' m H. exact H. Qed.
Lemma failed_next : forall W st c st', failed_call W st c st' -> failed_call W st c (next_call st').
Proof. intros W st c st' H. exact H. Qed.

Section Err.
Variable W : world.
Hypothesis HW : world_ok W.

(** What a command other than loop does: it succeeds silently, raises an exception, or reports an error. *)
Lemma simple_cases : forall st c, mem_ok st -> ~ is_loop c ->
  (snd (simple_call W st c) = None /\ sh_err (fst (simple_call W st c)) = sh_err st) \/
  (exists e, snd (simple_call W st c) = Some e /\ is_exception e = true /\
     failed_call W st c (fst (simple_call W st c)) /\ sh_err (fst (simple_call W st c)) = sh_err st) \/
  (exists m, simple_call W st c = error st m).
Proof.
  intros st c M H. unfold simple_call, call. rewrite (str_eqb_false _ _ H).
  assert (B0 : forall e, bind0 (c_args c) (c_kwargs c) = Err e -> e = TypeError).
  { intros e. unfold bind0. destruct (c_args c), (c_kwargs c); intros X; inv X; auto. }
  assert (B1 : forall n d e, bind1 n d (c_args c) (c_kwargs c) = Err e -> e = TypeError).
  { intros n d e. unfold bind1. destruct (c_args c) as [|v [|]], (c_kwargs c) as [|[k x] [|]], d; try (destruct (str_eqb k n)); intros X; inv X; auto. }
  assert (F : forall e, is_exception e = true -> forall o, o = (st, Some e) ->
    exists e, snd o = Some e /\ is_exception e = true /\ failed_call W st c (fst o) /\ sh_err (fst o) = sh_err st).
  { intros e He o ->. exists e. splits; auto. apply failed_refl. }
  destruct (str_eqb (c_func c) (lit "exit")).
  { destruct (bind0 _ _) as [|e] eqn:E; [left; auto|]. right; left. rewrite (B0 e eq_refl). apply (F TypeError); auto. }
  destruct (str_eqb (c_func c) (lit "push")).
  { destruct (bind0 _ _) as [|e] eqn:E; [|right; left; rewrite (B0 e eq_refl); apply (F TypeError); auto].
    unfold push_command. destruct (nth_error _ _) as [s|] eqn:En; [|right; left; apply (F AttributeError); auto].
    rewrite copy_ok_true by (apply (mo_heap _ M); eapply nth_error_In; eauto). left; auto. }
  destruct (str_eqb (c_func c) (lit "pop")).
  { destruct (bind1 _ _ _ _) as [v|e] eqn:E; [|right; left; rewrite (B1 _ _ e E); apply (F TypeError); auto].
    unfold pop_command. destruct (sh_stack st) as [|x l] eqn:Es; [right; right; eauto|]. rewrite <- Es in *.
    assert (P : forall p, (snd (stack_pop st p) = None /\ sh_err (fst (stack_pop st p)) = sh_err st) \/
      (exists e, snd (stack_pop st p) = Some e /\ is_exception e = true /\ failed_call W st c (fst (stack_pop st p)) /\ sh_err (fst (stack_pop st p)) = sh_err st) \/
      (exists m, stack_pop st p = error st m)).
    { intros p. unfold stack_pop. destruct (nth_error (sh_stack st) p); [left; auto|]. right; left. apply (F IndexError); auto. }
    assert (X : forall u, (u = VNone -> False) -> let o := match to_int W u with
       | Ok p => if (0 <=? p) && (p <? py_len (sh_stack st)) then stack_pop st (Z.to_nat p) else error st (MText (lit "0 <= position < len(stack)"))
       | Err ValueError => error st (MText (lit "0 <= position < len(stack)"))
       | Err e => (st, Some e) end in
       (snd o = None /\ sh_err (fst o) = sh_err st) \/
      (exists e, snd o = Some e /\ is_exception e = true /\ failed_call W st c (fst o) /\ sh_err (fst o) = sh_err st) \/
      (exists m, o = error st m)).
    { intros u Nu. cbv zeta. destruct (to_int W u) as [p|e] eqn:Eu.
      - destruct (_ && _); [apply P|right; right; eauto].
      - assert (is_exception e = true).
        { destruct u; cbn in Eu; inv Eu; auto; try (apply (wo_int _ HW _ _ H1); fail). apply int_of_str_exn in H1. subst; auto. }
        destruct e; try discriminate; try (right; right; eauto; fail); right; left; (eapply F; [|reflexivity]); auto. }
    destruct v; try (apply P); apply X; discriminate. }
  destruct (str_eqb (c_func c) (lit "stack")).
  { destruct (bind0 _ _) as [|e] eqn:E; [left; auto|]. right; left. rewrite (B0 e eq_refl). apply (F TypeError); auto. }
  assert (R : forall st1 r, result_ok r -> failed_call W st c st1 -> sh_err st1 = sh_err st -> let o := handle_result st1 r in
     (snd o = None /\ sh_err (fst o) = sh_err st) \/
      (exists e, snd o = Some e /\ is_exception e = true /\ failed_call W st c (fst o) /\ sh_err (fst o) = sh_err st) \/
      (exists m, o = error st m)).
  { intros st1 r Hr Hf He. unfold handle_result. destruct r; cbn [fst snd done shell_print]; auto.
    - right; left. exists TypeError. splits; auto.
    - right; left. exists e. splits; auto. }
  destruct (str_mem (lit "sudoku") (c_special c)) eqn:Em.
  - destruct (nth_error _ _) as [s|] eqn:En; [|right; left; apply (F AttributeError); auto].
    assert (Hs : sudoku_ok s) by (apply (mo_heap _ M); eapply nth_error_In; eauto).
    pose proof (wo_res _ HW (sh_calls st) (c_func c) s (c_args c) (c_kwargs c) Hs) as H1.
    destruct (w_sudoku W (sh_calls st) (c_func c) s (c_args c) (c_kwargs c)) as [s' r] eqn:Ew. cbn [snd] in H1.
    apply R; auto. apply failed_next. unfold failed_call. splits; auto. right. exists s. splits; auto.
    + apply str_mem_In; auto.
    + rewrite Ew. reflexivity.
  - apply R; auto. apply (wo_fun _ HW). apply failed_next, failed_refl.
Qed.

Lemma simple_error : forall f st c st' oe, mem_ok st -> ~ is_loop c -> execute (S f) W st c = (st', oe) ->
  (oe = None /\ sh_err st' = sh_err st) \/
  (exists m st1, failed_call W st c st1 /\ sh_err st1 = sh_err st /\ (st', oe) = error st1 m).
Proof.
  intros f st c st' oe M H E. rewrite execute_simple in E by auto.
  destruct (simple_cases st c M H) as [[A B]|[[e [A [B [C D]]]]|[m A]]].
  - destruct (simple_call W st c) as [st1 oe1]. cbn in *. subst. inv E. auto.
  - destruct (simple_call W st c) as [st1 oe1]. cbn [fst snd] in *. subst. cbn [catch] in E. rewrite B in E. right. eauto 8.
  - rewrite A in E. right. exists m, st. splits; auto using failed_refl. rewrite <- E.
    unfold error. destruct (sh_interactive (add_err st m)); reflexivity.
Qed.

Lemma parse_exn : forall s e, parse W s = Err e -> e = KeyError \/ e = ValueError \/ exists t, w_literal W t = LitRaise e.
Proof.
  intros s e E. unfold parse in E. unfold PyStr.split in E. cbn [rbind] in E. change (lit " ") with [32] in E. cbn [rbind] in E.
  destruct (split_go [32] s 0) as [|fn rest] eqn:Es; [exfalso; eapply split_go_nonempty; eauto|].
  assert (X : forall rest acc e, foldM (parse_item W) rest acc = Err e -> e = KeyError \/ e = ValueError \/ exists t, w_literal W t = LitRaise e).
  { clear. induction rest as [|x rest IH]; intros acc e E; [discriminate|]. cbn [foldM] in E.
    destruct (parse_item W acc x) as [acc'|e'] eqn:E1; cbn [rbind] in E; [eapply IH; eauto|]. inv E.
    unfold parse_item in E1. destruct acc as [args kw].
    assert (Y : forall t e0, literal W t = Err e0 -> e0 = KeyError \/ e0 = ValueError \/ exists t, w_literal W t = LitRaise e0).
    { intros t e0. unfold literal. destruct (w_literal W t) eqn:Et; intros Z; inv Z; eauto. }
    destruct (cut (lit "=") x) as [[nm v]|].
    - destruct (literal W v) eqn:El; cbn [rbind] in E1; inv E1. eapply Y; eauto.
    - destruct (str_mem x (dkeys COMMANDS)); [discriminate|]. destruct (str_mem x SHELL_KEYWORDS); [discriminate|].
      destruct (literal W x) eqn:El; cbn [rbind] in E1; inv E1. eapply Y; eauto. }
  destruct (foldM (parse_item W) rest ([], [])) as [[args kw]|e'] eqn:E1; cbn [rbind] in E; [|inv E; eapply X; eauto].
  destruct (dget str_eqb COMMANDS fn) as [sp|e'] eqn:E2; cbn [rbind] in E.
  - destruct (forallb _ sp); inv E; auto.
  - inv E. left. clear -E2. revert E2. generalize COMMANDS. induction l as [|[k v] l IH]; cbn; intros E; [inv E; auto|].
    destruct (str_eqb fn k); [discriminate|auto].
Qed.

(** A command that reports an error, other than the execution of a loop *)
Lemma error_frame : forall st s st' oe, shell_inv st -> execute_part 2 W st s = (st', oe) -> sh_err st' <> sh_err st ->
  (forall c v n, parse W (strip s) = Ok c -> loop_arg c v -> end_value v -> sh_loop_n st = Some n -> False) ->
  exists c st1 m, failed_call W st c st1 /\ sh_err st1 = sh_err st /\ (st', oe) = error st1 m /\
    (parse W (strip s) = Ok c \/ st1 = st).
Proof.
  intros st s st' oe I E D NL. unfold execute_part in E.
  assert (X : forall m, error st m = (st', oe) -> exists c st1 m, failed_call W st c st1 /\ sh_err st1 = sh_err st /\ (st', oe) = error st1 m /\
     (parse W (strip s) = Ok c \/ st1 = st)).
  { intros m Em. exists (mkCommand [] [] [] []), st, m. splits; auto. apply failed_refl. }
  destruct (parse W (strip s)) as [c|e] eqn:P.
  2: { destruct e; try (eapply X; eauto; fail); inv E; contradiction. }
  assert (Y : execute 2 W st c = (st', oe) -> exists c0 st1 m, failed_call W st c0 st1 /\ sh_err st1 = sh_err st /\ (st', oe) = error st1 m /\
     (Ok c = Ok c0 \/ st1 = st)).
  { intros E'. destruct (str_eqb (c_func c) (lit "loop")) eqn:El.
    - apply str_eqb_eq in El. rewrite execute_S in E'. unfold call in E'. rewrite El, str_eqb_refl in E'.
      assert (C : forall o, catch o = (st', oe) -> (exists m, o = error st m) \/ (exists e, o = (st, Some e)) -> exists m, error st m = (st', oe)).
      { intros o Eo [[m ->]|[e ->]].
        - exists m. rewrite <- Eo. unfold error. destruct (sh_interactive (add_err st m)); reflexivity.
        - cbn in Eo. destruct (is_exception e); [eauto|]. inv Eo. contradiction. }
      destruct (bind1 _ _ _ _) as [v|e] eqn:Eb.
      2: { destruct (C _ E') as [m Em]; [right; eauto|]. destruct (X m Em) as [c0 [st1 [m' H']]]. exists c, st, m. splits; auto using failed_refl. }
      assert (A : loop_arg c v).
      { split; auto. unfold bind1 in Eb. destruct (c_args c) as [|a [|]], (c_kwargs c) as [|[k x] [|]]; inv Eb; auto.
        destruct (str_eqb k (lit "n")) eqn:Ek; inv H0. apply str_eqb_eq in Ek. subst. auto. }
      assert (G : (exists m, loop_command W (execute 1 W) st v = error st m) \/ (exists e, loop_command W (execute 1 W) st v = (st, Some e)) \/
                  sh_err (fst (catch (loop_command W (execute 1 W) st v))) = sh_err st).
      { unfold loop_command. rewrite loop_active_spec by auto. destruct (is_end v) eqn:Ev.
        - destruct (sh_loop_n st) as [n|] eqn:En; [exfalso; eapply NL; eauto; apply end_value_iff; auto|]. left. cbn [negb]. eauto.
        - destruct (to_int W v) as [n|e]; [|destruct e; eauto]. destruct (0 <? n); [|eauto].
          destruct (sh_loop_n st); [eauto|]. right; right. destruct (sh_interactive st); reflexivity. }
      destruct G as [G|[G|G]].
      + destruct (C _ E') as [m Em]; auto. exists c, st, m. splits; auto using failed_refl.
      + destruct (C _ E') as [m Em]; auto. exists c, st, m. splits; auto using failed_refl.
      + rewrite E' in G. contradiction.
    - destruct (simple_error 1 st c st' oe (si_mem _ I)) as [[Z1 Z2]|[m [st1 [Z1 [Z2 Z3]]]]]; auto.
      + intros Z. apply str_eqb_eq in Z. unfold is_loop in *. congruence.
      + contradiction.
      + exists c, st1, m. auto. }
  destruct (str_eqb (c_func c) (lit "exit")); [apply Y; auto|].
  destruct (loop_active st && negb (str_eqb (c_func c) (lit "loop"))); [|apply Y; auto]. inv E. cbn in D. contradiction.
Qed.

(** ** Outcomes: interactive shells go on, others stop at the first error *)
Lemma batch_done : forall st st', sh_interactive st' = sh_interactive st -> sh_err st' = sh_err st -> batch_ok st (done st').
Proof. intros st st' H H'. split; auto. cbn. destruct (sh_interactive st); auto. Qed.
Lemma batch_error : forall st m, batch_ok st (error st m).
Proof. intros st m. unfold batch_ok, error. cbn. destruct (sh_interactive st) eqn:E; cbn; splits; eauto. Qed.
Lemma batch_error' : forall st st1 m, sh_interactive st1 = sh_interactive st -> sh_err st1 = sh_err st -> batch_ok st (error st1 m).
Proof. intros st st1 m H H'. destruct (batch_error st1 m) as [A B]. rewrite H in *. rewrite H' in B. split; auto. Qed.
Lemma batch_seq : forall st o g, batch_ok st o -> (forall st1, o = (st1, None) -> batch_ok st1 (g st1)) -> batch_ok st (seq_do o g).
Proof.
  intros st [st1 [e|]] g [A B] H; cbn [seq_do fst snd] in *; [split; auto|].
  destruct (H st1 eq_refl) as [A' B']. split; [congruence|]. rewrite A in B'. destruct (sh_interactive st); auto.
  destruct B as [[_ B]|[B _]]; [|discriminate]. rewrite B in B'. auto.
Qed.

Lemma batch_simple : forall f st c, mem_ok st -> ~ is_loop c -> batch_ok st (execute (S f) W st c).
Proof.
  intros f st c M H. destruct (execute (S f) W st c) as [st' oe] eqn:E.
  destruct (simple_error f st c st' oe M H E) as [[-> Z2]|[m [st1 [Z1 [Z2 Z3]]]]].
  - apply batch_done; auto. pose proof (good_execute_simple W HW f st c M H) as [_ [_ [K _]]]. rewrite E in K. auto.
  - rewrite Z3. apply batch_error'; auto. apply Z1.
Qed.

Lemma batch_each : forall f l st, (forall c, In c l -> ~ is_loop c) -> mem_ok st -> batch_ok st (do_each (execute (S f) W) l st).
Proof.
  intros f l. induction l as [|c l IH]; intros st Hl M; cbn [do_each]; [apply batch_done; auto|].
  apply batch_seq; [apply batch_simple; auto; apply Hl; left; auto|]. intros st1 E.
  apply IH; [intros; apply Hl; right; auto|]. pose proof (good_execute_simple W HW f st c M (Hl c (or_introl eq_refl))) as [M1 _]. rewrite E in M1. auto.
Qed.
Lemma batch_times : forall f l k st, (forall c, In c l -> ~ is_loop c) -> mem_ok st -> batch_ok st (do_times k (do_each (execute (S f) W) l) st).
Proof.
  intros f l k. induction k as [|k IH]; intros st Hl M; cbn [do_times]; [apply batch_done; auto|].
  apply batch_seq; [apply batch_each; auto|]. intros st1 E. apply IH; auto.
  pose proof (good_each W f l Hl HW st M) as [M1 _]. rewrite E in M1. auto.
Qed.

Lemma catch_batch : forall st o, batch_ok st o -> batch_ok st (catch o).
Proof.
  intros st [st1 [e|]] [A B]; cbn [fst snd catch done] in *; [|split; auto].
  destruct (sh_interactive st) eqn:E; [discriminate|]. destruct B as [[B _]|[B C]]; [discriminate|]. inv B. cbn [is_exception].
  split; cbn [fst snd]; [congruence|]. rewrite E. auto.
Qed.

Lemma to_int_exn : forall v e, to_int W v = Err e -> is_exception e = true.
Proof.
  intros v e E. destruct v; cbn in E; inv E; auto; try (apply (wo_int _ HW _ _ H0); fail). apply int_of_str_exn in H0. subst; auto.
Qed.

Lemma batch_execute : forall f st c, shell_inv st -> batch_ok st (execute (S (S f)) W st c).
Proof.
  intros f st c I. destruct (str_eqb (c_func c) (lit "loop")) eqn:El.
  - rewrite execute_S. unfold call. rewrite El. destruct (bind1 _ _ _ _) as [v|e] eqn:Eb.
    + destruct (is_end v) eqn:Ev.
      * destruct (sh_loop_n st) as [n|] eqn:En.
        -- rewrite (loop_end_run W f st I n En v Ev). apply catch_batch. apply batch_seq.
           ++ match goal with |- batch_ok st ?o => change (batch_ok (set_prompt st (command_prompt (sh_interactive st))) o) end. apply (batch_times 0).
              ** intros c' Hc'. apply (si_list _ I c' Hc').
              ** destruct (si_mem _ I); constructor; auto.
           ++ intros st1 _. apply batch_done; auto.
        -- apply catch_batch. unfold loop_command. rewrite Ev, loop_active_spec, En by auto. cbn [negb]. apply batch_error.
      * unfold loop_command. rewrite Ev. destruct (to_int W v) as [n|e] eqn:Et.
        -- apply catch_batch. destruct (0 <? n); [|apply batch_error]. destruct (loop_active st); [apply batch_error|].
           apply batch_done; destruct (sh_interactive st) eqn:Ei; auto.
        -- apply to_int_exn in Et.
           assert (Q : batch_ok st (catch (st, Some e))) by (cbn [catch]; rewrite Et; apply batch_error).
           destruct e; auto; apply catch_batch, batch_error.
    + cbn [catch]. assert (e = TypeError).
      { unfold bind1 in Eb. destruct (c_args c) as [|a [|]], (c_kwargs c) as [|[k x] [|]]; try (destruct (str_eqb k _)); inv Eb; auto. }
      subst e. apply batch_error.
  - apply batch_simple; [apply (si_mem _ I)|]. intros Z. apply str_eqb_eq in Z. unfold is_loop in *. congruence.
Qed.

Lemma batch_part : forall f st s, shell_inv st -> literal_total W -> batch_ok st (execute_part (S (S f)) W st s).
Proof.
  intros f st s I L. unfold execute_part. destruct (parse W (strip s)) as [c|e] eqn:P.
  - destruct (str_eqb (c_func c) (lit "exit")); [apply batch_execute; auto|].
    destruct (loop_active st && _); [apply batch_done; auto|apply batch_execute; auto].
  - apply parse_exn in P. destruct P as [->|[->|[t P]]]; [apply batch_error|apply batch_error|]. exfalso. eapply L; eauto.
Qed.

Lemma batch_line : forall f st line, shell_inv st -> literal_total W -> batch_ok st (execute_line (S (S f)) W st line).
Proof.
  intros f st line I L. unfold execute_line. generalize (split_go (lit ";") line 0). intros l. revert st I.
  induction l as [|s l IH]; intros st I; cbn [do_each]; [apply batch_done; auto|].
  apply batch_seq; [apply batch_part; auto|]. intros st1 E. apply IH.
  destruct (inv_part W HW f st s I) as [I1 _]. rewrite E in I1. auto.
Qed.

Lemma inv_line : forall f st line, shell_inv st -> shell_inv (fst (execute_line (S (S f)) W st line)).
Proof.
  intros f st line I. unfold execute_line. generalize (split_go (lit ";") line 0). intros l. revert st I.
  induction l as [|s l IH]; intros st I; cbn [do_each]; auto.
  destruct (inv_part W HW f st s I) as [I1 _].
  destruct (execute_part (S (S f)) W st s) as [st1 [e|]]; cbn [seq_do fst] in *; auto.
Qed.

Lemma inv_add_out : forall st t, shell_inv st -> shell_inv (add_out st t).
Proof. intros st t [M N S L]. constructor; auto. destruct M; constructor; auto. Qed.

Lemma batch_run : forall f input lines st, shell_inv st -> literal_total W -> batch_ok st (run_loop (S (S f)) W input lines st).
Proof.
  intros f input. induction input as [|line input IH]; intros lines st I L; cbn [run_loop].
  - destruct (sh_running st); [|apply batch_done; auto]. cbn [add_out sh_interactive]. destruct (sh_interactive st); apply batch_done; auto.
  - destruct (sh_running st); [|apply batch_done; auto]. cbn [add_out sh_interactive].
    destruct line as [|x line]; [destruct (sh_interactive st); apply batch_done; auto|].
    pose proof (inv_add_out st (sh_prompt st) I) as I'.
    assert (B : forall o, batch_ok (add_out st (sh_prompt st)) o -> batch_ok st o) by (intros o H; exact H).
    destruct (ends_with_backslash _); [apply B, IH; auto|]. apply B, batch_seq.
    + destruct (lines ++ _); [apply batch_done; auto|apply batch_line; auto].
    + intros st1 E. apply IH; auto. destruct (lines ++ _); [inv E; auto|].
      pose proof (inv_line f (add_out st (sh_prompt st)) (z :: l) I'). rewrite E in H. auto.
Qed.
End Err.
