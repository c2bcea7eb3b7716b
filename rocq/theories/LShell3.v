(** push, pop, loop and errors. *)
From Verif Require Export LShell2.

Lemma parse_push : forall W, parse W (strip (lit "push")) = Ok (mkCommand (lit "push") [lit "shell"] [] []).
Proof. intros; vm_compute; reflexivity. Qed.
Lemma parse_pop : forall W, parse W (strip (lit "pop")) = Ok (mkCommand (lit "pop") [lit "shell"] [] []).
Proof. intros; vm_compute; reflexivity. Qed.

Lemma int_of_str_exn : forall s e, int_of_str s = Err e -> e = ValueError.
Proof. intros s e. unfold int_of_str. cbv zeta. match goal with |- match ?r with _ => _ end = _ -> _ => destruct r end; intros H; inv H; auto. Qed.

Section Cmd.
Variable W : world.
Hypothesis HW : world_ok W.

Lemma part_execute : forall f st s c, shell_inv st -> sh_loop_n st = None -> parse W (strip s) = Ok c ->
  execute_part f W st s = execute f W st c.
Proof.
  intros f st s c I E P. unfold execute_part. rewrite P, loop_active_spec, E by auto. cbn [andb].
  destruct (str_eqb (c_func c) (lit "exit")); auto.
Qed.

Lemma current_some : forall st, shell_inv st -> exists s, current st = Some s /\ sudoku_ok s.
Proof.
  intros st I. destruct (si_mem _ I) as [M1 M2 M3]. unfold current. destruct (nth_error (sh_heap st) (sh_cur st)) as [s|] eqn:E.
  - exists s; split; auto. apply M3. eapply nth_error_In; eauto.
  - apply nth_error_None in E. pose proof (M2 _ (or_introl eq_refl)). lia.
Qed.

Lemma push_effect : forall st, shell_inv st -> sh_loop_n st = None ->
  exists st1 a, execute_part 2 W st (lit "push") = (st1, None) /\
    sh_stack st1 = sh_stack st ++ [a] /\ nth_error (sh_heap st1) a = current st /\
    a <> sh_cur st /\ ~ In a (sh_stack st) /\
    current st1 = current st /\ sh_cur st1 = sh_cur st /\ stacked st1 = stacked st ++ [current st] /\
    sh_running st1 = sh_running st /\ sh_loop_n st1 = None /\ sh_out st1 = sh_out st /\ sh_err st1 = sh_err st.
Proof.
  intros st I E. destruct (current_some st I) as [s [Es Hs]].
  rewrite (part_execute 2 st _ _ I E (parse_push W)). rewrite execute_simple by (intros X; unfold is_loop in X; cbn in X; discriminate).
  destruct (si_mem _ I) as [M1 M2 M3]. unfold current in Es.
  exists (set_stack (set_heap st (sh_heap st ++ [s])) (sh_stack st ++ [length (sh_heap st)])), (length (sh_heap st)).
  unfold current, stacked in *. cbn [set_stack set_heap sh_heap sh_cur sh_stack sh_running sh_loop_n sh_out sh_err]. splits; auto.
  - change (simple_call W st (mkCommand (lit "push") [lit "shell"] [] [])) with (push_command st). unfold push_command. rewrite Es, copy_ok_true by auto. reflexivity.
  - rewrite Es. apply nth_error_snoc.
  - pose proof (M2 _ (or_introl eq_refl)). lia.
  - intros X. pose proof (M2 _ (or_intror X)). lia.
  - rewrite nth_error_app1; auto. apply M2; left; auto.
  - rewrite map_app. cbn [map]. rewrite nth_error_snoc. f_equal; [|congruence].
    apply map_ext_in. intros a Ha. apply nth_error_app1. apply M2; right; auto.
Qed.

(** The position denoted by the argument of pop, for a stack of length n *)
Lemma pop_call : forall st c v, pop_arg c v -> simple_call W st c = pop_command W st v.
Proof.
  intros st c v [F H]. unfold simple_call, call. rewrite F.
  change (str_eqb (lit "pop") (lit "loop")) with false. change (str_eqb (lit "pop") (lit "exit")) with false.
  change (str_eqb (lit "pop") (lit "push")) with false. change (str_eqb (lit "pop") (lit "pop")) with true. cbv iota.
  destruct H as [[-> ->]|[[-> ->]|[-> [-> ->]]]]; reflexivity.
Qed.

Lemma pop_not_loop : forall c v, pop_arg c v -> ~ is_loop c.
Proof. intros c v [F _] X. unfold is_loop in X. rewrite F in X. discriminate. Qed.

Lemma pop_effect : forall st s c v p a, shell_inv st -> sh_loop_n st = None -> parse W (strip s) = Ok c -> pop_arg c v ->
  pop_target W (length (sh_stack st)) v p -> nth_error (sh_stack st) p = Some a ->
  exists st1, execute_part 2 W st s = (st1, None) /\
    sh_cur st1 = a /\ current st1 = nth_error (sh_heap st) a /\
    sh_stack st1 = firstn p (sh_stack st) ++ skipn (S p) (sh_stack st) /\ sh_heap st1 = sh_heap st /\
    sh_running st1 = sh_running st /\ sh_loop_n st1 = None /\ sh_out st1 = sh_out st /\ sh_err st1 = sh_err st.
Proof.
  intros st s c v p a I E P A T N. rewrite (part_execute 2 st s c I E P), execute_simple by (eapply pop_not_loop; eauto).
  rewrite (pop_call st c v A). exists (set_cur (set_stack st (firstn p (sh_stack st) ++ skipn (S p) (sh_stack st))) a).
  splits; auto. unfold pop_command. destruct (sh_stack st) as [|x l] eqn:Es; [destruct p; discriminate|]. rewrite <- Es in *.
  assert (X : stack_pop st p = done (set_cur (set_stack st (firstn p (sh_stack st) ++ skipn (S p) (sh_stack st))) a)).
  { unfold stack_pop. rewrite N. reflexivity. }
  destruct T as [[-> [_ ->]]|[T1 [k [T2 [T3 ->]]]]].
  - rewrite X. reflexivity.
  - assert (Y : (0 <=? k) && (k <? py_len (sh_stack st)) = true) by (unfold py_len; apply andb_true_intro; split; [apply Z.leb_le|apply Z.ltb_lt]; lia).
    destruct v; try congruence; rewrite (proj1 (as_int_iff _ _ _) T2), Y, X; reflexivity.
Qed.

Lemma pop_error : forall st s c v, shell_inv st -> sh_loop_n st = None -> parse W (strip s) = Ok c -> pop_arg c v ->
  (forall p, ~ pop_target W (length (sh_stack st)) v p) ->
  exists m, execute_part 2 W st s = error st m.
Proof.
  intros st s c v I E P A T. rewrite (part_execute 2 st s c I E P), execute_simple by (eapply pop_not_loop; eauto).
  rewrite (pop_call st c v A). unfold pop_command.
  assert (C : forall m, catch (error st m) = error st m).
  { intros m. unfold error. destruct (sh_interactive (add_err st m)); reflexivity. }
  destruct (sh_stack st) as [|x l] eqn:Es; [eexists; apply C|]. rewrite <- Es in *.
  assert (X : v <> VNone -> exists m, catch (match to_int W v with
      | Ok p => if (0 <=? p) && (p <? py_len (sh_stack st)) then stack_pop st (Z.to_nat p) else error st (MText (lit "0 <= position < len(stack)"))
      | Err ValueError => error st (MText (lit "0 <= position < len(stack)"))
      | Err e => (st, Some e) end) = error st m).
  { intros Nv. destruct (to_int W v) as [k|e] eqn:Ek.
    - destruct ((0 <=? k) && (k <? py_len (sh_stack st))) eqn:Y; [|eexists; apply C].
      exfalso. apply (T (Z.to_nat k)). right. split; auto. exists k. b2p. unfold py_len in *. splits; try lia. apply as_int_iff; auto.
    - assert (is_exception e = true).
      { destruct v; cbn in Ek; inv Ek; auto; try (apply (wo_int _ HW _ _ H0); fail). apply int_of_str_exn in H0. subst; auto. }
      destruct e; try (eexists; apply C); try discriminate; eexists; reflexivity. }
  destruct v; try (apply X; congruence).
  exfalso. apply (T (length (sh_stack st) - 1)%nat). left. splits; auto. rewrite Es. cbn; lia.
Qed.

Lemma push_restore : forall st st1 a st2 s c v p st3, shell_inv st -> sh_loop_n st = None ->
  execute_part 2 W st (lit "push") = (st1, None) -> sh_stack st1 = sh_stack st ++ [a] ->
  reach W st1 st2 -> sh_loop_n st2 = None -> nth_error (sh_stack st2) p = Some a ->
  parse W (strip s) = Ok c -> pop_arg c v -> pop_target W (length (sh_stack st2)) v p ->
  execute_part 2 W st2 s = (st3, None) -> current st3 = current st.
Proof.
  intros st st1 a st2 s c v p st3 I E P Ea R E2 N Pc A T X.
  destruct (push_effect st I E) as [st1' [a' [H1 [H2 [H3 H4]]]]]. rewrite P in H1. inv H1.
  assert (a = a') by (rewrite Ea in H2; apply app_inj_tail in H2; tauto). subst a'.
  pose proof (inv_part W HW 0 st (lit "push") I) as [I1 _]. rewrite P in I1. cbn [fst] in I1.
  destruct (inv_reach W HW _ _ R I1) as [I2 [K1 [K2 K3]]].
  destruct (pop_effect st2 s c v p a I2 E2 Pc A T N) as [st3' [Y1 [Y2 [Y3 _]]]]. rewrite X in Y1. inv Y1.
  rewrite Y3. rewrite <- H3. apply K3.
  - eapply nth_error_In; eauto.
  - apply (mo_bound _ (si_mem _ I1)). right. rewrite Ea. apply in_app_iff. right; left; auto.
Qed.

(** ** Loops *)
Lemma part_append : forall f st s c n, shell_inv st -> sh_loop_n st = Some n -> parse W (strip s) = Ok c ->
  ~ is_loop c -> ~ is_exit c -> execute_part f W st s = done (set_loop st (Some n) (sh_loop_list st ++ [c])).
Proof.
  intros f st s c n I E P H1 H2. unfold execute_part. rewrite P, loop_active_spec, E by auto.
  rewrite (str_eqb_false _ _ H2), (str_eqb_false _ _ H1). reflexivity.
Qed.

Lemma body_append : forall f parts cs st n, shell_inv st -> sh_loop_n st = Some n ->
  Forall2 (fun s c => parse W (strip s) = Ok c /\ ~ is_loop c /\ ~ is_exit c) parts cs ->
  do_each (execute_part (S (S f)) W) parts st = done (set_loop st (Some n) (sh_loop_list st ++ cs)).
Proof.
  intros f parts cs st n I E H. revert st I E. induction H as [|s c parts cs [H1 [H2 H3]] H IH]; intros st I E; cbn [do_each].
  - rewrite app_nil_r, <- E, set_loop_same. reflexivity.
  - pose proof (inv_part W HW f st s I) as [I' _]. rewrite (part_append _ st s c n I E H1 H2 H3) in *. cbn [seq_do done fst] in *.
    rewrite IH; auto. cbn [sh_loop_list set_loop]. rewrite <- app_assoc. reflexivity.
Qed.

Lemma body_direct : forall f parts cs st, shell_inv st -> sh_loop_n st = None ->
  Forall2 (fun s c => parse W (strip s) = Ok c /\ ~ is_loop c /\ ~ is_exit c) parts cs ->
  do_each (execute_part (S (S f)) W) parts st = do_each (execute 1 W) cs st.
Proof.
  intros f parts cs st I E H. revert st I E. induction H as [|s c parts cs [H1 [H2 H3]] H IH]; intros st I E; cbn [do_each]; auto.
  rewrite (part_execute _ st s c I E H1). rewrite (execute_simple (S f)), (execute_simple 0) by auto.
  pose proof (inv_simple W HW 0 st c I H2) as [I' _]. rewrite execute_simple in I' by auto.
  destruct (catch (simple_call W st c)) as [st1 [e|]] eqn:E1; cbn [seq_do]; auto.
  cbn [fst] in I'. apply IH; auto. rewrite <- (execute_simple 0) in E1 by auto.
  apply execute_keeps_loop in E1; auto. destruct E1 as [-> _]. auto.
Qed.

Lemma loop_call : forall exec st c v, loop_arg c v -> call W exec st c = loop_command W exec st v.
Proof. intros exec st c v [F [[A K]|[A K]]]; unfold call; rewrite F, A, K; reflexivity. Qed.

Lemma part_loop : forall f st s c v, shell_inv st -> parse W (strip s) = Ok c -> loop_arg c v ->
  execute_part (S (S f)) W st s = catch (loop_command W (execute (S f) W) st v).
Proof.
  intros f st s c v I P A. unfold execute_part. rewrite P. assert (F : c_func c = lit "loop") by apply A.
  rewrite F. change (str_eqb (lit "loop") (lit "exit")) with false. change (str_eqb (lit "loop") (lit "loop")) with true.
  cbn [negb]. rewrite andb_false_r. rewrite execute_S, (loop_call _ _ _ _ A). reflexivity.
Qed.

Lemma set_loop_none : forall st, shell_inv st -> sh_loop_n st = None -> set_loop st None [] = st.
Proof. intros st I E. destruct (si_none _ I E) as [L _]. destruct st; cbn in *; subst; reflexivity. Qed.

Lemma do_times_parts : forall f parts cs k st, shell_inv st -> sh_loop_n st = None ->
  Forall2 (fun s c => parse W (strip s) = Ok c /\ ~ is_loop c /\ ~ is_exit c) parts cs ->
  do_times k (do_each (execute_part (S (S f)) W) parts) st = do_times k (do_each (execute 1 W) cs) st.
Proof.
  intros f parts cs k. induction k as [|k IH]; intros st I E H; cbn [do_times]; auto.
  rewrite (body_direct f parts cs st I E H). 
  assert (Hl : forall c, In c cs -> ~ is_loop c).
  { clear -H. induction H as [|s c parts cs [H1 [H2 H3]] H IH]; intros d D; [destruct D|destruct D as [<-|D]; auto]. }
  destruct (do_each (execute 1 W) cs st) as [st1 [e|]] eqn:E1; cbn [seq_do]; auto.
  pose proof (do_each_keep _ _ _ Hl _ _ _ E1) as [A [B C]].
  pose proof (good_each _ 0 _ Hl HW st (si_mem _ I)) as [M K]. rewrite E1 in M, K. cbn [fst] in *.
  apply IH; auto; [|congruence]. constructor; auto.
  - intros _. rewrite B, C. destruct K as [_ [-> _]]. apply (si_none _ I). auto.
  - rewrite A. apply (si_some _ I).
  - rewrite B. apply (si_list _ I).
Qed.

(** loop n starts the definition of a loop *)
Lemma loop_start : forall st s c v n, shell_inv st -> sh_loop_n st = None -> parse W (strip s) = Ok c -> loop_arg c v ->
  as_int W v n -> 0 < n ->
  execute_part 2 W st s = done (set_prompt (set_loop st (Some n) []) (if sh_interactive st then lit "loop " ++ str_of_int n ++ lit "> " else sh_prompt st)).
Proof.
  intros st s c v n I E P A T Hn. rewrite (part_loop 0 st s c v I P A). unfold loop_command.
  rewrite (as_int_not_end _ _ _ T), (proj1 (as_int_iff _ _ _) T). replace (0 <? n) with true by (symmetry; apply Z.ltb_lt; auto).
  rewrite loop_active_spec, E by auto. destruct (si_none _ I E) as [Ll _].
  destruct (sh_interactive st) eqn:Ei; cbn [sh_loop_list set_prompt]; rewrite Ll; [reflexivity|]. destruct st; reflexivity.
Qed.
(** and is refused if one is being defined already, or n is no number > 0; loop end is refused if none is being defined *)
Lemma loop_refused : forall st s c v, shell_inv st -> parse W (strip s) = Ok c -> loop_arg c v ->
  (end_value v /\ sh_loop_n st = None \/ ~ end_value v /\ (sh_loop_n st <> None \/ forall n, as_int W v n -> n <= 0)) ->
  exists m, execute_part 2 W st s = error st m.
Proof.
  intros st s c v I P A H. rewrite (part_loop 0 st s c v I P A). unfold loop_command.
  assert (C : forall m, catch (error st m) = error st m).
  { intros m. unfold error. destruct (sh_interactive (add_err st m)); reflexivity. }
  destruct H as [[V E]|[V H]].
  - apply end_value_iff in V. rewrite V, loop_active_spec, E by auto. eexists. apply C.
  - destruct (is_end v) eqn:Ev; [apply end_value_iff in Ev; contradiction|]. destruct (to_int W v) as [n|e] eqn:Et.
    + destruct (0 <? n) eqn:En; [|eexists; apply C]. b2p. destruct H as [H|H].
      * rewrite loop_active_spec by auto. destruct (sh_loop_n st); [eexists; apply C|congruence].
      * apply as_int_iff in Et. apply H in Et. lia.
    + assert (is_exception e = true).
      { destruct v; cbn in Et; inv Et; auto; try (apply (wo_int _ HW _ _ H1); fail). apply int_of_str_exn in H1. subst; auto. }
      destruct e; try (eexists; apply C); try discriminate; eexists; reflexivity.
Qed.

Lemma loop_equiv : forall f st s0 c0 v0 n s1 c1 v1 parts cs, shell_inv st -> sh_loop_n st = None ->
  parse W (strip s0) = Ok c0 -> loop_arg c0 v0 -> as_int W v0 n -> 0 < n ->
  parse W (strip s1) = Ok c1 -> loop_arg c1 v1 -> end_value v1 ->
  Forall2 (fun s c => parse W (strip s) = Ok c /\ ~ is_loop c /\ ~ is_exit c) parts cs ->
  let o1 := do_each (execute_part (S (S f)) W) ([s0] ++ parts ++ [s1]) st in
  let o2 := do_times (Z.to_nat n) (do_each (execute_part (S (S f)) W) parts) st in
  snd o1 = snd o2 /\ loop_reset (fst o1) = fst o2 /\ (snd o2 = None -> fst o1 = fst o2).
Proof.
  intros f st s0 c0 v0 n s1 c1 v1 parts cs I E P0 A0 T0 Hn P1 A1 V1 H o1 o2. pose proof (as_int_not_end _ _ _ T0) as V0. apply as_int_iff in T0. apply end_value_iff in V1.
  assert (Hl : forall c, In c cs -> ~ is_loop c).
  { clear -H. induction H as [|s c parts cs [H1 [H2 H3]] H IH]; intros d D; [destruct D|destruct D as [<-|D]; auto]. }
  destruct (si_none _ I E) as [Ll Lp].
  set (st0 := set_loop (if sh_interactive st then set_prompt st (lit "loop " ++ str_of_int n ++ lit "> ") else st) (Some n) []).
  assert (X0 : execute_part (S (S f)) W st s0 = (st0, None)).
  { rewrite (part_loop f st s0 c0 v0 I P0 A0). unfold loop_command. rewrite V0, T0.
    replace (0 <? n) with true by (symmetry; apply Z.ltb_lt; auto). rewrite loop_active_spec, E by auto.
    unfold st0. destruct (sh_interactive st); cbn [sh_loop_list set_prompt]; rewrite Ll; reflexivity. }
  pose proof (inv_part W HW f st s0 I) as [I0 _]. rewrite X0 in I0. cbn [fst] in I0.
  assert (X1 : do_each (execute_part (S (S f)) W) (parts ++ [s1]) st0 =
               seq_do (do_each (execute_part (S (S f)) W) parts st0) (fun st => do_each (execute_part (S (S f)) W) [s1] st)).
  { generalize st0. clear. induction parts as [|s parts IH]; intros st0; cbn [do_each app]; auto.
    destruct (execute_part (S (S f)) W st0 s) as [st1 [e|]]; cbn [seq_do]; auto. }
  assert (O1 : o1 = seq_do (do_times (Z.to_nat n) (do_each (execute 1 W) cs) (set_prompt (set_loop st (Some n) cs) (command_prompt (sh_interactive st))))
                 (fun st => done (set_loop st None []))).
  { unfold o1. clear o2. cbn [app do_each]. rewrite X0. cbn [seq_do]. rewrite X1.
    rewrite (body_append f parts cs st0 n I0 eq_refl H). cbn [seq_do done do_each].
    set (st2 := set_loop st0 (Some n) (sh_loop_list st0 ++ cs)).
    assert (I2 : shell_inv st2).
    { destruct I0 as [M N S L]. constructor; cbn; auto; try discriminate.
      - destruct M; constructor; auto.
      - clear -H. induction H as [|s c parts cs [H1 [H2 H3]] H IH]; intros d D; [destruct D|destruct D as [<-|D]; auto]. }
    rewrite (part_loop f st2 s1 c1 v1 I2 P1 A1), (loop_end_run W f st2 I2 n eq_refl v1 V1).
    assert (Y : set_prompt st2 (command_prompt (sh_interactive st2)) = set_prompt (set_loop st (Some n) cs) (command_prompt (sh_interactive st))).
    { unfold st2, st0. destruct (sh_interactive st) eqn:Ei; cbn; rewrite Ei; reflexivity. }
    rewrite Y. change (sh_loop_list st2) with cs.
    assert (ZZ : forall k st, snd (do_times k (do_each (execute 1 W) cs) st) = None \/
                  exists e, snd (do_times k (do_each (execute 1 W) cs) st) = Some e /\ is_exception e = false).
    { clear - Hl. induction k as [|k IH]; intros st; cbn [do_times]; auto.
      assert (ZZ : forall st, snd (do_each (execute 1 W) cs st) = None \/
                  exists e, snd (do_each (execute 1 W) cs st) = Some e /\ is_exception e = false).
      { clear st IH. induction cs as [|c cs' IHc]; intros st; cbn [do_each]; auto.
        rewrite execute_simple by (apply Hl; left; auto).
        destruct (simple_call W st c) as [st1 [e|]]; cbn [catch].
        - destruct (is_exception e) eqn:Ee; [|right; exists e; auto].
          unfold error. destruct (sh_interactive (add_err st1 (MExn e))); cbn [seq_do done].
          + apply IHc. intros c' Hc'; apply Hl; right; auto.
          + right. exists (SystemExit 1). auto.
        - cbn [seq_do done]. apply IHc. intros c' Hc'; apply Hl; right; auto. }
      specialize (ZZ st). destruct (do_each (execute 1 W) cs st) as [st1 [e|]]; cbn [seq_do snd] in *; auto. }
    specialize (ZZ (Z.to_nat n) (set_prompt (set_loop st (Some n) cs) (command_prompt (sh_interactive st)))).
    destruct (do_times _ _ _) as [st3 [e|]]; cbn [seq_do catch snd] in *.
    - destruct ZZ as [Z0|[e' [Z1 Z2]]]; [discriminate Z0|]. inv Z1. rewrite Z2. reflexivity.
    - reflexivity. }
  rewrite O1. unfold o2. rewrite (do_times_parts f parts cs _ st I E H).
  rewrite <- Lp.
  replace (set_prompt (set_loop st (Some n) cs) (sh_prompt st)) with (set_loop st (Some n) cs) by (destruct st; reflexivity).
  pose proof (do_times_g W 0 cs Hl _ (neutral_loop (Some n) cs) (Z.to_nat n) st) as DG. cbv beta in DG. rewrite DG. clear DG.
  pose proof (good_times W 0 cs Hl HW (Z.to_nat n) st (si_mem _ I)) as [M K].
  destruct (do_times (Z.to_nat n) (do_each (execute 1 W) cs) st) as [st3 oe] eqn:E3.
  apply do_times_keep in E3; auto. destruct E3 as [A [B C]]. unfold map_st. cbn [fst snd] in *.
  assert (S3 : set_loop st3 None [] = st3) by (rewrite <- E, <- Ll, <- A, <- B; apply set_loop_same).
  assert (S4 : loop_reset st3 = st3).
  { unfold loop_reset. rewrite S3. destruct K as [_ [-> _]]. rewrite <- Lp, <- C. apply set_prompt_same. }
  destruct oe as [e|]; cbn [seq_do done fst snd].
  - splits; auto; try discriminate.
  - splits; auto.
Qed.
End Cmd.
