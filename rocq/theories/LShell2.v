(** The loop command; invariants of all reachable states. *)
From Verif Require Export LShell.

Section Body.
Variables (W : world) (f : nat) (l : list command).
Hypothesis Hl : forall c, In c l -> ~ is_loop c.

Lemma do_each_keep : forall st st' oe, do_each (execute (S f) W) l st = (st', oe) ->
  sh_loop_n st' = sh_loop_n st /\ sh_loop_list st' = sh_loop_list st /\ sh_prompt st' = sh_prompt st.
Proof.
  revert Hl. induction l as [|c l' IH]; intros Hl' st st' oe E; cbn [do_each] in E; [inv E; auto|].
  destruct (execute (S f) W st c) as [st1 oe1] eqn:E1.
  destruct (execute_keeps_loop f W st c st1 oe1 (Hl' c (or_introl eq_refl)) E1) as [A [B C]].
  destruct oe1; cbn [seq_do] in E; [inv E; auto|].
  apply IH in E; [|intros; apply Hl'; right; auto]. destruct E as [A' [B' C']]. splits; congruence.
Qed.

Lemma do_each_S : forall st, do_each (execute (S f) W) l st = do_each (execute 1 W) l st.
Proof.
  revert Hl. induction l as [|c l' IH]; intros Hl' st; cbn [do_each]; auto.
  rewrite !execute_simple by (apply Hl'; left; auto). destruct (catch (simple_call W st c)) as [st1 [e|]]; cbn [seq_do]; auto.
  apply IH. intros; apply Hl'; right; auto.
Qed.

Lemma do_each_g : forall g, neutral g -> forall st, do_each (execute (S f) W) l (g st) = map_st g (do_each (execute (S f) W) l st).
Proof.
  intros g G. revert Hl. induction l as [|c l' IH]; intros Hl' st; cbn [do_each]; auto.
  rewrite execute_g by (auto; apply Hl'; left; auto). destruct (execute (S f) W st c) as [st1 [e|]]; unfold map_st; cbn [fst snd seq_do]; auto.
  apply IH. intros; apply Hl'; right; auto.
Qed.

Lemma do_times_keep : forall k st st' oe, do_times k (do_each (execute (S f) W) l) st = (st', oe) ->
  sh_loop_n st' = sh_loop_n st /\ sh_loop_list st' = sh_loop_list st /\ sh_prompt st' = sh_prompt st.
Proof.
  induction k as [|k IH]; intros st st' oe E; cbn [do_times] in E; [inv E; auto|].
  destruct (do_each (execute (S f) W) l st) as [st1 oe1] eqn:E1. apply do_each_keep in E1. destruct E1 as [A [B C]].
  destruct oe1; cbn [seq_do] in E; [inv E; auto|]. apply IH in E. destruct E as [A' [B' C']]. splits; congruence.
Qed.

Lemma do_times_g : forall g, neutral g -> forall k st, do_times k (do_each (execute (S f) W) l) (g st) = map_st g (do_times k (do_each (execute (S f) W) l) st).
Proof.
  intros g G. induction k as [|k IH]; intros st; cbn [do_times]; auto.
  rewrite do_each_g by auto. destruct (do_each (execute (S f) W) l st) as [st1 [e|]]; unfold map_st; cbn [fst snd seq_do]; auto.
  apply IH.
Qed.

Lemma do_times_list : forall k st, sh_loop_list st = l ->
  do_times k (fun st => do_each (execute (S f) W) (sh_loop_list st) st) st = do_times k (do_each (execute 1 W) l) st.
Proof.
  induction k as [|k IH]; intros st E; cbn [do_times]; auto. rewrite E, <- do_each_S.
  destruct (do_each (execute (S f) W) l st) as [st1 [e|]] eqn:E1; cbn [seq_do]; auto.
  apply IH. apply do_each_keep in E1. intuition congruence.
Qed.

Hypothesis HW : world_frame W.
Lemma good_each : forall st, mem_ok st -> good st (do_each (execute (S f) W) l st).
Proof.
  revert Hl. induction l as [|c l' IH]; intros Hl' st M; cbn [do_each]; [apply good_self; auto|].
  apply good_seq.
  - apply good_execute_simple; auto. apply Hl'; left; auto.
  - intros st1 _ M1. apply IH; auto. intros; apply Hl'; right; auto.
Qed.
Lemma good_times : forall k st, mem_ok st -> good st (do_times k (do_each (execute (S f) W) l) st).
Proof.
  induction k as [|k IH]; intros st M; cbn [do_times]; [apply good_self; auto|].
  apply good_seq; [apply good_each; auto|auto].
Qed.
End Body.

(** ** Invariant *)
Record shell_inv (st : shell) : Prop := {
  si_mem : mem_ok st;
  si_none : sh_loop_n st = None -> sh_loop_list st = [] /\ sh_prompt st = command_prompt (sh_interactive st);
  si_some : forall n, sh_loop_n st = Some n -> 0 < n;
  si_list : forall c, In c (sh_loop_list st) -> ~ is_loop c /\ ~ is_exit c
}.

Lemma loop_active_spec : forall st, shell_inv st -> loop_active st = match sh_loop_n st with Some _ => true | None => false end.
Proof.
  intros st I. unfold loop_active. destruct (sh_loop_n st) as [n|] eqn:E; auto. pose proof (si_some _ I n E).
  destruct (Z.eqb_spec n 0); auto. lia.
Qed.

Lemma inv_error : forall st m, shell_inv st -> shell_inv (fst (error st m)).
Proof.
  intros st m [M N S L]. destruct (good_error st m M) as [M' _]. unfold error in *. cbn [add_err sh_interactive] in *.
  destruct (sh_interactive st) eqn:Ei; constructor; auto; cbn; rewrite Ei; auto.
Qed.
Lemma inv_catch : forall o, shell_inv (fst o) -> shell_inv (fst (catch o)).
Proof. intros [st [e|]] I; unfold catch; auto. destruct (is_exception e); auto. apply inv_error; auto. Qed.

Section Inv.
Variable W : world.
Hypothesis HW : world_frame W.

Lemma inv_simple : forall f st c, shell_inv st -> ~ is_loop c -> shell_inv (fst (execute (S f) W st c)) /\ kept st (fst (execute (S f) W st c)).
Proof.
  intros f st c I H. pose proof (good_execute_simple W HW f st c (si_mem _ I) H) as [M K]. split; auto.
  destruct (execute (S f) W st c) as [st' oe] eqn:E. destruct (execute_keeps_loop f W st c st' oe H E) as [A [B C]].
  cbn [fst] in *. destruct K as [_ [K _]]. constructor; auto.
  - rewrite A, B, C, K. apply (si_none _ I).
  - rewrite A. apply (si_some _ I).
  - rewrite B. apply (si_list _ I).
Qed.

Lemma loop_end_run : forall f st, shell_inv st -> forall n, sh_loop_n st = Some n -> forall v, is_end v = true ->
  loop_command W (execute (S f) W) st v =
  seq_do (do_times (Z.to_nat n) (do_each (execute 1 W) (sh_loop_list st)) (set_prompt st (command_prompt (sh_interactive st))))
         (fun st => done (set_loop st None [])).
Proof.
  intros f st I n E v Hv. unfold loop_command. rewrite Hv, loop_active_spec, E by auto. cbn [negb].
  cbn [sh_loop_n set_prompt]. rewrite E. rewrite do_times_list with (l := sh_loop_list st); auto.
  intros c Hc. apply (si_list _ I c Hc).
Qed.

Lemma inv_loop : forall f st v, shell_inv st ->
  shell_inv (fst (loop_command W (execute (S f) W) st v)) /\ kept st (fst (loop_command W (execute (S f) W) st v)).
Proof.
  intros f st v I. destruct (is_end v) eqn:Ev.
  - destruct (sh_loop_n st) as [n|] eqn:En.
    + rewrite (loop_end_run f st I n En v Ev).
      assert (Hl : forall c, In c (sh_loop_list st) -> ~ is_loop c) by (intros c Hc; apply (si_list _ I c Hc)).
      set (st0 := set_prompt st (command_prompt (sh_interactive st))).
      assert (M0 : mem_ok st0) by (apply (good_same st st0 None); auto; apply (si_mem _ I)).
      pose proof (good_times W 0 _ Hl HW (Z.to_nat n) st0 M0) as [M K].
      destruct (do_times (Z.to_nat n) _ st0) as [st1 oe] eqn:E. apply do_times_keep in E; auto. destruct E as [A [B C]].
      cbn [fst] in *. unfold st0 in *. cbn [sh_loop_n sh_loop_list sh_prompt set_prompt] in *.
      assert (K0 : kept st st1) by (destruct K as [K1 [K2 K3]]; unfold kept; splits; auto).
      destruct oe as [e|]; cbn [seq_do fst done].
      * split; auto. constructor; auto.
        -- rewrite A, En. discriminate.
        -- intros m. rewrite A. apply (si_some _ I).
        -- rewrite B. apply (si_list _ I).
      * split.
        -- constructor; auto; cbn [sh_loop_n sh_loop_list sh_prompt set_loop sh_interactive]; try discriminate.
           ++ destruct M; constructor; auto.
           ++ intros _. split; auto. rewrite C. destruct K0 as [_ [-> _]]. auto.
        -- destruct K0 as [K1 [K2 K3]]; unfold kept; splits; auto.
    + unfold loop_command. rewrite Ev, loop_active_spec, En by auto. cbn [negb]. split; [apply inv_error; auto|].
      apply good_error, (si_mem _ I).
  - unfold loop_command. rewrite Ev.
    assert (X : forall m, shell_inv (fst (error st m)) /\ kept st (fst (error st m))).
    { intros m. split; [apply inv_error; auto|]. apply good_error, (si_mem _ I). }
    destruct (to_int W v) as [n|[]]; auto; try (split; [exact I|apply kept_refl]).
    destruct (0 <? n) eqn:En; auto. rewrite loop_active_spec by auto. destruct (sh_loop_n st) eqn:El; auto.
    pose proof I as [M N S L]. b2p. split.
    + destruct (sh_interactive st) eqn:Ei; constructor; cbn; auto; try discriminate;
        try (intros m E; inv E; auto); destruct M; constructor; auto.
    + destruct (sh_interactive st) eqn:Ei; unfold kept; cbn; splits; auto.
Qed.

Lemma inv_execute : forall f st c, shell_inv st -> shell_inv (fst (execute (S (S f)) W st c)) /\ kept st (fst (execute (S (S f)) W st c)).
Proof.
  intros f st c I. destruct (str_eqb (c_func c) (lit "loop")) eqn:E.
  - rewrite execute_S. unfold call. rewrite E. destruct (bind1 _ _ _ _) as [v|e].
    + destruct (inv_loop f st v I) as [I' K]. split; [apply inv_catch; auto|].
      destruct (good_catch st (loop_command W (execute (S f) W) st v)); auto. split; auto. apply (si_mem _ I').
    + split; [apply inv_catch; auto|]. destruct (good_catch st (st, Some e)); auto. apply good_self, (si_mem _ I).
  - apply inv_simple; auto. intros X. apply str_eqb_eq in X. unfold is_loop in *. congruence.
Qed.

Lemma inv_part : forall f st s, shell_inv st -> shell_inv (fst (execute_part (S (S f)) W st s)) /\ kept st (fst (execute_part (S (S f)) W st s)).
Proof.
  intros f st s I. unfold execute_part.
  assert (X : forall m, shell_inv (fst (error st m)) /\ kept st (fst (error st m))).
  { intros m. split; [apply inv_error; auto|]. apply good_error, (si_mem _ I). }
  destruct (parse W (strip s)) as [c|[]]; auto; try (split; [exact I|apply kept_refl]).
  destruct (str_eqb (c_func c) (lit "exit")) eqn:E1; [apply inv_execute; auto|].
  destruct (loop_active st && negb (str_eqb (c_func c) (lit "loop"))) eqn:E2; [|apply inv_execute; auto].
  apply andb_prop in E2. destruct E2 as [E2 E3]. rewrite loop_active_spec in E2 by auto. destruct (sh_loop_n st) as [n|] eqn:En; [|discriminate].
  pose proof I as [M N S L]. cbn [fst done]. split; [|unfold kept; splits; auto].
  constructor; cbn; auto.
  - destruct M; constructor; auto.
  - intros E; inv E.
  - intros m E. inv E. auto.
  - intros c' Hc'. apply in_app_iff in Hc'. destruct Hc' as [?|[<-|[]]]; auto. unfold is_loop, is_exit. split; intros Y.
    + rewrite Y, str_eqb_refl in E3. discriminate.
    + rewrite Y, str_eqb_refl in E1. discriminate.
Qed.

Lemma inv_reach : forall st st', reach W st st' -> shell_inv st -> shell_inv st' /\ kept st st'.
Proof.
  induction 1 as [st|st st1 s st2 oe R IH E|st st1 t R IH]; intros I.
  - split; auto. apply kept_refl.
  - destruct (IH I) as [I1 K1]. destruct (inv_part 0 st1 s I1) as [I2 K2]. rewrite E in *. cbn [fst] in *. split; auto. eapply kept_trans; eauto.
  - destruct (IH I) as [[M N S L] K1]. split.
    + constructor; auto. destruct M; constructor; auto.
    + destruct K1 as [? [? ?]]. unfold kept; splits; auto.
Qed.

Lemma new_ok : sudoku_ok (new_sudoku (3, 3)).
Proof. apply wf_sudoku_ok. apply new_sudoku_wf; lia. Qed.

Lemma inv_new : forall i, shell_inv (new_shell i).
Proof.
  intros i. constructor; cbn; auto; try discriminate; try contradiction. constructor; cbn.
  - repeat constructor; auto.
  - intros a [<-|[]]; lia.
  - intros s [<-|[]]. apply new_ok.
Qed.
Lemma inv_reachable : forall st, reachable W st -> shell_inv st.
Proof. intros st [i R]. apply (inv_reach _ _ R). apply inv_new. Qed.

Lemma reach_trans : forall a b c, reach W a b -> reach W b c -> reach W a c.
Proof.
  intros a b c H K. revert H. induction K as [st|st st1 s st2 oe R IH E|st st1 t R IH]; intros H.
  - exact H.
  - apply (reach_part W _ st1 s st2 oe); auto.
  - apply reach_out; auto.
Qed.
End Inv.
