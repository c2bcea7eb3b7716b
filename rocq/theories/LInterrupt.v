(** Proofs about interrupts (C114). *)
From Verif Require Import LBase.
From Verif Require Export SpecInterrupt LShell4.

(** ** The exceptions that leave a line, for any set A of exceptions raised by the world *)
Section Out.
Variable W : world.
Variable A : exn -> Prop.
Hypothesis HF : world_frame W.
Hypothesis Hfun : forall n f args kw e, w_fun W n f args kw = RRaise e -> is_exception e = true \/ A e.
Hypothesis Hres : forall n f s args kw e, sudoku_ok s -> snd (w_sudoku W n f s args kw) = RRaise e -> is_exception e = true \/ A e.
Hypothesis Hint : forall k e, w_int W k = Err e -> is_exception e = true \/ A e.
Hypothesis Hlit : forall s e, w_literal W s = LitRaise e -> A e.

Definition raised (P : exn -> Prop) (st : shell) (o : outcome) : Prop :=
  sh_interactive (fst o) = sh_interactive st /\
  match snd o with
  | None => sh_interactive st = false -> sh_err (fst o) = sh_err st
  | Some e => (P e /\ (sh_interactive st = false -> sh_err (fst o) = sh_err st)) \/
              (e = SystemExit 1 /\ sh_interactive st = false /\ exists m, sh_err (fst o) = sh_err st ++ [m])
  end.
Definition E1 (e : exn) : Prop := is_exception e = true \/ A e.

Lemma raised_weak : forall st o, raised A st o -> raised E1 st o.
Proof. intros st [st' [e|]] [H1 H2]; split; auto. cbn [snd fst] in *. destruct H2 as [[H2 H3]|H2]; [left|right]; auto. split; auto. right; auto. Qed.
Lemma raised_done : forall P st st', sh_interactive st' = sh_interactive st -> sh_err st' = sh_err st -> raised P st (done st').
Proof. intros P st st' H H'. split; cbn; auto. Qed.
Lemma raised_error : forall P st st1 m, sh_interactive st1 = sh_interactive st -> (sh_interactive st = false -> sh_err st1 = sh_err st) -> raised P st (error st1 m).
Proof.
  intros P st st1 m H H'. unfold error. cbn [add_err sh_interactive]. destruct (sh_interactive st1) eqn:E; split; cbn [fst snd done add_err sh_interactive sh_err]; try congruence.
  right. splits; [auto|congruence|]. exists m. rewrite H' by congruence. reflexivity.
Qed.
Lemma raised_some : forall (P : exn -> Prop) st st' e, P e -> sh_interactive st' = sh_interactive st -> sh_err st' = sh_err st -> raised P st (st', Some e).
Proof. intros. split; cbn; auto. Qed.
Lemma raised_catch : forall st o, raised E1 st o -> raised A st (catch o).
Proof.
  intros st [st' [e|]] [H1 H2]; cbn [catch snd fst] in *; [|split; auto].
  destruct H2 as [[[H2|H2] H3]|[-> H2]].
  - rewrite H2. apply raised_error; auto.
  - destruct (is_exception e); [apply raised_error; auto|]. split; cbn; auto.
  - split; cbn; auto.
Qed.
Lemma raised_seq : forall P st o g, raised P st o -> (forall st1, o = (st1, None) -> raised P st1 (g st1)) -> raised P st (seq_do o g).
Proof.
  intros P st [st1 [e|]] g [H1 H2] H; cbn [seq_do fst snd] in *; [split; auto|].
  destruct (H st1 eq_refl) as [K1 K2]. split; [congruence|]. rewrite H1 in K2. destruct (snd (g st1)) as [e|].
  - destruct K2 as [[K2 K3]|[K2 [K3 [m K4]]]]; [left|right; splits; auto; exists m; rewrite K4, H2; auto]. split; auto. intros X. rewrite K3, H2; auto.
  - intros X. rewrite K2, H2; auto.
Qed.

Lemma to_int_out : forall v e, to_int W v = Err e -> E1 e.
Proof.
  intros v e E. destruct v; cbn in E; inv E; try (left; reflexivity); try (apply (Hint _ _ H0)). apply int_of_str_exn in H0. subst; left; reflexivity.
Qed.
Lemma raised_handle : forall st st1 r, (forall e, r = RRaise e -> E1 e) -> sh_interactive st1 = sh_interactive st -> sh_err st1 = sh_err st -> raised E1 st (handle_result st1 r).
Proof.
  intros st st1 r H H1 H2. unfold handle_result. destruct r; try (apply raised_done; auto).
  - apply raised_some; auto. left; reflexivity.
  - apply raised_some; auto.
Qed.
Lemma raised_simple : forall st c, mem_ok st -> ~ is_loop c -> raised E1 st (simple_call W st c).
Proof.
  intros st c M H. unfold simple_call, call. rewrite (str_eqb_false _ _ H).
  assert (B0 : forall e, bind0 (c_args c) (c_kwargs c) = Err e -> e = TypeError).
  { intros e. unfold bind0. destruct (c_args c), (c_kwargs c); intros X; inv X; auto. }
  assert (B1 : forall n d e, bind1 n d (c_args c) (c_kwargs c) = Err e -> e = TypeError).
  { intros n d e. unfold bind1. destruct (c_args c) as [|v [|]], (c_kwargs c) as [|[k x] [|]], d; try (destruct (str_eqb k n)); intros X; inv X; auto. }
  assert (F : forall e, is_exception e = true -> raised E1 st (st, Some e)) by (intros e He; apply raised_some; auto; left; auto).
  destruct (str_eqb (c_func c) (lit "exit")).
  { destruct (bind0 _ _) as [|e] eqn:E; [apply raised_done; auto|]. rewrite (B0 e eq_refl). apply F; auto. }
  destruct (str_eqb (c_func c) (lit "push")).
  { destruct (bind0 _ _) as [|e] eqn:E; [|rewrite (B0 e eq_refl); apply F; auto].
    unfold push_command. destruct (nth_error _ _) as [s|] eqn:En; [|apply F; auto].
    rewrite copy_ok_true by (apply (mo_heap _ M); eapply nth_error_In; eauto). apply raised_done; auto. }
  destruct (str_eqb (c_func c) (lit "pop")).
  { destruct (bind1 _ _ _ _) as [v|e] eqn:E; [|rewrite (B1 _ _ e E); apply F; auto].
    unfold pop_command. destruct (sh_stack st) as [|x l] eqn:Es; [apply raised_error; auto|]. rewrite <- Es in *.
    assert (P : forall p, raised E1 st (stack_pop st p)).
    { intros p. unfold stack_pop. destruct (nth_error (sh_stack st) p); [apply raised_done; auto|apply F; auto]. }
    assert (X : forall u, raised E1 st (match to_int W u with
       | Ok p => if (0 <=? p) && (p <? py_len (sh_stack st)) then stack_pop st (Z.to_nat p) else error st (MText (lit "0 <= position < len(stack)"))
       | Err ValueError => error st (MText (lit "0 <= position < len(stack)"))
       | Err e => (st, Some e) end)).
    { intros u. destruct (to_int W u) as [p|e] eqn:Eu.
      - destruct (_ && _); [apply P|apply raised_error; auto].
      - apply to_int_out in Eu. destruct e; try (apply raised_error; auto; fail); apply raised_some; auto. }
    destruct v; try (apply P); apply X. }
  destruct (str_eqb (c_func c) (lit "stack")).
  { destruct (bind0 _ _) as [|e] eqn:E; [apply raised_done; auto|]. rewrite (B0 e eq_refl). apply F; auto. }
  destruct (str_mem (lit "sudoku") (c_special c)) eqn:Em.
  - destruct (nth_error _ _) as [s|] eqn:En; [|apply F; auto].
    assert (Hs : sudoku_ok s) by (apply (mo_heap _ M); eapply nth_error_In; eauto).
    pose proof (fun e => Hres (sh_calls st) (c_func c) s (c_args c) (c_kwargs c) e Hs) as R.
    destruct (w_sudoku W (sh_calls st) (c_func c) s (c_args c) (c_kwargs c)) as [s' r]. cbn [snd] in R. apply raised_handle; auto.
  - apply raised_handle; auto. intros e. apply Hfun.
Qed.

Lemma raised_exec : forall f st c, mem_ok st -> ~ is_loop c -> raised A st (execute (S f) W st c).
Proof. intros. rewrite execute_simple by auto. apply raised_catch, raised_simple; auto. Qed.
Lemma raised_each : forall f l st, (forall c, In c l -> ~ is_loop c) -> mem_ok st -> raised A st (do_each (execute (S f) W) l st).
Proof.
  intros f l. induction l as [|c l IH]; intros st Hl M; cbn [do_each]; [apply raised_done; auto|].
  apply raised_seq; [apply raised_exec; auto; apply Hl; left; auto|]. intros st1 E.
  apply IH; [intros; apply Hl; right; auto|]. pose proof (good_execute_simple W HF f st c M (Hl c (or_introl eq_refl))) as [M1 _]. rewrite E in M1. auto.
Qed.
Lemma raised_times : forall f l k st, (forall c, In c l -> ~ is_loop c) -> mem_ok st -> raised A st (do_times k (do_each (execute (S f) W) l) st).
Proof.
  intros f l k. induction k as [|k IH]; intros st Hl M; cbn [do_times]; [apply raised_done; auto|].
  apply raised_seq; [apply raised_each; auto|]. intros st1 E. apply IH; auto.
  pose proof (good_each W f l Hl HF st M) as [M1 _]. rewrite E in M1. auto.
Qed.
Lemma raised_execute : forall f st c, shell_inv st -> raised A st (execute (S (S f)) W st c).
Proof.
  intros f st c I. destruct (str_eqb (c_func c) (lit "loop")) eqn:El.
  - rewrite execute_S. apply raised_catch. unfold call. rewrite El. destruct (bind1 _ _ _ _) as [v|e] eqn:Eb.
    + destruct (is_end v) eqn:Ev.
      * destruct (sh_loop_n st) as [n|] eqn:En.
        -- rewrite (loop_end_run W f st I n En v Ev). apply raised_weak, raised_seq.
           ++ match goal with |- raised A st ?o => change (raised A (set_prompt st (command_prompt (sh_interactive st))) o) end. apply (raised_times 0).
              ** intros c' Hc'. apply (si_list _ I c' Hc').
              ** destruct (si_mem _ I); constructor; auto.
           ++ intros st1 _. apply raised_done; auto.
        -- unfold loop_command. rewrite Ev, loop_active_spec, En by auto. cbn [negb]. apply raised_error; auto.
      * unfold loop_command. rewrite Ev. destruct (to_int W v) as [n|e] eqn:Et.
        -- destruct (0 <? n); [|apply raised_error; auto]. destruct (loop_active st); [apply raised_error; auto|].
           apply raised_done; destruct (sh_interactive st) eqn:Ei; auto.
        -- apply to_int_out in Et. destruct e; try (apply raised_error; auto; fail); apply raised_some; auto.
    + assert (e = TypeError).
      { unfold bind1 in Eb. destruct (c_args c) as [|a [|]], (c_kwargs c) as [|[k x] [|]]; try (destruct (str_eqb k _)); inv Eb; auto. }
      subst e. apply raised_some; auto. left; reflexivity.
  - apply raised_exec; [apply (si_mem _ I)|]. intros Z. apply str_eqb_eq in Z. unfold is_loop in *. congruence.
Qed.
Lemma raised_part : forall f st s, shell_inv st -> raised A st (execute_part (S (S f)) W st s).
Proof.
  intros f st s I. unfold execute_part. destruct (parse W (strip s)) as [c|e] eqn:P.
  - destruct (str_eqb (c_func c) (lit "exit")); [apply raised_execute; auto|].
    destruct (loop_active st && _); [apply raised_done; auto|apply raised_execute; auto].
  - apply parse_exn in P. destruct P as [-> |[-> |[t P]]]; [apply raised_error; auto|apply raised_error; auto|].
    apply Hlit in P. destruct e; try (apply raised_error; auto; fail); apply raised_some; auto.
Qed.
Lemma raised_line : forall f st line, shell_inv st -> raised A st (execute_line (S (S f)) W st line).
Proof.
  intros f st line I. unfold execute_line. generalize (split_go (lit ";") line 0). intros l. revert st I.
  induction l as [|s l IH]; intros st I; cbn [do_each]; [apply raised_done; auto|].
  apply raised_seq; [apply raised_part; auto|]. intros st1 E. apply IH.
  destruct (inv_part W HF f st s I) as [I1 _]. rewrite E in I1. auto.
Qed.
End Out.

Lemma inv_line' : forall W, world_frame W -> forall f st line, shell_inv st ->
  shell_inv (fst (execute_line (S (S f)) W st line)) /\ kept st (fst (execute_line (S (S f)) W st line)).
Proof.
  intros W HF f st line I. unfold execute_line. generalize (split_go (lit ";") line 0). intros l. revert st I.
  induction l as [|s l IH]; intros st I; cbn [do_each]; [split; auto; apply kept_refl|].
  destruct (inv_part W HF f st s I) as [I1 K1].
  destruct (execute_part (S (S f)) W st s) as [st1 [e|]]; cbn [seq_do fst] in *; auto.
  destruct (IH st1 I1) as [I2 K2]. split; auto. eapply kept_trans; eauto.
Qed.

(** ** Without interrupts *)
Lemma no_interrupt : forall W, world_ok W -> forall f st line, shell_inv st -> snd (execute_line (S (S f)) W st line) <> Some KeyboardInterrupt.
Proof.
  intros W HW f st line I E.
  pose proof (raised_line W (fun e => is_exception e = true) HW) as R.
  destruct (R) with (f := f) (st := st) (line := line) as [_ R2]; auto.
  - intros n g args kw e X. left. pose proof (wo_fun _ HW n g args kw) as Y. rewrite X in Y. exact Y.
  - intros n g s args kw e Hs X. left. pose proof (wo_res _ HW n g s args kw Hs) as Y. rewrite X in Y. exact Y.
  - intros k e X. left. apply (wo_int _ HW _ _ X).
  - intros s e X. apply (wo_lit _ HW _ _ X).
  - rewrite E in R2. destruct R2 as [[R2 _]|[R2 _]]; discriminate.
Qed.
Lemma run_same : forall W, world_ok W -> forall f input lines st, shell_inv st ->
  run_int (S (S f)) W (map ELine input) lines st = run_loop (S (S f)) W input lines st.
Proof.
  intros W HW f input. induction input as [|line input IH]; intros lines st I; cbn [map run_int run_loop]; auto.
  destruct (sh_running st); auto. cbn [read_event seq_do done].
  destruct line as [|x line]; [reflexivity|]. pose proof (inv_add_out st (sh_prompt st) I) as I'.
  destruct (ends_with_backslash _); [apply IH; auto|].
  destruct (lines ++ line_text (x :: line)) as [|y t]; [cbn [seq_do done]; apply IH; auto|].
  pose proof (no_interrupt W HW f (add_out st (sh_prompt st)) (y :: t) I') as N.
  destruct (inv_line' W HW f (add_out st (sh_prompt st)) (y :: t) I') as [I1 _].
  destruct (execute_line (S (S f)) W (add_out st (sh_prompt st)) (y :: t)) as [st1 [e|]]; cbn [seq_do fst snd] in *; [|apply IH; auto].
  destruct e; auto. congruence.
Qed.

(** ** With interrupts *)
Section Int.
Variable W : world.
Hypothesis HW : world_int W.

Lemma int_frame : world_frame W.
Proof.
  constructor; intros.
  - intros s E. pose proof (wi_fun _ HW n f args kw) as X. rewrite E in X. exact X.
  - intros t E. pose proof (wi_res _ HW n f s args kw H) as X. rewrite E in X. exact X.
  - apply (wi_cur _ HW); auto.
Qed.
Lemma int_line : forall f st line, shell_inv st -> raised (fun e => e = KeyboardInterrupt) st (execute_line (S (S f)) W st line).
Proof.
  intros f st line I. apply raised_line; auto using int_frame.
  - intros n g args kw e X. pose proof (wi_fun _ HW n g args kw) as Y. rewrite X in Y. exact Y.
  - intros n g s args kw e Hs X. pose proof (wi_res _ HW n g s args kw Hs) as Y. rewrite X in Y. exact Y.
  - apply (wi_int _ HW).
  - apply (wi_lit _ HW).
Qed.

Lemma run_int_ok : forall f input lines st, shell_inv st -> int_run_ok st (run_int (S (S f)) W input lines st) /\
  shell_inv (fst (run_int (S (S f)) W input lines st)) /\ kept st (fst (run_int (S (S f)) W input lines st)).
Proof.
  intros f.
  assert (D : forall st st', shell_inv st' -> kept st st' -> sh_err st' = sh_err st -> int_run_ok st (done st') /\ shell_inv (fst (done st')) /\ kept st (fst (done st'))).
  { intros st st' I K E. splits; auto. split; cbn [fst snd done]; [apply K|]. destruct (sh_interactive st); auto. }
  assert (T : forall st st1 o, kept st st1 -> (sh_interactive st = false -> sh_err st1 = sh_err st) -> int_run_ok st1 o /\ shell_inv (fst o) /\ kept st1 (fst o) ->
     int_run_ok st o /\ shell_inv (fst o) /\ kept st (fst o)).
  { intros st st1 o K E [[H1 H2] [H3 H4]]. splits; auto; [|eapply kept_trans; eauto]. destruct K as [_ [K _]]. rewrite K in *. split; auto.
    destruct (sh_interactive st); auto. rewrite E in H2 by auto. exact H2. }
  assert (O : forall st t, kept st (add_out st t)) by (intros st t; unfold kept; splits; auto).
  assert (X2 : forall st st1, sh_interactive st = false -> shell_inv st1 -> kept st st1 -> sh_err st1 = sh_err st ->
     int_run_ok st (st1, Some (SystemExit 2)) /\ shell_inv (fst (st1, Some (SystemExit 2))) /\ kept st (fst (st1, Some (SystemExit 2)))).
  { intros st st1 N I K E. splits; auto. split; cbn [fst snd]; [apply K|]. rewrite N. auto. }
  induction input as [|ev input IH]; intros lines st I; cbn [run_int].
  - destruct (sh_running st); [|apply D; auto using kept_refl]. cbn [add_out sh_interactive].
    destruct (sh_interactive st).
    + apply D; [exact (inv_add_out _ _ (inv_add_out _ _ I))|exact (kept_trans _ _ _ (O st _) (O _ _))|reflexivity].
    + apply D; [exact (inv_add_out _ _ I)|exact (O st _)|reflexivity].
  - destruct (sh_running st); [|apply D; auto using kept_refl].
    set (st0 := add_out st (sh_prompt st)). assert (I0 : shell_inv st0) by (apply inv_add_out; auto).
    assert (K0 : kept st st0) by apply O. apply (T st st0); auto.
    destruct (read_event ev st0) as [o line] eqn:R.
    assert (RO : (exists st1, o = done st1 /\ shell_inv st1 /\ kept st0 st1 /\ sh_err st1 = sh_err st0) \/ (o = (st0, Some (SystemExit 2)) /\ sh_interactive st0 = false)).
    { unfold read_event in R. destruct ev; [inv R; left; exists st0; splits; auto using kept_refl|].
      destruct (sh_interactive st0) eqn:N; inv R; [left|right; split; [reflexivity|reflexivity]]. exists (add_out st0 EXIT_HINT).
      split; [reflexivity|]. split; [exact (inv_add_out _ _ I0)|]. split; [exact (O _ _)|reflexivity]. }
    destruct RO as [[st1 [-> [I1 [K1 E1]]]]|[-> N]]; cbn [seq_do]; [|apply X2; auto using kept_refl].
    cbn [seq_do done]. apply (T st0 st1); auto. clear R K1 E1 K0 I0. cbv beta.
    destruct line as [|x line].
    { destruct (sh_interactive st1); [apply D; [exact (inv_add_out _ _ I1)|exact (O _ _)|reflexivity]|apply D; auto using kept_refl]. }
    destruct (ends_with_backslash _); [apply IH; auto|].
    destruct (lines ++ line_text (x :: line)) as [|y t]; [apply IH; auto|].
    pose proof (int_line f st1 (y :: t) I1) as [P1 P2].
    destruct (inv_line' W int_frame f st1 (y :: t) I1) as [I2 K2].
    destruct (execute_line (S (S f)) W st1 (y :: t)) as [st2 [e|]]; cbn [fst snd] in *.
    + destruct P2 as [[-> P2]|[-> [P3 [m P4]]]].
      * cbn [add_out sh_interactive]. rewrite P1. destruct (sh_interactive st1) eqn:N.
        -- apply (T st1 (add_out st2 [10])); [exact (kept_trans _ _ _ K2 (O _ _))|congruence|apply IH; apply inv_add_out; auto].
        -- exact (X2 st1 (add_out st2 [10]) N (inv_add_out _ _ I2) (kept_trans _ _ _ K2 (O _ _)) (P2 eq_refl)).
      * splits; auto. split; cbn [fst snd]; auto. rewrite P3. right; left. eauto.
    + apply (T st1 st2); auto.
Qed.
End Int.

(** ** Single steps *)
Lemma read_idle : forall f W rest st, sh_running st = true -> sh_interactive st = true ->
  run_int f W (EInterrupt :: rest) [] st = run_int f W rest [] (add_out st (sh_prompt st ++ EXIT_HINT)).
Proof.
  intros f W rest st R I. cbn [run_int read_event]. rewrite R. cbn [add_out sh_interactive]. rewrite I. cbn [seq_do done line_text app].
  replace (line_text [10]) with (@nil Z) by reflexivity. cbn [ends_with_backslash rev app].
  f_equal. unfold add_out. cbn. now rewrite <- app_assoc.
Qed.
Lemma read_pending : forall f W rest lines st, sh_running st = true -> sh_interactive st = true -> lines <> [] ->
  forall st1, execute_line f W (add_out st (sh_prompt st ++ EXIT_HINT)) lines = (st1, None) ->
  run_int f W (EInterrupt :: rest) lines st = run_int f W rest [] st1.
Proof.
  intros f W rest lines st R I N st1 E. cbn [run_int read_event]. rewrite R. cbn [add_out sh_interactive]. rewrite I. cbn [seq_do done].
  replace (line_text [10]) with (@nil Z) by reflexivity. cbn [ends_with_backslash rev app]. rewrite app_nil_r.
  destruct lines as [|x l]; [congruence|]. unfold add_out in *. cbn in *. rewrite <- app_assoc. rewrite E. reflexivity.
Qed.
Lemma read_batch : forall f W rest lines st, sh_running st = true -> sh_interactive st = false ->
  run_int f W (EInterrupt :: rest) lines st = (add_out st (sh_prompt st), Some (SystemExit 2)).
Proof. intros f W rest lines st R I. cbn [run_int read_event]. rewrite R. cbn [add_out sh_interactive]. rewrite I. reflexivity. Qed.

Lemma interrupted : forall f W l rest lines st st1, sh_running st = true -> l <> [] -> ends_with_backslash (line_text l) = false ->
  execute_line f W (add_out st (sh_prompt st)) (lines ++ line_text l) = (st1, Some KeyboardInterrupt) ->
  run_int f W (ELine l :: rest) lines st =
  if sh_interactive st1 then run_int f W rest (lines ++ line_text l) (add_out st1 [10]) else (add_out st1 [10], Some (SystemExit 2)).
Proof.
  intros f W l rest lines st st1 R N B E. cbn [run_int read_event]. rewrite R. cbn [seq_do done].
  destruct l as [|x l]; [congruence|]. rewrite B. destruct (lines ++ line_text (x :: l)) as [|y t] eqn:L.
  - cbn in E. unfold execute_line in E. cbn in E. exfalso. revert E. unfold execute_part.
    replace (parse W (strip [])) with (@Err command KeyError) by reflexivity. unfold error. cbn. destruct (sh_interactive st); discriminate.
  - rewrite E. cbn [add_out sh_interactive]. reflexivity.
Qed.
(** After it an empty line executes the text again. *)
Lemma again : forall f W rest lines st st1, sh_running st = true -> lines <> [] ->
  execute_line f W (add_out st (sh_prompt st)) lines = (st1, None) ->
  run_int f W (ELine [10] :: rest) lines st = run_int f W rest [] st1.
Proof.
  intros f W rest lines st st1 R N E. cbn [run_int read_event]. rewrite R. cbn [seq_do done].
  replace (line_text [10]) with (@nil Z) by reflexivity. cbn [ends_with_backslash rev]. rewrite app_nil_r.
  destruct lines as [|x l]; [congruence|]. rewrite E. reflexivity.
Qed.

(** An interrupted loop stays defined; the prompt does not show it. *)
Lemma loop_interrupted : forall W st s c v n st', shell_inv st -> sh_loop_n st = Some n -> parse W (strip s) = Ok c -> loop_arg c v -> end_value v ->
  execute_part 2 W st s = (st', Some KeyboardInterrupt) ->
  sh_loop_n st' = Some n /\ sh_loop_list st' = sh_loop_list st /\ sh_prompt st' = command_prompt (sh_interactive st).
Proof.
  intros W st s c v n st' I L P A V E. rewrite (part_loop W 0 st s c v I P A) in E.
  assert (Ev : is_end v = true) by (destruct V as [-> |[-> | ->]]; reflexivity).
  rewrite (loop_end_run W 0 st I n L v Ev) in E.
  destruct (do_times (Z.to_nat n) _ _) as [st1 oe] eqn:T. apply do_times_keep in T; [|intros c' Hc'; apply (si_list _ I c' Hc')].
  cbn [set_prompt sh_loop_n sh_loop_list sh_prompt] in T. destruct T as [T1 [T2 T3]]. destruct oe as [e|]; cbn [seq_do catch done] in E; [|discriminate].
  destruct (is_exception e) eqn:X; [unfold error in E; cbn in E; destruct (sh_interactive st1); discriminate|]. inv E. splits; congruence.
Qed.
