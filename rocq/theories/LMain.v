(** Proofs about the program (C96, C97). *)
From Verif Require Import MMain SpecShell LShell LShell2 LShell3 LShell4 LShell5 LShell6 LNotation6.

(** ** Blanks around a line *)
Definition blank_only (b : pystr) : Prop := forall c, In c b -> is_space c = true.

Lemma drop_split : forall f s, exists b, s = b ++ drop_while f s /\ (forall c, In c b -> f c = true) /\
  (forall c t, drop_while f s = c :: t -> f c = false).
Proof.
  intros f. induction s as [|x s IH]; cbn [drop_while].
  - exists []. split; [reflexivity|]. split; [intros c []|discriminate].
  - destruct (f x) eqn:E.
    + destruct IH as [b [H1 [H2 H3]]]. exists (x :: b). splits; auto.
      * cbn [app]. f_equal. auto.
      * intros c [<-|H]; auto.
    + exists []. split; [reflexivity|]. split; [intros c []|]. intros c t H. injection H as <- _. auto.
Qed.
Lemma strip_split : forall s, exists a b, s = a ++ strip s ++ b /\ blank_only a /\ blank_only b.
Proof.
  intros s. unfold strip, strip_by. destruct (drop_split is_space s) as [a [H1 [H2 _]]].
  destruct (drop_split is_space (rev (drop_while is_space s))) as [b [G1 [G2 _]]].
  exists a, (rev b). splits; auto.
  - rewrite H1 at 1. f_equal. rewrite <- (rev_involutive (drop_while is_space s)) at 1. rewrite G1 at 1. apply rev_app_distr.
  - intros c H. apply G2. apply in_rev; auto.
Qed.

Lemma strip_front : forall b s, blank_only b -> strip (b ++ s) = strip s.
Proof. intros b s H. unfold strip, strip_by. rewrite drop_while_spaces; auto. Qed.
Lemma drop_app : forall f s b, drop_while f s <> [] -> drop_while f (s ++ b) = drop_while f s ++ b.
Proof. intros f s b. induction s as [|x s IH]; cbn [app drop_while]; [congruence|]. destruct (f x); auto. Qed.
Lemma strip_back : forall b s, blank_only b -> strip (s ++ b) = strip s.
Proof.
  intros b s H. unfold strip, strip_by. destruct (drop_while is_space s) as [|c t] eqn:E.
  - destruct (drop_split is_space s) as [a [H1 [H2 _]]]. rewrite E, app_nil_r in H1. subst a.
    rewrite drop_while_spaces by auto. replace b with (b ++ []) by apply app_nil_r. rewrite drop_while_spaces; auto.
  - rewrite drop_app by congruence. rewrite E, rev_app_distr, drop_while_spaces; auto. intros x Hx. apply H, in_rev; auto.
Qed.

Lemma semi_none : forall s, ~ In 59 s -> split_go (lit ";") s 0 = [s].
Proof.
  intros s H. apply split_go_absent; [discriminate|]. intros [a [b E]]. apply H. rewrite E. apply in_app_iff. right. left; auto.
Qed.
Lemma parts_front : forall b s, ~ In 59 b ->
  exists x l, split_go (lit ";") s 0 = x :: l /\ split_go (lit ";") (b ++ s) 0 = (b ++ x) :: l.
Proof.
  intros b s Hb. destruct (in_dec Z.eq_dec 59 s) as [I|I].
  - assert (F : exists l r, s = l ++ 59 :: r /\ ~ In 59 l).
    { clear Hb. induction s as [|c s IH]; [destruct I|]. destruct (Z.eq_dec c 59) as [->|N]; [exists [], s; auto|].
      destruct I as [I|I]; [congruence|]. destruct (IH I) as [l [r [-> Q]]]. exists (c :: l), r. split; auto.
      intros [X|X]; auto. }
    destruct F as [l [r [-> Q]]]. exists l, (split_go (lit ";") r 0). rewrite app_assoc.
    change (lit ";") with [59]. rewrite !split_app. change [59] with (lit ";").
    rewrite (semi_none l), (semi_none (b ++ l)); auto. rewrite in_app_iff; tauto.
  - exists s, []. rewrite !semi_none; auto. rewrite in_app_iff; tauto.
Qed.
Lemma parts_back : forall b s, ~ In 59 b ->
  exists l x, split_go (lit ";") s 0 = l ++ [x] /\ split_go (lit ";") (s ++ b) 0 = l ++ [x ++ b].
Proof.
  intros b s Hb. destruct (in_dec Z.eq_dec 59 s) as [I|I].
  - assert (F : exists l r, s = l ++ 59 :: r /\ ~ In 59 r).
    { clear Hb. induction s as [|c s IH]; [destruct I|]. destruct (in_dec Z.eq_dec 59 s) as [J|J].
      - destruct (IH J) as [l [r [-> Q]]]. exists (c :: l), r. auto.
      - destruct I as [->|I]; [|contradiction]. exists [], s. auto. }
    destruct F as [l [r [-> Q]]]. exists (split_go (lit ";") l 0), r. rewrite <- app_assoc. cbn [app].
    change (lit ";") with [59]. rewrite !split_app. change [59] with (lit ";").
    rewrite (semi_none r), (semi_none (r ++ b)); auto. rewrite in_app_iff; tauto.
  - exists [], s. rewrite !semi_none; auto. rewrite in_app_iff; tauto.
Qed.
Lemma blank_semi : forall b, blank_only b -> ~ In 59 b.
Proof. intros b H I. apply H in I. discriminate. Qed.

Lemma part_strip : forall f W st a b, strip a = strip b -> execute_part f W st a = execute_part f W st b.
Proof. intros f W st a b E. unfold execute_part. rewrite E. reflexivity. Qed.
Lemma each_strip : forall f W l m, Forall2 (fun a b => strip a = strip b) l m -> forall st,
  do_each (execute_part f W) l st = do_each (execute_part f W) m st.
Proof.
  induction 1 as [|a b l m E _ IH]; intros st; cbn [do_each]; auto. rewrite (part_strip f W st a b E).
  destruct (execute_part f W st b) as [st1 [e|]]; cbn [seq_do]; auto.
Qed.
Lemma same_parts : forall l : list pystr, Forall2 (fun a b => strip a = strip b) l l.
Proof. induction l; constructor; auto. Qed.

Lemma line_strip : forall f W st s, execute_line f W st (strip s) = execute_line f W st s.
Proof.
  intros f W st s. destruct (strip_split s) as [a [b [E [A B]]]]. unfold execute_line.
  transitivity (do_each (execute_part f W) (split_go (lit ";") (strip s ++ b) 0) st).
  - destruct (parts_back b (strip s) (blank_semi _ B)) as [l [x [-> ->]]]. apply each_strip. apply Forall2_app; [apply same_parts|].
    constructor; [|constructor]. symmetry. apply strip_back; auto.
  - rewrite E at 2. destruct (parts_front a (strip s ++ b) (blank_semi _ A)) as [x [l [-> ->]]]. apply each_strip.
    constructor; [|apply same_parts]. symmetry. apply strip_front; auto.
Qed.

(** ** A shell that is not interactive prints no prompts *)
Definition quiet (st : shell) : Prop := sh_interactive st = false /\ sh_prompt st = [].

Section Quiet.
Variable W : world.
Hypothesis HW : world_ok W.

Lemma quiet_part : forall f st s, shell_inv st -> quiet st -> quiet (fst (execute_part (S (S f)) W st s)).
Proof.
  intros f st s I [Q1 Q2]. pose proof (inv_part W HW f st s I) as [_ [_ [K _]]]. split; [congruence|].
  assert (X : forall m, sh_prompt (fst (error st m)) = []).
  { intros m. unfold error. cbn. destruct (sh_interactive st); auto. }
  assert (Ex : forall c, sh_prompt (fst (execute (S (S f)) W st c)) = []).
  { intros c. destruct (str_eqb (c_func c) (lit "loop")) eqn:E.
    - rewrite execute_S. unfold call. rewrite E.
      assert (Ct : forall o, sh_prompt (fst o) = [] -> sh_prompt (fst (catch o)) = []).
      { intros [st1 [e|]] H; cbn [catch fst done] in *; auto. destruct (is_exception e); auto. unfold error. cbn.
        destruct (sh_interactive st1); auto. }
      apply Ct. destruct (bind1 _ _ _ _) as [v|e]; [|auto].
      destruct (is_end v) eqn:Ev.
      + destruct (sh_loop_n st) as [n|] eqn:En.
        * rewrite (loop_end_run W f st I n En v Ev).
          assert (Hl : forall c, In c (sh_loop_list st) -> ~ is_loop c) by (intros x Hx; apply (si_list _ I x Hx)).
          destruct (do_times _ _ _) as [st1 oe] eqn:D. apply do_times_keep in D; auto. destruct D as [_ [_ D]].
          cbn [set_prompt sh_prompt] in D. rewrite Q1 in D. destruct oe; cbn; auto.
        * unfold loop_command. rewrite Ev, loop_active_spec, En by auto. cbn [negb]. apply X.
      + unfold loop_command. rewrite Ev. destruct (to_int W v) as [n|[]]; auto.
        destruct (0 <? n); auto. destruct (loop_active st); auto. rewrite Q1. cbn. auto.
    - destruct (execute (S (S f)) W st c) as [st1 oe] eqn:D. apply execute_keeps_loop in D.
      + cbn [fst]. destruct D as [_ [_ ->]]. auto.
      + intros Y. unfold is_loop in Y. rewrite Y in E. discriminate. }
  unfold execute_part. destruct (parse W (strip s)) as [c|[]]; auto.
  destruct (str_eqb (c_func c) (lit "exit")); auto. destruct (_ && _); auto.
Qed.
Lemma quiet_each : forall f l st, shell_inv st -> quiet st -> quiet (fst (do_each (execute_part (S (S f)) W) l st)).
Proof.
  intros f. induction l as [|s l IH]; intros st I Q; cbn [do_each]; auto.
  pose proof (quiet_part f st s I Q) as Q1. pose proof (proj1 (inv_part W HW f st s I)) as I1.
  destruct (execute_part (S (S f)) W st s) as [st1 [e|]]; cbn [seq_do fst] in *; auto.
Qed.
Lemma out_nil : forall st, add_out st [] = st.
Proof. intros []. unfold add_out. cbn. rewrite app_nil_r. reflexivity. Qed.

Lemma one_line : forall f st text line, shell_inv st -> quiet st -> sh_running st = true ->
  line <> [] -> line_text line = text -> text <> [] -> ends_with_backslash text = false ->
  run_loop (S (S f)) W [line] [] st = execute_line (S (S f)) W st text.
Proof.
  intros f st text line I [Q1 Q2] R L E T B. cbn [run_loop]. rewrite R, Q2, out_nil. destruct line as [|c line]; [congruence|].
  rewrite E, B. cbn [app]. destruct text as [|d text]; [congruence|].
  pose proof (quiet_each f (split_go (lit ";") (d :: text) 0) st I (conj Q1 Q2)) as [P1 P2].
  change (do_each (execute_part (S (S f)) W) (split_go (lit ";") (d :: text) 0) st) with (execute_line (S (S f)) W st (d :: text)) in P1, P2.
  destruct (execute_line (S (S f)) W st (d :: text)) as [st1 [e|]]; cbn [seq_do fst] in *; auto.
  destruct (sh_running st1); auto. rewrite P2, out_nil, P1. reflexivity.
Qed.

Lemma C97_command_proof : forall f banner line, ~ In 35 line -> ~ In 10 line -> strip line <> [] ->
  ends_with_backslash (strip line) = false ->
  main (S (S f)) W banner (ICommand line) = main (S (S f)) W banner (IFile false [line ++ [10]]).
Proof.
  intros f banner line H1 H2 H3 H4. cbn [main]. unfold run. cbn [new_shell sh_interactive].
  change (mkShell false (command_prompt false) [new_sudoku (3, 3)] 0 true None [] [] [] [] 0) with (new_shell false).
  rewrite (one_line f (new_shell false) (strip line) (line ++ [10])); auto.
  - rewrite line_strip. reflexivity.
  - apply inv_new.
  - split; reflexivity.
  - destruct line; discriminate.
  - rewrite text_newline, text_plain; auto.
Qed.
End Quiet.

(** ** The program *)
Lemma C96_file_proof : forall f W banner files tty stdin name command, name <> [] ->
  program f W banner files tty stdin (Some name) command =
  match files name with
  | FOpen t input => end_of (run f W banner input (new_shell t))
  | FError text => mkEnding None [MText text] 1
  end.
Proof. intros f W banner files tty stdin [|c name] command H; [congruence|]. unfold program. cbn [given main]. destruct (files (c :: name)); reflexivity. Qed.

Lemma C96_command_proof : forall f W banner files tty stdin filename line, filename = None \/ filename = Some [] -> line <> [] ->
  program f W banner files tty stdin filename (Some line) = end_of (execute_line f W (new_shell false) line).
Proof. intros f W banner files tty stdin filename [|c line] [-> | ->] H; try congruence; reflexivity. Qed.

Lemma C96_stdin_proof : forall f W banner files tty stdin filename command, filename = None \/ filename = Some [] ->
  command = None \/ command = Some [] ->
  program f W banner files tty stdin filename command = end_of (run f W banner stdin (new_shell tty)).
Proof. intros f W banner files tty stdin filename command [-> | ->] [-> | ->]; reflexivity. Qed.

(** The shell used by the program is interactive. *)
Lemma C96_status_proof : forall W, world_ok W -> literal_total W -> forall f banner files tty stdin filename command,
  let r := program (S (S f)) W banner files tty stdin filename command in
  (en_status r = 0 \/ en_status r = 1) /\
  match en_shell r with
  | None => en_status r = 1 /\ exists text, en_err r = [MText text]
  | Some st =>
      en_err r = sh_err st /\
      (sh_interactive st = true -> en_status r = 0) /\
      (sh_interactive st = false -> (en_status r = 0 <-> en_err r = []) /\ (length (en_err r) <= 1)%nat)
  end.
Proof.
  intros W HW L f banner files tty stdin filename command r.
  assert (B : forall st0 o, sh_err st0 = [] -> batch_ok st0 o -> let r := end_of o in
    (en_status r = 0 \/ en_status r = 1) /\
    match en_shell r with
    | None => en_status r = 1 /\ exists text, en_err r = [MText text]
    | Some st =>
        en_err r = sh_err st /\ (sh_interactive st = true -> en_status r = 0) /\
        (sh_interactive st = false -> (en_status r = 0 <-> en_err r = []) /\ (length (en_err r) <= 1)%nat)
    end).
  { intros st0 [st1 oe] E [B1 B2]. cbn [end_of en_status en_shell en_err fst snd] in *. rewrite B1.
    destruct (sh_interactive st0).
    - subst oe. cbn [status_of]. splits; auto. discriminate.
    - rewrite E in B2. destruct B2 as [[-> ->]|[-> [m ->]]]; cbn [status_of app length].
      + split; [auto|]. split; [auto|]. split; [discriminate|]. intros _. split; [tauto|lia].
      + split; [auto|]. split; [auto|]. split; [discriminate|]. intros _. split; [split; discriminate|lia]. }
  assert (R : forall t input, batch_ok (new_shell t) (run (S (S f)) W banner input (new_shell t))).
  { intros t input. unfold run. cbn [new_shell sh_interactive].
    change (mkShell t (command_prompt t) [new_sudoku (3, 3)] 0 true None [] [] [] [] 0) with (new_shell t).
    destruct t; [|apply batch_run; auto; apply inv_new].
    pose proof (batch_run W HW f input [] (add_out (new_shell true) banner) (inv_add_out _ _ (inv_new _)) L) as [X1 X2].
    split; auto. }
  unfold r, program. destruct (given filename) as [name|].
  - destruct (files name) as [t input|text]; cbn [main].
    + apply (B (new_shell t)); auto.
    + cbn. splits; eauto.
  - destruct (given command) as [line|]; cbn [main].
    + apply (B (new_shell false)); auto. apply batch_line; auto. apply inv_new.
    + apply (B (new_shell tty)); auto.
Qed.

Lemma C96_crash_proof : forall W f banner files tty stdin filename line name x rest e, filename = None \/ filename = Some [] ->
  ~ In 59 line -> split_go (lit " ") (strip line) 0 = name :: x :: rest ->
  w_literal W x = LitRaise e -> (forall n, e <> SystemExit n) -> e <> KeyError -> e <> ValueError -> cut (lit "=") x = None ->
  ~ In x (dkeys COMMANDS) -> ~ In x SHELL_KEYWORDS ->
  program f W banner files tty stdin filename (Some line) = mkEnding (Some (new_shell false)) [] 1.
Proof.
  intros W f banner files tty stdin filename line name x rest e F H59 S L E0 E1 E2 C K1 K2.
  rewrite C96_command_proof; auto; [|intros ->; discriminate S].
  unfold execute_line. rewrite (semi_none _ H59). cbn [do_each]. rewrite (literal_crash W f _ line name x rest e S L E1 E2 C K1 K2).
  unfold seq_do, end_of. cbn [fst snd]. destruct e; cbn [status_of]; try reflexivity. exfalso. eapply E0; reflexivity.
Qed.
