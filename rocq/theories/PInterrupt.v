(** Properties C114: Ctrl-C.  Statements use only the model functions and the specification
    files; the proofs are in the L*.v files. *)
From Verif Require Import LBase LShell6 SpecInterrupt LInterrupt.

(** For the examples: library calls with a number in [ks] are interrupted. *)
Definition int_world (ks : list nat) : world :=
  let O := std_world (mkWorld (fun s => match int_of_str s with Ok n => LitOk (VInt n) | Err _ => LitInvalid end)
    (fun _ => Err TypeError) (fun _ _ _ _ => RNone) (fun _ _ s _ _ => (s, RNone))) in
  mkWorld (w_literal O) (w_int O)
    (fun n f args kw => if existsb (Nat.eqb n) ks then RRaise KeyboardInterrupt else w_fun O n f args kw)
    (fun n f s args kw => if existsb (Nat.eqb n) ks then (s, RRaise KeyboardInterrupt) else w_sudoku O n f s args kw).
Lemma int_world_ok : forall ks, world_int (int_world ks).
Proof.
  intros ks. unfold int_world.
  match goal with |- context [w_literal (std_world ?x)] => assert (HO : world_ok (std_world x)) end.
  { apply std_world_ok. constructor; cbn [w_fun w_sudoku w_int w_literal fst snd]; auto; try (intros; exact I).
    - intros k e E. inversion E. reflexivity.
    - intros s e. destruct (int_of_str s); discriminate. }
  cbv zeta. constructor; cbn [w_fun w_sudoku w_int w_literal].
  - intros n f args kw. destruct (existsb _ ks); [right; reflexivity|]. pose proof (wo_fun _ HO n f args kw) as X.
    unfold result_int. destruct (w_fun _ n f args kw); auto.
  - intros n f s args kw Hs. destruct (existsb _ ks); [right; reflexivity|]. pose proof (wo_res _ HO n f s args kw Hs) as X.
    unfold result_int. destruct (snd (w_sudoku _ n f s args kw)); auto.
  - intros n f s args kw Hs. destruct (existsb _ ks); [exact Hs|]. apply (wo_cur _ HO); auto.
  - intros k e E. left. apply (wo_int _ HO _ _ E).
  - intros s e E. exfalso. revert E. cbn. destruct (int_of_str s); discriminate.
Qed.
(** The lines of a session *)
Definition typed (l : list pystr) : list event := map (fun s => ELine (s ++ [10])) l.
Definition session (i : bool) (ks : list nat) (input : list event) : outcome := run_int 2 (int_world ks) input [] (new_shell i).
Definition first_number (st : shell) : option Z :=
  match current st with Some s => match getitem s 0 0 with Ok v => Some v | Err _ => None end | None => None end.

(** C114: without interrupts this loop is that of MShell.v. *)
Theorem C114_none : forall W, world_ok W -> forall st, reachable W st -> forall f input lines,
  run_int (S (S f)) W (map ELine input) lines st = run_loop (S (S f)) W input lines st.
Proof. intros W HW st R f input lines. apply run_same; auto. exact (inv_reachable W HW st R). Qed.
Print Assumptions C114_none.

(** C114: whatever is interrupted and however often, an interactive shell raises nothing; another one ends normally, with one message and status 1, or without a message and status 2. *)
Theorem C114_ends : forall W, world_int W -> forall st, reachable W st -> forall f input lines,
  int_run_ok st (run_int (S (S f)) W input lines st).
Proof. intros W HW st R f input lines. apply run_int_ok; auto. exact (inv_reachable W (int_frame W HW) st R). Qed.
Print Assumptions C114_ends.

(** C114: the sudokus on the stack are not changed. *)
Theorem C114_stack : forall W, world_int W -> forall st, reachable W st -> forall f input lines a,
  let st' := fst (run_int (S (S f)) W input lines st) in
  In a (sh_stack st') -> (a < length (sh_heap st))%nat ->
  In a (sh_stack st) /\ nth_error (sh_heap st') a = nth_error (sh_heap st) a.
Proof.
  intros W HW st R f input lines a st'. destruct (run_int_ok W HW f input lines st (inv_reachable W (int_frame W HW) st R)) as [_ [_ [_ [_ K]]]]. apply K.
Qed.
Print Assumptions C114_stack.

(** C114: Ctrl-C at the prompt of an interactive shell prints a hint and nothing else happens, if no line is continued. *)
Theorem C114_prompt : forall f W rest st, sh_running st = true -> sh_interactive st = true ->
  run_int f W (EInterrupt :: rest) [] st = run_int f W rest [] (add_out st (sh_prompt st ++ exit_hint)).
Proof. exact read_idle. Qed.
Print Assumptions C114_prompt.

(** C114: if a line is continued, the text entered so far is executed. *)
Theorem C114_continued : forall f W rest lines st, sh_running st = true -> sh_interactive st = true -> lines <> [] ->
  forall st1, execute_line f W (add_out st (sh_prompt st ++ exit_hint)) lines = (st1, None) ->
  run_int f W (EInterrupt :: rest) lines st = run_int f W rest [] st1.
Proof. exact read_pending. Qed.
Print Assumptions C114_continued.

(** C114: otherwise the program ends with status 2, silently. *)
Theorem C114_prompt_batch : forall f W rest lines st, sh_running st = true -> sh_interactive st = false ->
  run_int f W (EInterrupt :: rest) lines st = (add_out st (sh_prompt st), Some (SystemExit 2)).
Proof. exact read_batch. Qed.
Print Assumptions C114_prompt_batch.

(** C114: Ctrl-C during a command ends that command and the rest of its line; a newline is printed.  The program ends with status 2 or, if interactive, goes on, but the text of the line is put in front of the next one. *)
Theorem C114_command : forall f W l rest lines st st1, sh_running st = true -> l <> [] -> ends_with_backslash (line_text l) = false ->
  execute_line f W (add_out st (sh_prompt st)) (lines ++ line_text l) = (st1, Some KeyboardInterrupt) ->
  run_int f W (ELine l :: rest) lines st =
  if sh_interactive st1 then run_int f W rest (lines ++ line_text l) (add_out st1 [10]) else (add_out st1 [10], Some (SystemExit 2)).
Proof. exact interrupted. Qed.
Print Assumptions C114_command.

(** C114: so an empty line executes the text again. *)
Theorem C114_again : forall f W rest lines st st1, sh_running st = true -> lines <> [] ->
  execute_line f W (add_out st (sh_prompt st)) lines = (st1, None) ->
  run_int f W (ELine [10] :: rest) lines st = run_int f W rest [] st1.
Proof. exact again. Qed.
Print Assumptions C114_again.

(** C114: an interrupted loop stays defined, although the prompt is that of a shell without loop. *)
Theorem C114_loop : forall W, world_int W -> forall st, reachable W st -> forall s c v n st', sh_loop_n st = Some n ->
  parse W (strip s) = Ok c -> loop_arg c v -> end_value v ->
  execute_part 2 W st s = (st', Some KeyboardInterrupt) ->
  sh_loop_n st' = Some n /\ sh_loop_list st' = sh_loop_list st /\ sh_prompt st' = command_prompt (sh_interactive st).
Proof. intros W HW st R s c v n st'. apply loop_interrupted. exact (inv_reachable W (int_frame W HW) st R). Qed.
Print Assumptions C114_loop.

(** C114: that a line entered after an interrupted command is executed is refuted: the line push is read as init_candidatespush. *)
Theorem C114_next_line_refuted :
  let o := session true [0%nat] (typed [lit "init_candidates"; lit "push"]) in
  snd o = None /\ sh_err (fst o) = [MExn KeyError] /\ sh_stack (fst o) = [] /\
  sh_stack (fst (session true [] (typed [lit "init_candidates"; lit "push"]))) <> [].
Proof. cbv zeta. splits; try (vm_compute; reflexivity). vm_compute. discriminate. Qed.
Print Assumptions C114_next_line_refuted.

(** C114: that Ctrl-C discards a line that is being continued is refuted: its beginning is executed. *)
Theorem C114_discard_refuted :
  let o := session true [] (typed [lit "set 0 0 5;\"] ++ [EInterrupt]) in
  snd o = None /\ first_number (fst o) = Some 5 /\ sh_err (fst o) = [MExn KeyError].
Proof. cbv zeta. splits; vm_compute; reflexivity. Qed.
Print Assumptions C114_discard_refuted.

(** C114: that the prompt shows whether a loop is being defined is refuted: after an interrupted loop commands are only noted. *)
Theorem C114_loop_prompt_refuted :
  let st := fst (execute_line 2 (int_world [0%nat]) (fst (execute_line 2 (int_world [0%nat]) (new_shell true) (lit "loop 2;set 0 0 5"))) (lit "loop end")) in
  let st' := fst (execute_line 2 (int_world [0%nat]) st (lit "set 0 0 6")) in
  sh_prompt st = lit "> " /\ sh_loop_n st = Some 2 /\ first_number st = Some 0 /\ first_number st' = Some 0 /\ sh_prompt st' = lit "> " /\
  length (sh_loop_list st') = 2%nat.
Proof. cbv zeta. splits; vm_compute; reflexivity. Qed.
Print Assumptions C114_loop_prompt_refuted.

Example C114_ex :
  snd (session false [0%nat] (typed [lit "push"; lit "set 0 0 5"; lit "push"])) = Some (SystemExit 2) /\
  sh_out (fst (session false [0%nat] (typed [lit "push"; lit "set 0 0 5"; lit "push"]))) = [10] /\
  length (sh_stack (fst (session false [0%nat] (typed [lit "push"; lit "set 0 0 5"; lit "push"])))) = 1%nat /\
  snd (session false [] (typed [lit "push"] ++ [EInterrupt])) = Some (SystemExit 2) /\
  sh_out (fst (session true [] [EInterrupt])) = lit "> " ++ exit_hint ++ lit "> " ++ [10] /\
  first_number (fst (session true [0%nat] (typed [lit "set 0 0 5"; []]))) = Some 5 /\
  first_number (fst (session true [0%nat] (typed [lit "set 0 0 5"]))) = Some 0 /\
  sh_err (fst (session true [0%nat] (typed [lit "set 0 0 5"; []]))) = [].
Proof. splits; vm_compute; reflexivity. Qed.
