(** Properties C64-C68, C75: the shell.  Statements use only the model functions and the
    specification files; the proofs are in the L*.v files. *)
From Verif Require Import LShell6.

(** For the examples: literal_eval understands decimal numbers, and raises TypeError for {[]}. *)
Definition ex_world : world := std_world (mkWorld
  (fun s => if str_eqb s (lit "{[]}") then LitRaise TypeError
            else match int_of_str s with Ok n => LitOk (VInt n) | Err _ => LitInvalid end)
  (fun _ => Err TypeError) (fun _ _ _ _ => RNone) (fun _ _ s _ _ => (s, RNone))).
Lemma ex_world_ok : world_ok ex_world.
Proof.
  apply std_world_ok. constructor; cbn [w_fun w_sudoku w_int w_literal fst snd]; auto; try (intros; exact I).
  - intros k e E. inversion E. reflexivity.
  - intros s e. destruct (str_eqb s _); intros E; [inversion E; reflexivity|]. destruct (int_of_str s); discriminate.
Qed.
(** The state after some lines *)
Definition after (i : bool) (ls : list pystr) : shell := fst (run_logical ex_world ls (new_shell i)).
(** The number in field (0, 0) of the current sudoku and of the entries of the stack *)
Definition first_field (o : option sudoku) : option Z :=
  match o with Some s => match getitem s 0 0 with Ok v => Some v | Err _ => None end | None => None end.
Lemma run_reach : forall ls st, reach ex_world st (fst (run_logical ex_world ls st)).
Proof.
  assert (H : forall l st, reach ex_world st (fst (do_each (execute_part 2 ex_world) l st))).
  { induction l as [|x l IH]; intros st; cbn [do_each]; [apply reach_refl|].
    destruct (execute_part 2 ex_world st x) as [st1 [e|]] eqn:E; cbn [seq_do fst].
    - eapply reach_part; [apply reach_refl|eauto].
    - eapply reach_trans; [|apply IH]. eapply reach_part; [apply reach_refl|eauto]. }
  induction ls as [|l ls IH]; intros st; cbn [run_logical]; destruct (sh_running st); try apply reach_refl.
  destruct l as [|x l]; [apply IH|]. unfold execute_line. specialize (H (split_go (lit ";") (x :: l) 0) st).
  destruct (do_each _ _ st) as [st1 [e|]]; cbn [seq_do fst] in *; auto. eapply reach_trans; eauto.
Qed.
Lemma after_reachable : forall i ls, reachable ex_world (after i ls).
Proof. intros i ls. exists i. apply run_reach. Qed.

(** C64: push puts the numbers and candidates of the current sudoku on the stack, as a new object; nothing else changes. *)
Theorem C64_push : forall W, world_ok W -> forall st, reachable W st -> sh_loop_n st = None ->
  exists st1 a, execute_part 2 W st (lit "push") = (st1, None) /\
    sh_stack st1 = sh_stack st ++ [a] /\ nth_error (sh_heap st1) a = current st /\
    a <> sh_cur st /\ ~ In a (sh_stack st) /\
    current st1 = current st /\ sh_cur st1 = sh_cur st /\ stacked st1 = stacked st ++ [current st] /\
    sh_running st1 = sh_running st /\ sh_loop_n st1 = None /\ sh_out st1 = sh_out st /\ sh_err st1 = sh_err st.
Proof. intros; apply push_effect; auto. eapply inv_reachable; eauto. Qed.
Print Assumptions C64_push.

(** C64: whatever is executed, every object that is on the stack afterwards and existed before was on the stack before, and its contents are the same. *)
Theorem C64_kept : forall W, world_ok W -> forall st, reachable W st -> forall st', reach W st st' ->
  forall a, In a (sh_stack st') -> (a < length (sh_heap st))%nat ->
    In a (sh_stack st) /\ nth_error (sh_heap st') a = nth_error (sh_heap st) a.
Proof. intros W HW st R st' R'. apply (inv_reach W HW st st' R'). eapply inv_reachable; eauto. Qed.
Print Assumptions C64_kept.

(** C64: pop with a valid position (or without position) makes that entry the current sudoku and removes it from the stack. *)
Theorem C64_pop : forall W, world_ok W -> forall st, reachable W st -> forall s c v p a, sh_loop_n st = None -> parse W (strip s) = Ok c -> pop_arg c v ->
  pop_target W (length (sh_stack st)) v p -> nth_error (sh_stack st) p = Some a ->
  exists st1, execute_part 2 W st s = (st1, None) /\
    sh_cur st1 = a /\ current st1 = nth_error (sh_heap st) a /\
    sh_stack st1 = firstn p (sh_stack st) ++ skipn (S p) (sh_stack st) /\ sh_heap st1 = sh_heap st /\
    sh_running st1 = sh_running st /\ sh_loop_n st1 = None /\ sh_out st1 = sh_out st /\ sh_err st1 = sh_err st.
Proof. intros W HW st R s c v p a H. intros; eapply pop_effect; eauto. eapply inv_reachable; eauto. Qed.
Print Assumptions C64_pop.

(** C64: pop with a bad position or of an empty stack writes an error message (and exits if not interactive) and changes nothing. *)
Theorem C64_pop_error : forall W, world_ok W -> forall st, reachable W st -> forall s c v, sh_loop_n st = None -> parse W (strip s) = Ok c -> pop_arg c v ->
  (forall p, ~ pop_target W (length (sh_stack st)) v p) ->
  exists m, execute_part 2 W st s = error st m.
Proof. intros W HW st R s c v H. intros; eapply pop_error; eauto. eapply inv_reachable; eauto. Qed.
Print Assumptions C64_pop_error.

(** C64: after push, whatever commands follow, pop of that entry restores the numbers and candidates that were saved. *)
Theorem C64_restore : forall W, world_ok W -> forall st, reachable W st -> forall st1 a st2 s c v p st3, sh_loop_n st = None ->
  execute_part 2 W st (lit "push") = (st1, None) -> sh_stack st1 = sh_stack st ++ [a] ->
  reach W st1 st2 -> sh_loop_n st2 = None -> nth_error (sh_stack st2) p = Some a ->
  parse W (strip s) = Ok c -> pop_arg c v -> pop_target W (length (sh_stack st2)) v p ->
  execute_part 2 W st2 s = (st3, None) -> current st3 = current st.
Proof. intros W HW st R st1 a st2 s c v p st3 H. intros; eapply (push_restore W HW st); eauto. eapply inv_reachable; eauto. Qed.
Print Assumptions C64_restore.

(** Two sudokus are saved; the first one is restored after the current sudoku was changed. *)
Example C64_ex :
  let st := after true [lit "set 0 0 5;push"; lit "set 0 0 6"; lit "push"; lit "set 0 0 7"] in
  reachable ex_world st /\ sh_loop_n st = None /\ sh_err st = [] /\
  map first_field (stacked st) = [Some 5; Some 6] /\ first_field (current st) = Some 7 /\
  first_field (current (fst (execute_part 2 ex_world st (lit "pop 0")))) = Some 5 /\
  parse ex_world (strip (lit "pop 0")) = Ok (mkCommand (lit "pop") [lit "shell"] [VInt 0] []) /\
  pop_target ex_world (length (sh_stack st)) (VInt 0) 0.
Proof.
  cbv zeta. split; [apply after_reachable|]. splits; try (match goal with |- _ = _ => vm_compute; reflexivity end).
  right. split; [discriminate|]. exists 0. splits; try reflexivity. left; left; reflexivity.
Qed.

(** C65: entering loop n, a body without loop and exit, and loop end has the same effect, and raises the same exception, as entering the body n times (if it raises, up to the loop that is then still defined). *)
Theorem C65_loop : forall W, world_ok W -> forall st, reachable W st -> forall f s0 c0 v0 n s1 c1 v1 parts cs, sh_loop_n st = None ->
  parse W (strip s0) = Ok c0 -> loop_arg c0 v0 -> as_int W v0 n -> 0 < n ->
  parse W (strip s1) = Ok c1 -> loop_arg c1 v1 -> end_value v1 ->
  Forall2 (fun s c => parse W (strip s) = Ok c /\ ~ is_loop c /\ ~ is_exit c) parts cs ->
  let o1 := do_each (execute_part (S (S f)) W) ([s0] ++ parts ++ [s1]) st in
  let o2 := do_times (Z.to_nat n) (do_each (execute_part (S (S f)) W) parts) st in
  snd o1 = snd o2 /\ loop_reset (fst o1) = fst o2 /\ (snd o2 = None -> fst o1 = fst o2).
Proof. intros W HW st R. intros f s0 c0 v0 n s1 c1 v1 parts cs N. apply loop_equiv; auto. eapply inv_reachable; eauto. Qed.
Print Assumptions C65_loop.

(** C65: loop n starts the definition of a loop, which an interactive shell shows in its prompt. *)
Theorem C65_start : forall W, world_ok W -> forall st, reachable W st -> forall s c v n, sh_loop_n st = None -> parse W (strip s) = Ok c -> loop_arg c v ->
  as_int W v n -> 0 < n ->
  execute_part 2 W st s = done (set_prompt (set_loop st (Some n) []) (if sh_interactive st then lit "loop " ++ str_of_int n ++ lit "> " else sh_prompt st)).
Proof. intros W HW st R s c v n N. apply loop_start; auto. eapply inv_reachable; eauto. Qed.
Print Assumptions C65_start.

(** C65: loop end without loop, loop n within a loop and loop n with anything but a number above 0 write an error message (and exit if not interactive) and change nothing. *)
Theorem C65_refused : forall W, world_ok W -> forall st, reachable W st -> forall s c v, parse W (strip s) = Ok c -> loop_arg c v ->
  (end_value v /\ sh_loop_n st = None \/ ~ end_value v /\ (sh_loop_n st <> None \/ forall n, as_int W v n -> n <= 0)) ->
  exists m, execute_part 2 W st s = error st m.
Proof. intros W HW st R s c v. apply loop_refused; auto. eapply inv_reachable; eauto. Qed.
Print Assumptions C65_refused.

(** C65: while a loop is being defined, commands other than loop and exit are only noted. *)
Theorem C65_not_executed : forall W, world_ok W -> forall st, reachable W st -> forall s c n, sh_loop_n st = Some n -> parse W (strip s) = Ok c -> ~ is_loop c -> ~ is_exit c ->
  execute_part 2 W st s = done (set_loop st (Some n) (sh_loop_list st ++ [c])).
Proof. intros W HW st R s c n. apply part_append. apply inv_reachable with W; auto. Qed.
Print Assumptions C65_not_executed.

(** C65: exit takes effect immediately, whether a loop is being defined or not. *)
Theorem C65_exit : forall W f st, execute_part (S f) W st (lit "exit") = done (set_running st false).
Proof. exact exit_now. Qed.
Print Assumptions C65_exit.

(** C65: the recursion of execute through loop_command has depth at most 2. *)
Theorem C65_depth : forall W, world_ok W -> forall st, reachable W st -> forall f s, execute_part (S (S f)) W st s = execute_part 2 W st s.
Proof. intros W HW st R f s. apply part_depth; auto. apply inv_reachable with W; auto. Qed.
Print Assumptions C65_depth.

(** The body is executed three times, at loop end. *)
Example C65_ex :
  let st := after false [lit "loop 3"; lit "push"; lit "set 0 0 4"] in
  let st' := after false [lit "loop 3"; lit "push"; lit "set 0 0 4"; lit "loop end"] in
  sh_loop_n st = Some 3 /\ stacked st = [] /\ first_field (current st) = Some 0 /\
  sh_loop_n st' = None /\ sh_loop_list st' = [] /\ map first_field (stacked st') = [Some 0; Some 4; Some 4] /\
  sh_err st' = [] /\ first_field (current st') = Some 4.
Proof. cbv zeta. splits; vm_compute; reflexivity. Qed.

(** The error messages for refused loops; True and strings of digits are numbers for loop and pop. *)
Example C65_refused_ex :
  sh_err (after true [lit "loop end"; lit "loop 0"; lit "loop -1"; lit "loop end=3"; lit "loop n=2"; lit "loop 3"; lit "loop"; lit "exit"]) =
    [MText (lit "No loop defined."); MText (lit "loop command n must be int > 0"); MText (lit "loop command n must be int > 0");
     MExn TypeError; MText (lit "Run current loop first ('loop end')."); MExn TypeError] /\
  sh_prompt (after true [lit "loop 12"]) = lit "loop 12> " /\
  as_int ex_world (VBool true) 1 /\ as_int ex_world (VBool false) 0 /\ as_int ex_world (VStr (lit "12")) 12.
Proof.
  splits; try (match goal with |- _ = _ => vm_compute; reflexivity end).
  - left; right; left. split; reflexivity.
  - left; right; right. split; reflexivity.
  - right; left. exists (lit "12"). split; vm_compute; reflexivity.
Qed.

(** C66: a command that writes an error message changes nothing else, except for what the library function it called did to the current sudoku (a loop end that runs a loop executes other commands, see C65). *)
Theorem C66_frame : forall W, world_ok W -> forall st, reachable W st -> forall s st' oe, execute_part 2 W st s = (st', oe) -> sh_err st' <> sh_err st ->
  (forall c v n, parse W (strip s) = Ok c -> loop_arg c v -> end_value v -> sh_loop_n st = Some n -> False) ->
  exists c st1 m, failed_call W st c st1 /\ sh_err st1 = sh_err st /\ (st', oe) = error st1 m /\
    (parse W (strip s) = Ok c \/ st1 = st).
Proof. intros W HW st R s st' oe. apply error_frame; auto. eapply inv_reachable; eauto. Qed.
Print Assumptions C66_frame.

(** C66: if not interactive, a command either writes no message and raises nothing, or writes one message and terminates the shell with status 1. *)
Theorem C66_batch_command : forall W, world_ok W -> forall st, reachable W st -> literal_total W -> forall f s, batch_ok st (execute_part (S (S f)) W st s).
Proof. intros W HW st R L f s. apply batch_part; auto. eapply inv_reachable; eauto. Qed.
Print Assumptions C66_batch_command.

(** C66: the same for a whole script: it ends without message, or with one message and exit status 1. *)
Theorem C66_batch_run : forall W, world_ok W -> literal_total W -> forall f banner i, match i with IFile tty _ => tty = false | ICommand _ => True end -> batch_ok (new_shell false) (main (S (S f)) W banner i).
Proof. intros W HW L f banner [tty input|line] H; cbn [main]; [subst|]. 
  - apply batch_run; auto. apply inv_new.
  - apply batch_line; auto. apply inv_new. Qed.
Print Assumptions C66_batch_run.

(** pop of the empty stack; the second line is not executed if the shell is not interactive. *)
Example C66_ex : exists e,
  run_logical ex_world [lit "set 0 0 5;pop"; lit "set 0 0 6"] (new_shell false) = (e, Some (SystemExit 1)) /\
  sh_err e = [MText (lit "stack is empty")] /\ first_field (current e) = Some 5.
Proof. eexists. splits; [> vm_compute; reflexivity ..]. Qed.

(** C67: what holds is that a string returned by the library function of a command is printed (print, encode, view). *)
Theorem C67_text_printed_partial : forall W, world_ok W -> forall st, reachable W st -> forall line c s s' t, sh_loop_n st = None ->
  parse W (strip line) = Ok c -> In (lit "sudoku") (c_special c) -> current st = Some s ->
  w_sudoku W (sh_calls st) (c_func c) s (c_args c) (c_kwargs c) = (s', RText t) ->
  exists st', execute_part 2 W st line = done st' /\ sh_out st' = sh_out st ++ t ++ [10] /\
    sh_err st' = sh_err st /\ current st' = Some s' /\ sh_cur st' = sh_cur st /\ sh_stack st' = sh_stack st.
Proof. intros W HW st R line c s s' t N. apply text_printed; auto. apply inv_reachable with W; auto. Qed.
Print Assumptions C67_text_printed_partial.

(** C67: print, encode and view print what the functions return. *)
Theorem C67_print_partial : forall O, world_ok O -> forall st, reachable (std_world O) st -> sh_loop_n st = None ->
  forall line name s t, parse (std_world O) (strip line) = Ok (mkCommand name [lit "sudoku"] [] []) -> current st = Some s ->
  (name = lit "print" /\ sudoku_str s = Ok t \/ name = lit "encode" /\ MCodec.encode s [] [] false = Ok t \/
   name = lit "view" /\ view s true None (lit "*") true = Ok t) ->
  execute_part 2 (std_world O) st line = done (add_out (next_call st) (t ++ [10])).
Proof. intros O HO st R N line name s t P C [[E1 E2]|[[E1 E2]|[E1 E2]]]; subst name;
  assert (I : shell_inv st) by (eapply inv_reachable; [|eassumption]; apply frame_of, std_world_ok; auto).
  - eapply print_shows; eauto.
  - eapply encode_shows; eauto.
  - eapply view_shows; eauto. Qed.
Print Assumptions C67_print_partial.

(** C67: in no state do get and get_candidates print the value; they write an error message, print nothing and change nothing. *)
Theorem C67_get_refuted : forall O, world_ok O -> forall st, reachable (std_world O) st -> sh_loop_n st = None ->
  forall line name r c s, parse (std_world O) (strip line) = Ok (mkCommand name [lit "sudoku"] [VInt r; VInt c] []) -> current st = Some s ->
  (name = lit "get" /\ (exists v, getitem s r c = Ok v) \/ name = lit "get_candidates" /\ (exists v, get_candidates s r c = Ok v)) ->
  execute_part 2 (std_world O) st line = error (next_call st) (MExn TypeError).
Proof. intros O HO st R N line name r c s P C [[E1 [v E2]]|[E1 [v E2]]]; subst name;
  assert (I : shell_inv st) by (eapply inv_reachable; [|eassumption]; apply frame_of, std_world_ok; auto).
  - eapply get_fails; eauto.
  - eapply get_candidates_fails; eauto. Qed.
Print Assumptions C67_get_refuted.

Example C67_ex :
  let st := after true [lit "set 0 0 5"; lit "get 0 0"; lit "new"; lit "encode"] in
  sh_err st = [MExn TypeError] /\ sh_out st = repeat 48 81 ++ [10] /\
  parse ex_world (strip (lit "get 0 0")) = Ok (mkCommand (lit "get") [lit "sudoku"] [VInt 0; VInt 0] []).
Proof. cbv zeta. splits; vm_compute; reflexivity. Qed.

(** C68: the loop of run executes the logical lines of the input (a line ending in a backslash is continued by the next one, blank lines are skipped) and prints nothing but prompts in between. *)
Theorem C68_lines : forall W input st, (forall l, In l input -> l <> []) ->
  snd (run_loop 2 W input [] st) = snd (run_logical W (logical_lines input) st) /\
  same_but_out (fst (run_loop 2 W input [] st)) (fst (run_logical W (logical_lines input) st)).
Proof. exact run_lines. Qed.
Print Assumptions C68_lines.

(** C68: the text of a line does not depend on what follows the first #. *)
Theorem C68_comment : forall a b, ~ In 35 a -> line_text (a ++ 35 :: b) = line_text a.
Proof. exact text_comment. Qed.
Print Assumptions C68_comment.

(** C68: nor on the newline at its end. *)
Theorem C68_newline : forall a, line_text (a ++ [10]) = line_text a.
Proof. exact text_newline. Qed.
Print Assumptions C68_newline.

(** C68: otherwise it is the line without blanks at its ends. *)
Theorem C68_plain : forall a, ~ In 35 a -> ~ In 10 a -> line_text a = strip a.
Proof. exact text_plain. Qed.
Print Assumptions C68_plain.

(** C68: two commands (or lists of commands) separated by ; behave like two lines if both are non-empty and the first one does not exit. *)
Theorem C68_semicolon_partial : forall W st a b, a <> [] -> b <> [] ->
  (forall st', execute_line 2 W st a = (st', None) -> sh_running st' = true) -> sh_running st = true ->
  run_logical W [a ++ 59 :: b] st = run_logical W [a; b] st.
Proof. exact semicolon_lines. Qed.
Print Assumptions C68_semicolon_partial.

(** C68: after exit the rest of the line is still executed. *)
Theorem C68_exit_refuted : forall W i,
  length (sh_stack (fst (run_logical W [lit "exit;push"] (new_shell i)))) = 1%nat /\
  length (sh_stack (fst (run_logical W [lit "exit"; lit "push"] (new_shell i)))) = 0%nat.
Proof. intros W [|]; split; vm_compute; reflexivity. Qed.
Print Assumptions C68_exit_refuted.
(** C68: a ; at the end of a line is an error, an empty line is none. *)
Theorem C68_trailing_refuted : forall W,
  sh_err (fst (run_logical W [lit "push;"] (new_shell true))) = [MExn KeyError] /\
  sh_err (fst (run_logical W [lit "push"; []] (new_shell true))) = [].
Proof. intros W; split; vm_compute; reflexivity. Qed.
Print Assumptions C68_trailing_refuted.

(** Comment, continuation and blank line. *)
Example C68_ex : logical_lines [lit "set 0 \" ++ [10]; lit "  0 5 # five" ++ [10]; [10]; lit "push;push" ++ [10]]
  = [lit "set 0 0 5"; []; lit "push;push"].
Proof. vm_compute. reflexivity. Qed.
Example C68_ex2 :
  let st := fst (main 2 ex_world (lit "hello") (IFile false [lit "set 0 0 \ # five" ++ [10]; lit "  5" ++ [10]; [10]; lit "push;push" ++ [10]])) in
  sh_err st = [] /\ map first_field (stacked st) = [Some 5; Some 5] /\ sh_out st = [].
Proof. cbv zeta. splits; vm_compute; reflexivity. Qed.

(** C75: no input makes an interactive shell raise an exception if literal_eval raises nothing but SyntaxError and ValueError. *)
Theorem C75_survives : forall W, world_ok W -> literal_total W -> forall f banner input st', main (S (S f)) W banner (IFile true input) = st' -> snd st' = None.
Proof. intros W HW L f banner input st' <-. cbn [main]. unfold run. cbn [sh_interactive new_shell].
  apply (batch_run W HW f input [] (add_out (new_shell true) banner)); auto. apply inv_add_out, inv_new. Qed.
Print Assumptions C75_survives.

(** C75: any other exception of literal_eval leaves the shell. *)
Theorem C75_crash : forall W f st line name x rest e, split_go (lit " ") (strip line) 0 = name :: x :: rest ->
  w_literal W x = LitRaise e -> e <> KeyError -> e <> ValueError -> cut (lit "=") x = None ->
  ~ In x (dkeys COMMANDS) -> ~ In x SHELL_KEYWORDS ->
  execute_part f W st line = (st, Some e).
Proof. exact literal_crash. Qed.
Print Assumptions C75_crash.

Example C75_ex : snd (main 2 ex_world (lit "hello") (IFile true [lit "push {[]}" ++ [10]])) = Some TypeError.
Proof. vm_compute. reflexivity. Qed.
