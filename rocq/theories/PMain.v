(** Properties C96, C97: the program.  Statements use only the model functions and the specification files; the proofs
    are in the L*.v files. *)
From Verif Require Import MMain SpecShell LShell6 LMain PHelp PShell.

(** C96: a file name other than the empty one makes the program execute that file; -c and stdin are ignored.  If it cannot be opened the program writes the error and exits with status 1. *)
Theorem C96_file : forall f W banner files tty stdin name command, name <> [] ->
  program f W banner files tty stdin (Some name) command =
  match files name with
  | FOpen t input => end_of (run f W banner input (new_shell t))
  | FError text => mkEnding None [MText text] 1
  end.
Proof. exact C96_file_proof. Qed.
Print Assumptions C96_file.
(** C96: without file name, -c with a line other than the empty one executes that line in a shell that is not interactive. *)
Theorem C96_command : forall f W banner files tty stdin filename line, filename = None \/ filename = Some [] -> line <> [] ->
  program f W banner files tty stdin filename (Some line) = end_of (execute_line f W (new_shell false) line).
Proof. exact C96_command_proof. Qed.
Print Assumptions C96_command.
(** C96: otherwise - also with -c and the empty line - the commands are read from stdin. *)
Theorem C96_stdin : forall f W banner files tty stdin filename command, filename = None \/ filename = Some [] ->
  command = None \/ command = Some [] ->
  program f W banner files tty stdin filename command = end_of (run f W banner stdin (new_shell tty)).
Proof. exact C96_stdin_proof. Qed.
Print Assumptions C96_stdin.
(** C96: the exit status is 0 or 1; if the shell is not interactive it is 0 exactly if nothing was written to stderr, and at most one error message is written. *)
Theorem C96_status : forall W, world_ok W -> literal_total W -> forall f banner files tty stdin filename command,
  let r := program (S (S f)) W banner files tty stdin filename command in
  (en_status r = 0 \/ en_status r = 1) /\
  match en_shell r with
  | None => en_status r = 1 /\ exists text, en_err r = [MText text]
  | Some st =>
      en_err r = sh_err st /\
      (sh_interactive st = true -> en_status r = 0) /\
      (sh_interactive st = false -> (en_status r = 0 <-> en_err r = []) /\ (length (en_err r) <= 1)%nat)
  end.
Proof. exact C96_status_proof. Qed.
Print Assumptions C96_status.
(** C96: an exception of literal_eval that is neither SyntaxError nor ValueError ends the program with status 1 although the shell reports no error (Python prints the traceback). *)
Theorem C96_crash : forall W f banner files tty stdin filename line name x rest e, filename = None \/ filename = Some [] ->
  ~ In 59 line -> split_go (lit " ") (strip line) 0 = name :: x :: rest ->
  w_literal W x = LitRaise e -> (forall n, e <> SystemExit n) -> e <> KeyError -> e <> ValueError -> cut (lit "=") x = None ->
  ~ In x (dkeys COMMANDS) -> ~ In x SHELL_KEYWORDS ->
  program f W banner files tty stdin filename (Some line) = mkEnding (Some (new_shell false)) [] 1.
Proof. exact C96_crash_proof. Qed.
Print Assumptions C96_crash.
Example C96_crash_ex : program 2 ex_world [] (fun _ => FError []) true [] None (Some (lit "push {[]}")) = mkEnding (Some (new_shell false)) [] 1.
Proof. vm_compute. reflexivity. Qed.
Example C96_ex :
  let files name := if str_eqb name (lit "a") then FOpen false [lit "set 0 0 5" ++ [10]; lit "pop" ++ [10]; lit "pop" ++ [10]] else FError (lit "not found") in
  let go f c := program 2 help_world (lit "hello") files true [lit "pop" ++ [10]; lit "stack" ++ [10]] f c in
  en_status (go (Some (lit "a")) (Some (lit "set 0 0 7"))) = 1 /\
  en_err (go (Some (lit "a")) (Some (lit "set 0 0 7"))) = [MText (lit "stack is empty")] /\
  en_err (go (Some (lit "b")) None) = [MText (lit "not found")] /\
  en_status (go None (Some (lit "set 0 0 7"))) = 0 /\
  en_status (go None (Some [])) = 0 /\ en_err (go None (Some [])) = [MText (lit "stack is empty")] /\
  option_map sh_out (en_shell (go (Some []) None)) = Some (lit "hello> > stack has 0 sudokus" ++ [10] ++ lit "> " ++ [10]).
Proof. cbv zeta. splits; vm_compute; reflexivity. Qed.

(** C97: -c with a line that is not blank, has no comment and does not end in a backslash does the same as a file with that line. *)
Theorem C97_command : forall W, world_ok W -> forall f banner line, ~ In 35 line -> ~ In 10 line -> strip line <> [] ->
  ends_with_backslash (strip line) = false ->
  main (S (S f)) W banner (ICommand line) = main (S (S f)) W banner (IFile false [line ++ [10]]).
Proof. exact C97_command_proof. Qed.
Print Assumptions C97_command.
(** C97: blanks around a line and around its commands do not matter. *)
Theorem C97_blanks : forall f W st s, execute_line f W st (strip s) = execute_line f W st s.
Proof. exact line_strip. Qed.
Print Assumptions C97_blanks.
(** A comment after -c is not removed, and a blank line is an error. *)
Example C97_ex :
  sh_out (fst (main 2 help_world [] (ICommand (lit "  push ; stack  ")))) = lit "stack has 1 sudokus" ++ [10] /\
  sh_out (fst (main 2 help_world [] (IFile false [lit "  push ; stack  " ++ [10]]))) = lit "stack has 1 sudokus" ++ [10] /\
  sh_err (fst (main 2 help_world [] (ICommand (lit "push #comment")))) = [MExn ValueError] /\
  sh_err (fst (main 2 help_world [] (IFile false [lit "push #comment"]))) = [] /\
  sh_err (fst (main 2 help_world [] (ICommand (lit " ")))) = [MExn KeyError] /\
  sh_err (fst (main 2 help_world [] (IFile false [lit " "]))) = [].
Proof. splits; vm_compute; reflexivity. Qed.
