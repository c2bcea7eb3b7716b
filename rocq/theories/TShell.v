(** The tests of sudokutools/tests/test_shell.py, run on the model.

    The model is run on the concrete data of the project's own tests.  These are tests of the model,
    not proofs about it: they guard against errors in the translation from Python.  The results are computed
    when the file is compiled ([Eval vm_compute]); each test compares the computed result with the expected one. *)
From Coq Require Import String.
From Verif Require Import MShellFull PHelp PGenerate.
Import ListNotations.
Open Scope string_scope.
Open Scope Z_scope.

(** literal_eval for the texts of the tests; all others are decimal numbers or not valid *)
Definition puzzle : pystr := lit "008000000000000001200140050000200060070001503400060017093028070840000000002010000".
Definition quoted (s : pystr) : pystr := List.app [39] (List.app s [39]).
Definition test_literal (s : pystr) : lit_result :=
  if str_eqb s (lit "None") then LitOk VNone
  else if str_eqb s (lit "False") then LitOk (VBool false)
  else if str_eqb s (lit "2,3,4") then LitOk (VTuple [VInt 2; VInt 3; VInt 4])
  else if str_eqb s (lit "5,6") then LitOk (VTuple [VInt 5; VInt 6])
  else if str_eqb s (lit "1,2") then LitOk (VTuple [VInt 1; VInt 2])
  else if str_eqb s (quoted puzzle) then LitOk (VStr puzzle)
  else if str_eqb s (quoted (lit "evil")) then LitOk (VStr (lit "evil"))
  else if str_eqb s (quoted (lit "screen")) then LitOk (VStr (lit "screen"))
  else if str_eqb s (quoted (lit "sudoku")) then LitOk (VStr (lit "sudoku"))
  else if str_eqb s (quoted (lit "me")) then LitOk (VStr (lit "me"))
  else if str_eqb s (quoted (lit "please")) then LitOk (VStr (lit "please"))
  else if str_eqb s (quoted (lit "now")) then LitOk (VStr (lit "now"))
  else match int_of_str s with Ok n => LitOk (VInt n) | Err _ => LitInvalid end.
Definition test_other : world := mkWorld test_literal (fun _ => Err TypeError) (fun _ _ _ _ => RRaise AssertionError) (fun _ _ s _ _ => (s, RRaise AssertionError)).
(** Random decisions that differ from try to try *)
Definition rot {A} (k : nat) (l : list A) : list A := List.app (skipn k l) (firstn k l).
Definition co (k : nat) : create_oracle :=
  {| co_row := 5; co_col := 2; co_shuffle := rot k; co_ord := fun _ l => rot (Nat.modulo k (Nat.max 1 (List.length l))) l |}.
Definition test_chance : chance :=
  mkChance (fun _ => {| go_create := co 3; go_shuffle := @rev coord; go_ord := fun _ _ l => l |})
           (fun _ t => (co (Z.to_nat t), fun _ l => l)) (fun _ _ l => l).
Definition test_world : world := full_world help_docs test_chance test_other.

(** ParseTests *)
Definition test_args_run := Eval vm_compute in
  [(parse test_world (lit "exit 1 2 5 None 2,3,4"), Ok (mkCommand (lit "exit") [lit "shell"] [VInt 1; VInt 2; VInt 5; VNone; VTuple [VInt 2; VInt 3; VInt 4]] []))].
Example test_args : map fst test_args_run = map snd test_args_run.
Proof. reflexivity. Qed.
Definition test_kwargs_run := Eval vm_compute in
  [(parse test_world (lit "exit 2 1 4 2 max_size=32 include=False"), Ok (mkCommand (lit "exit") [lit "shell"] [VInt 2; VInt 1; VInt 4; VInt 2]
        [(lit "max_size", VInt 32); (lit "include", VBool false)]))].
Example test_kwargs : map fst test_kwargs_run = map snd test_kwargs_run.
Proof. reflexivity. Qed.

(** HelpTests.test_help_complete *)
Definition test_help_complete_run := Eval vm_compute in
  [(List.length (concat (map snd COMMANDS_HELP)), List.length COMMANDS)].
Example test_help_complete : map fst test_help_complete_run = map snd test_help_complete_run.
Proof. reflexivity. Qed.

(** ExitTests.test_exit_in_loop *)
Definition test_exit_in_loop_run := Eval vm_compute in
  [(sh_running (fst (seq_do (execute_line 2 test_world (new_shell true) (lit "loop 3"))
                          (fun st => execute_line 2 test_world st (lit "exit")))), false)].
Example test_exit_in_loop : map fst test_exit_in_loop_run = map snd test_exit_in_loop_run.
Proof. reflexivity. Qed.

(** Execute lines one after the other; for each of them whether an error was reported.  (The tests replace [error], so that
    the shell goes on after an error, as an interactive shell does.) *)
Fixpoint errors (st : shell) (lines : list pystr) : list bool :=
  match lines with
  | [] => []
  | l :: t =>
      let (st', e) := execute_line 2 test_world st l in
      (match e with None => negb (py_len (sh_err st') =? py_len (sh_err st)) | Some _ => true end) :: errors st' t
  end.

(** tests/test_shell.py:49-71 SHELL_COMMANDS_SUCCEED, without get and get_candidates: the test also replaces [_print], which
    hides that printing their results raises TypeError (property C67). *)
Definition SHELL_COMMANDS_SUCCEED : list pystr :=
  [lit "new";
   List.app (lit "decode ") (quoted puzzle);
   lit "generate min_count=60";
   lit "generate min_count=60; generate_from_template tries=5";
   lit "set 0 0 8";
   lit "set_candidates 0 0 5,6";
   lit "remove_candidates 0 0 1,2";
   lit "new; encode";
   lit "new; print";
   lit "clear";
   lit "generate min_count=40; solve";
   lit "loop 3; new; loop end";
   lit "push";
   lit "push; pop";
   lit "push; pop 0";
   lit "help";
   lit "exit"].
Definition test_commands_succeed_run := Eval vm_compute in
  [(errors (new_shell true) SHELL_COMMANDS_SUCCEED, map (fun _ => false) SHELL_COMMANDS_SUCCEED)].
Example test_commands_succeed : map fst test_commands_succeed_run = map snd test_commands_succeed_run.
Proof. reflexivity. Qed.
(** The two commands left out *)
Definition test_get_run := Eval vm_compute in
  [(errors (new_shell true) [lit "get 0 0"; lit "get_candidates 0 0"], [true; true])].
Example test_get : map fst test_get_run = map snd test_get_run.
Proof. reflexivity. Qed.

(** tests/test_shell.py:74-95 SHELL_COMMANDS_FAIL.  (What "encode 1" does is left to the rest of the world, which raises here.) *)
Definition SHELL_COMMANDS_FAIL : list pystr :=
  [lit "new sudoku";
   List.app (lit "decode '") (List.app puzzle (lit " please'"));
   lit "generate min_count=60 rating='evil'";
   lit "new; generate_from_template tries=1";
   lit "get 0 0 3";
   lit "set 20 20 8";
   lit "get_candidates 20 20";
   lit "set_candidates 20 20 5,6";
   lit "remove_candidates 20 20 1,2";
   lit "new; encode 1";
   lit "new; print 2";
   lit "clear 'screen'";
   lit "generate min_count=60; solve 'sudoku'";
   lit "loop 3; loop 3; loop end";
   lit "push 20";
   lit "pop";
   lit "push; pop 1";
   lit "help 'me' 'please'";
   lit "exit 'now'";
   lit "unknown_command"].
Definition test_commands_fail_run := Eval vm_compute in
  [(errors (new_shell true) SHELL_COMMANDS_FAIL, map (fun _ => true) SHELL_COMMANDS_FAIL)].
Example test_commands_fail : map fst test_commands_fail_run = map snd test_commands_fail_run.
Proof. reflexivity. Qed.
