(** Model of the loop of Shell.run (sudokutools/shell.py) with KeyboardInterrupt (Ctrl-C).

    The exception can be raised while readline() waits for a line ([EInterrupt]) and by the functions
    of the record [world] of MShell.v, i.e. during a library function (which may leave the current
    sudoku in any state), by int() and by literal_eval.  Simplification: it is raised nowhere else,
    in particular not by the print functions and not in an exception handler. *)
From Verif Require Export MShell.

(** What readline() does (shell.py:383-391) *)
Inductive event : Type :=
| ELine (s : pystr)
| EInterrupt.

(** shell.py:388-389 *)
Definition EXIT_HINT : pystr := 10 :: lit "Use 'exit' to leave the shell." ++ [10].

(** shell.py:383-391: the prompt and the call of readline with the handler of KeyboardInterrupt *)
Definition read_event (ev : event) (st : shell) : outcome * pystr :=
  match ev with
  | ELine s => (done st, s)
  | EInterrupt =>
      if sh_interactive st then (done (add_out st EXIT_HINT), [10])
      else ((st, Some (SystemExit 2)), [])
  end.

(** shell.py:382-424: the loop of run.  After an interrupted command [lines] is not emptied, since
    line 419 is not reached. *)
Fixpoint run_int (fuel : nat) (W : world) (input : list event) (lines : pystr) (st : shell) : outcome :=
  if sh_running st then
    let st := add_out st (sh_prompt st) in
    match input with
    | [] => done (if sh_interactive st then add_out st [10] else st)
    | ev :: input =>
        let (o, line) := read_event ev st in
        seq_do o (fun st =>
          match line with
          | [] => done (if sh_interactive st then add_out st [10] else st)
          | _ =>
              let line := line_text line in
              if ends_with_backslash line then run_int fuel W input (lines ++ removelast line) st
              else
                let lines := lines ++ line in
                match (match lines with [] => done st | _ => execute_line fuel W st lines end) with
                | (st, None) => run_int fuel W input [] st
                | (st, Some KeyboardInterrupt) =>
                    let st := add_out st [10] in
                    if sh_interactive st then run_int fuel W input lines st else (st, Some (SystemExit 2))
                | (st, Some e) => (st, Some e)
                end
          end)
    end
  else done st.
