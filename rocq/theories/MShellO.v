(** The shell under "python -O": the two assert statements of shell.py (lines 483 and 517)
    are not executed.  Everything else is as in MShell. *)
From Verif Require Export MShell.

(** shell.py:464-492 loop_command without the assert in line 483; [exec] is self.execute *)
Definition loop_command_O (W : world) (exec : shell -> command -> outcome) (st : shell) (n : value) : outcome :=
  if is_end n then
    if negb (loop_active st) then error st (MText (lit "No loop defined."))
    else
      let st := set_prompt st (command_prompt (sh_interactive st)) in
      (* range(n) is empty for a negative n *)
      let k := match sh_loop_n st with Some n => Z.to_nat n | None => O end in
      seq_do (do_times k (fun st => do_each exec (sh_loop_list st) st) st)
             (fun st => done (set_loop st None []))
  else
    match to_int W n with
    | Ok n =>
        if loop_active st then error st (MText (lit "Run current loop first ('loop end')."))
        else
          let st := if sh_interactive st then set_prompt st (lit "loop " ++ str_of_int n ++ lit "> ") else st in
          done (set_loop st (Some n) (sh_loop_list st))
    | Err ValueError => error st (MText (lit "loop command n must be int > 0"))
    | Err e => (st, Some e)
    end.

(** shell.py:522 [self.sudoku = self.stack.pop(position)] for any int: list.pop counts
    negative positions from the end *)
Definition stack_pop_O (st : shell) (p : Z) : outcome :=
  let q := if p <? 0 then p + py_len (sh_stack st) else p in
  if (q <? 0) || (py_len (sh_stack st) <=? q) then (st, Some IndexError)
  else stack_pop st (Z.to_nat q).

(** shell.py:506-522 pop_command without the assert in line 517 *)
Definition pop_command_O (W : world) (st : shell) (position : value) : outcome :=
  match sh_stack st with
  | [] => error st (MText (lit "stack is empty"))
  | _ =>
      match position with
      | VNone => stack_pop_O st (py_len (sh_stack st) - 1)
      | _ =>
          match to_int W position with
          | Ok p => stack_pop_O st p
          | Err ValueError => error st (MText (lit "0 <= position < len(stack)"))
          | Err e => (st, Some e)
          end
      end
  end.

(** shell.py:339-352: the call of the command and the use of its result *)
Definition call_O (W : world) (exec : shell -> command -> outcome) (st : shell) (c : command) : outcome :=
  if str_eqb (c_func c) (lit "loop") then
    match bind1 (lit "n") None (c_args c) (c_kwargs c) with Ok v => loop_command_O W exec st v | Err e => (st, Some e) end
  else if str_eqb (c_func c) (lit "pop") then
    match bind1 (lit "position") (Some VNone) (c_args c) (c_kwargs c) with Ok v => pop_command_O W st v | Err e => (st, Some e) end
  else call W exec st c.

(** shell.py:339-355 execute *)
Fixpoint execute_O (fuel : nat) (W : world) (st : shell) (c : command) : outcome :=
  match fuel with
  | O => (st, Some OutOfFuel)
  | S fuel =>
      match call_O W (execute_O fuel W) st c with
      | (st, None) => done st
      | (st, Some e) => if is_exception e then error st (MExn e) else (st, Some e)
      end
  end.

(** shell.py:359-374: one command of a line *)
Definition execute_part_O (fuel : nat) (W : world) (st : shell) (s : pystr) : outcome :=
  let s := strip s in
  match parse W s with
  | Ok c =>
      if str_eqb (c_func c) (lit "exit") then execute_O fuel W st c
      else if loop_active st && negb (str_eqb (c_func c) (lit "loop"))
      then done (set_loop st (sh_loop_n st) (sh_loop_list st ++ [c]))
      else execute_O fuel W st c
  | Err KeyError => error st (MExn KeyError)
  | Err ValueError => error st (MExn ValueError)
  | Err e => (st, Some e)
  end.

(** shell.py:357-374 execute_line *)
Definition execute_line_O (fuel : nat) (W : world) (st : shell) (line : pystr) : outcome :=
  do_each (execute_part_O fuel W) (split_go (lit ";") line 0) st.
