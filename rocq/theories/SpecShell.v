(** Specification of the shell: what is assumed about the library functions, histories
    and the logical lines of a script. *)
From Verif Require Export Spec MShell.

(** The contents of a Sudoku object: square tables of the size given by the box size
    (which may be zero or negative) and sets as candidates. *)
Definition sudoku_ok (s : sudoku) : Prop :=
  let n := Z.to_nat (box_width s * box_height s) in
  length (s_numbers s) = n /\ (forall row, In row (s_numbers s) -> length row = n) /\
  length (s_candidates s) = n /\ (forall row, In row (s_candidates s) -> length row = n) /\
  (forall row c, In row (s_candidates s) -> In c row -> StronglySorted Z.lt c).

(** The assumptions about the library functions: they produce Sudoku objects, and the
    exceptions they raise are Python exceptions other than SystemExit. *)
Definition result_ok (r : lres) : Prop :=
  match r with
  | RFresh s => sudoku_ok s
  | RRaise e => is_exception e = true
  | _ => True
  end.
Record world_ok (W : world) : Prop := {
  wo_fun : forall n f args kw, result_ok (w_fun W n f args kw);
  wo_res : forall n f s args kw, sudoku_ok s -> result_ok (snd (w_sudoku W n f s args kw));
  wo_cur : forall n f s args kw, sudoku_ok s -> sudoku_ok (fst (w_sudoku W n f s args kw));
  wo_int : forall k e, w_int W k = Err e -> is_exception e = true;
  wo_lit : forall s e, w_literal W s = LitRaise e -> is_exception e = true
}.
(** The part of it that concerns the Sudoku objects *)
Definition result_frame (r : lres) : Prop := forall s, r = RFresh s -> sudoku_ok s.
Record world_frame (W : world) : Prop := {
  wf_fun : forall n f args kw, result_frame (w_fun W n f args kw);
  wf_res : forall n f s args kw, sudoku_ok s -> result_frame (snd (w_sudoku W n f s args kw));
  wf_cur : forall n f s args kw, sudoku_ok s -> sudoku_ok (fst (w_sudoku W n f s args kw))
}.
(** literal_eval raises nothing but SyntaxError and ValueError. *)
Definition literal_total (W : world) : Prop :=
  forall s e, w_literal W s <> LitRaise e.

(** The states a shell can get into: by executing commands (whether they succeed or
    not) and by printing prompts. *)
Inductive reach (W : world) : shell -> shell -> Prop :=
| reach_refl : forall st, reach W st st
| reach_part : forall st st1 s st2 oe, reach W st st1 ->
    execute_part 2 W st1 s = (st2, oe) -> reach W st st2
| reach_out : forall st st1 t, reach W st st1 -> reach W st (add_out st1 t).
Definition reachable (W : world) (st : shell) : Prop := exists i, reach W (new_shell i) st.

(** The contents of the current sudoku, and of the entries of the stack. *)
Definition current (st : shell) : option sudoku := nth_error (sh_heap st) (sh_cur st).
Definition stacked (st : shell) : list (option sudoku) := map (nth_error (sh_heap st)) (sh_stack st).

(** Two states that differ only in what was written to outfile. *)
Definition same_but_out (a b : shell) : Prop :=
  sh_interactive a = sh_interactive b /\ sh_prompt a = sh_prompt b /\ sh_heap a = sh_heap b /\
  sh_cur a = sh_cur b /\ sh_running a = sh_running b /\ sh_loop_n a = sh_loop_n b /\
  sh_loop_list a = sh_loop_list b /\ sh_stack a = sh_stack b /\ sh_err a = sh_err b /\ sh_calls a = sh_calls b.

(** Commands *)
Definition is_loop (c : command) : Prop := c_func c = lit "loop".
Definition is_exit (c : command) : Prop := c_func c = lit "exit".

(** The logical lines of a script: a line whose text ends in a backslash is continued
    by the next one (at the end of the script it is dropped). *)
Fixpoint logical_lines (input : list pystr) : list pystr :=
  match input with
  | [] => []
  | l :: rest =>
      let t := line_text l in
      if ends_with_backslash t then
        match logical_lines rest with
        | [] => []
        | x :: xs => (removelast t ++ x) :: xs
        end
      else t :: logical_lines rest
  end.
(** The execution of the logical lines, one after the other, until exit. *)
Fixpoint run_logical (W : world) (ls : list pystr) (st : shell) : outcome :=
  if sh_running st then
    match ls with
    | [] => done st
    | [] :: ls => run_logical W ls st
    | l :: ls => seq_do (execute_line 2 W st l) (run_logical W ls)
    end
  else done st.

(** The part of the state a failing command leaves alone: everything but the messages,
    the number of library calls and the contents of the current sudoku, which is what
    the library function made of it. *)
Definition failed_call (W : world) (st : shell) (c : command) (st' : shell) : Prop :=
  sh_interactive st' = sh_interactive st /\ sh_prompt st' = sh_prompt st /\ sh_cur st' = sh_cur st /\
  sh_running st' = sh_running st /\ sh_loop_n st' = sh_loop_n st /\ sh_loop_list st' = sh_loop_list st /\
  sh_stack st' = sh_stack st /\ sh_out st' = sh_out st /\
  (sh_heap st' = sh_heap st \/
   exists s, current st = Some s /\ In (lit "sudoku") (c_special c) /\
     sh_heap st' = list_upd (sh_cur st) (fst (w_sudoku W (sh_calls st) (c_func c) s (c_args c) (c_kwargs c))) (sh_heap st)).

(** True and False are ints in Python. *)
Definition int_value (v : value) (n : Z) : Prop := v = VInt n \/ (v = VBool true /\ n = 1) \/ (v = VBool false /\ n = 0).
(** What int() accepts: ints, bools, strings that are decimal numbers and objects the world knows how to convert *)
Definition as_int (W : world) (v : value) (n : Z) : Prop :=
  int_value v n \/ (exists s, v = VStr s /\ int_of_str s = Ok n) \/ (exists k, v = VOther k /\ w_int W k = Ok n).
(** The arguments equal to the keyword end: Keyword and CommandInfo are tuples. *)
Definition end_value (v : value) : Prop := v = VKeyword (lit "end") \/ v = VCommand (lit "end") \/ v = VTuple [VStr (lit "end")].

(** The argument of pop (None if there is none) and of loop *)
Definition pop_arg (c : command) (v : value) : Prop :=
  c_func c = lit "pop" /\
  ((c_args c = [v] /\ c_kwargs c = []) \/ (c_args c = [] /\ c_kwargs c = [(lit "position", v)]) \/
   (c_args c = [] /\ c_kwargs c = [] /\ v = VNone)).
Definition loop_arg (c : command) (v : value) : Prop :=
  c_func c = lit "loop" /\
  ((c_args c = [v] /\ c_kwargs c = []) \/ (c_args c = [] /\ c_kwargs c = [(lit "n", v)])).
(** The position on a stack of [n] sudokus that is meant by the argument [v] of pop *)
Definition pop_target (W : world) (n : nat) (v : value) (p : nat) : Prop :=
  (v = VNone /\ (0 < n)%nat /\ p = (n - 1)%nat) \/
  (v <> VNone /\ exists k, as_int W v k /\ 0 <= k < Z.of_nat n /\ p = Z.to_nat k).

(** The state without the loop and its prompt *)
Definition loop_reset (st : shell) : shell :=
  set_prompt (set_loop st None []) (command_prompt (sh_interactive st)).

(** An outcome of an execution started in [st]: an interactive shell raises nothing; another
    one either writes no message and raises nothing, or writes exactly one message and exits
    with status 1. *)
Definition batch_ok (st : shell) (o : outcome) : Prop :=
  sh_interactive (fst o) = sh_interactive st /\
  if sh_interactive st then snd o = None
  else (snd o = None /\ sh_err (fst o) = sh_err st) \/
       (snd o = Some (SystemExit 1) /\ exists m, sh_err (fst o) = sh_err st ++ [m]).
