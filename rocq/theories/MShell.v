(** Model of class Shell and parse (sudokutools/shell.py) and of sudokutools/__main__.py.

    Sudoku objects live in a heap and are used by reference (MHeap.v justifies that
    a sudoku object can be described by its contents).  Not modelled:
    [ast.literal_eval], the library functions called by the commands and the help
    texts are arbitrary functions (record [world] below); KeyboardInterrupt (see MInterrupt.v); the text
    of error messages that come from exceptions (only the exception is recorded). *)
From Verif Require Export MSudoku MCodec PyDict PyStr.

(** The values of arguments.  [VOther k] stands for the values of other types (floats,
    bytes, dicts, ...). (shell.py:229, 238, 244-249, 579-580) *)
Inductive value : Type :=
| VInt (n : Z)
| VBool (b : bool)
| VStr (s : pystr)
| VNone
| VTuple (l : list value)
| VList (l : list value)
| VSet (l : list value)
| VKeyword (name : pystr)    (* shell.py:579 a namedtuple, i.e. a tuple of one string *)
| VCommand (name : pystr)    (* shell.py:580 *)
| VOther (k : Z).

(** The outcome of [literal_eval]: a value, SyntaxError or ValueError, or another exception. (shell.py:238, 249) *)
Inductive lit_result : Type :=
| LitOk (v : value)
| LitInvalid
| LitRaise (e : exn).

(** The outcome of a library function. (shell.py:346-354) *)
Inductive lres : Type :=
| RNone                      (* returns None *)
| RText (s : pystr)          (* returns a string *)
| ROther                     (* returns an object that is neither None nor a string nor a Sudoku *)
| RFresh (s : sudoku)        (* returns a new Sudoku with this contents *)
| RSame                      (* returns the sudoku given as argument *)
| RRaise (e : exn).          (* raises an exception *)

(** shell.py:229: the keyword arguments *)
Definition kwargs : Type := list (pystr * value).

(** What is not modelled.  The number of the call is an argument of the library
    functions, so they may be random.  [w_sudoku] is given the contents of the
    current sudoku and also returns its contents after the call. (shell.py:238, 249, 346) *)
Record world : Type := mkWorld {
  w_literal : pystr -> lit_result;
  w_int : Z -> res Z;              (* int(x) of a value [VOther k] *)
  w_fun : nat -> pystr -> list value -> kwargs -> lres;
  w_sudoku : nat -> pystr -> sudoku -> list value -> kwargs -> sudoku * lres
}.

(** shell.py:530-563 COMMANDS with the names of the special arguments; the function of
    a command is represented by the name of the command (all functions are distinct). *)
Definition COMMANDS : list (pystr * list pystr) :=
  [(lit "new", []);
   (lit "generate", []);
   (lit "generate_from_template", [lit "sudoku"]);
   (lit "decode", []);
   (lit "get", [lit "sudoku"]);
   (lit "set", [lit "sudoku"]);
   (lit "set_candidates", [lit "sudoku"]);
   (lit "get_candidates", [lit "sudoku"]);
   (lit "remove_candidates", [lit "sudoku"]);
   (lit "init_candidates", [lit "sudoku"]);
   (lit "encode", [lit "sudoku"]);
   (lit "print", [lit "sudoku"]);
   (lit "clear", []);
   (lit "view", [lit "sudoku"]);
   (lit "solve", [lit "shell"; lit "sudoku"]);
   (lit "loop", [lit "shell"]);
   (lit "stack", [lit "shell"]);
   (lit "push", [lit "shell"]);
   (lit "pop", [lit "shell"]);
   (lit "help", [lit "shell"]);
   (lit "exit", [lit "shell"])].

(** shell.py:529 SPECIAL_ARGS, 582-584 SHELL_KEYWORDS *)
Definition SPECIAL_ARGS : list pystr := [lit "sudoku"; lit "shell"].
(** shell.py:582-584 SHELL_KEYWORDS *)
Definition SHELL_KEYWORDS : list pystr := [lit "end"].
(** shell.py:244, 246, 270: [value in ...] *)
Definition str_mem (s : pystr) (l : list pystr) : bool := existsb (str_eqb s) l.

(** A parsed command: shell.py:275 the tuple returned by parse *)
Record command : Type := mkCommand {
  c_func : pystr;
  c_special : list pystr;
  c_args : list value;
  c_kwargs : kwargs
}.

(** shell.py:234-253: the loop over the items; LitInvalid becomes ValueError *)
Definition literal (W : world) (s : pystr) : res value :=
  match w_literal W s with
  | LitOk v => Ok v
  | LitInvalid => Err ValueError
  | LitRaise e => Err e
  end.
(** shell.py:234-253: one item *)
Definition parse_item (W : world) (acc : list value * kwargs) (item : pystr)
  : res (list value * kwargs) :=
  let (args, kw) := acc in
  match cut (lit "=") item with
  | Some (name, v) => let* x := literal W v in Ok (args, dset str_eqb kw name x)
  | None =>
      if str_mem item (dkeys COMMANDS) then Ok (args ++ [VCommand item], kw)
      else if str_mem item SHELL_KEYWORDS then Ok (args ++ [VKeyword item], kw)
      else let* x := literal W item in Ok (args ++ [x], kw)
  end.

(** shell.py:218-275 parse *)
Definition parse (W : world) (s : pystr) : res command :=
  let* items := split (lit " ") s in
  match items with
  | [] => Err IndexError
  | funcname :: rest =>
      let* (args, kw) := foldM (parse_item W) rest ([], []) in
      let* special := dget str_eqb COMMANDS funcname in
      if forallb (fun name => str_mem name SPECIAL_ARGS) special
      then Ok (mkCommand funcname special args kw)
      else Err ValueError
  end.

(** An error message: a text, or the text of an exception (shell.py:333-335) *)
Inductive message : Type :=
| MText (s : pystr)
| MExn (e : exn).

(** shell.py:290-327: the attributes of a Shell.  [sh_err] is what was written to
    stderr, [sh_out] what was written to outfile, [sh_calls] the number of library calls. *)
Record shell : Type := mkShell {
  sh_interactive : bool;
  sh_prompt : pystr;
  sh_heap : list sudoku;
  sh_cur : nat;
  sh_running : bool;
  sh_loop_n : option Z;
  sh_loop_list : list command;
  sh_stack : list nat;
  sh_out : pystr;
  sh_err : list message;
  sh_calls : nat
}.

(** shell.py:313-318 command_prompt *)
Definition command_prompt (interactive : bool) : pystr :=
  if interactive then lit "> " else [].

(** shell.py:290-327 __init__ *)
Definition new_shell (interactive : bool) : shell :=
  mkShell interactive (command_prompt interactive) [new_sudoku (3, 3)] 0%nat true None [] [] [] [] 0%nat.

(** Assignment to attributes (shell.py:320, 471, 491: self.prompt) *)
Definition set_prompt (st : shell) (p : pystr) : shell :=
  mkShell (sh_interactive st) p (sh_heap st) (sh_cur st) (sh_running st) (sh_loop_n st) (sh_loop_list st)
    (sh_stack st) (sh_out st) (sh_err st) (sh_calls st).
(** shell.py:346: the sudokus a command has changed or created *)
Definition set_heap (st : shell) (hp : list sudoku) : shell :=
  mkShell (sh_interactive st) (sh_prompt st) hp (sh_cur st) (sh_running st) (sh_loop_n st) (sh_loop_list st)
    (sh_stack st) (sh_out st) (sh_err st) (sh_calls st).
(** shell.py:348, 522: self.sudoku *)
Definition set_cur (st : shell) (a : nat) : shell :=
  mkShell (sh_interactive st) (sh_prompt st) (sh_heap st) a (sh_running st) (sh_loop_n st) (sh_loop_list st)
    (sh_stack st) (sh_out st) (sh_err st) (sh_calls st).
(** shell.py:496: self.running *)
Definition set_running (st : shell) (b : bool) : shell :=
  mkShell (sh_interactive st) (sh_prompt st) (sh_heap st) (sh_cur st) b (sh_loop_n st) (sh_loop_list st)
    (sh_stack st) (sh_out st) (sh_err st) (sh_calls st).
(** shell.py:368, 478-479, 492: self.__loop_n and self.__loop_command_list *)
Definition set_loop (st : shell) (n : option Z) (l : list command) : shell :=
  mkShell (sh_interactive st) (sh_prompt st) (sh_heap st) (sh_cur st) (sh_running st) n l
    (sh_stack st) (sh_out st) (sh_err st) (sh_calls st).
(** shell.py:504, 522: self.stack *)
Definition set_stack (st : shell) (l : list nat) : shell :=
  mkShell (sh_interactive st) (sh_prompt st) (sh_heap st) (sh_cur st) (sh_running st) (sh_loop_n st) (sh_loop_list st)
    l (sh_out st) (sh_err st) (sh_calls st).
(** shell.py:330: text written to outfile *)
Definition add_out (st : shell) (s : pystr) : shell :=
  mkShell (sh_interactive st) (sh_prompt st) (sh_heap st) (sh_cur st) (sh_running st) (sh_loop_n st) (sh_loop_list st)
    (sh_stack st) (sh_out st ++ s) (sh_err st) (sh_calls st).
(** shell.py:334: text written to stderr *)
Definition add_err (st : shell) (m : message) : shell :=
  mkShell (sh_interactive st) (sh_prompt st) (sh_heap st) (sh_cur st) (sh_running st) (sh_loop_n st) (sh_loop_list st)
    (sh_stack st) (sh_out st) (sh_err st ++ [m]) (sh_calls st).
(** shell.py:346: the number of calls of library functions *)
Definition next_call (st : shell) : shell :=
  mkShell (sh_interactive st) (sh_prompt st) (sh_heap st) (sh_cur st) (sh_running st) (sh_loop_n st) (sh_loop_list st)
    (sh_stack st) (sh_out st) (sh_err st) (S (sh_calls st)).

(** The outcome of a statement: the new state and the exception that was raised, if any (shell.py:339-374) *)
Definition outcome : Type := (shell * option exn)%type.
(** shell.py:339-374: a statement that did not raise *)
Definition done (st : shell) : outcome := (st, None).
(** [a; b] (shell.py:339-374) *)
Definition seq_do (o : outcome) (f : shell -> outcome) : outcome :=
  match o with
  | (st, None) => f st
  | (st, Some e) => (st, Some e)
  end.

(** shell.py:333-337 error: [sys.exit(1)] if the shell is not interactive *)
Definition error (st : shell) (m : message) : outcome :=
  let st := add_err st m in
  if sh_interactive st then done st else (st, Some (SystemExit 1)).

(** [except Exception]: SystemExit and KeyboardInterrupt are no Exceptions (OutOfFuel is not from Python) (shell.py:353) *)
Definition is_exception (e : exn) : bool :=
  match e with SystemExit _ | KeyboardInterrupt | OutOfFuel => false | _ => true end.

(** [int(v)] (shell.py:482, 516) *)
Definition to_int (W : world) (v : value) : res Z :=
  match v with
  | VInt n => Ok n
  | VBool b => Ok (if b then 1 else 0)
  | VStr s => int_of_str s
  | VOther k => w_int W k
  | VNone | VTuple _ | VList _ | VSet _ | VKeyword _ | VCommand _ => Err TypeError
  end.

(** [v == Keyword("end")]: also true for the tuple ('end',) (shell.py:467) *)
Definition is_end (v : value) : bool :=
  match v with
  | VKeyword s | VCommand s | VTuple [VStr s] => str_eqb s (lit "end")
  | _ => false
  end.

(** The arguments of a function without parameters (besides self) (shell.py:346) *)
Definition bind0 (args : list value) (kw : kwargs) : res unit :=
  match args, kw with
  | [], [] => Ok tt
  | _, _ => Err TypeError
  end.
(** The argument of a function with one parameter (besides self) (shell.py:346) *)
Definition bind1 (name : pystr) (default : option value) (args : list value) (kw : kwargs) : res value :=
  match args, kw with
  | [v], [] => Ok v
  | [], [(k, v)] => if str_eqb k name then Ok v else Err TypeError
  | [], [] => match default with Some v => Ok v | None => Err TypeError end
  | _, _ => Err TypeError
  end.

(** [for x in l: ...] (shell.py:358, 475) *)
Fixpoint do_each {A} (f : shell -> A -> outcome) (l : list A) (st : shell) : outcome :=
  match l with
  | [] => done st
  | x :: t => seq_do (f st x) (do_each f t)
  end.
(** [for _ in range(n): ...] (shell.py:474) *)
Fixpoint do_times (n : nat) (f : shell -> outcome) (st : shell) : outcome :=
  match n with
  | O => done st
  | S n => seq_do (f st) (do_times n f)
  end.

(** [if self.__loop_n:] (neither None nor 0) (shell.py:367, 468, 487) *)
Definition loop_active (st : shell) : bool :=
  match sh_loop_n st with Some n => negb (n =? 0) | None => false end.

(** shell.py:464-492 loop_command; [exec] is self.execute *)
Definition loop_command (W : world) (exec : shell -> command -> outcome) (st : shell) (n : value) : outcome :=
  if is_end n then
    if negb (loop_active st) then error st (MText (lit "No loop defined."))
    else
      let st := set_prompt st (command_prompt (sh_interactive st)) in
      let k := match sh_loop_n st with Some n => Z.to_nat n | None => O end in
      seq_do (do_times k (fun st => do_each exec (sh_loop_list st) st) st)
             (fun st => done (set_loop st None []))
  else
    let bad := error st (MText (lit "loop command n must be int > 0")) in
    match to_int W n with
    | Ok n =>
        if 0 <? n then
          if loop_active st then error st (MText (lit "Run current loop first ('loop end')."))
          else
            let st := if sh_interactive st then set_prompt st (lit "loop " ++ str_of_int n ++ lit "> ") else st in
            done (set_loop st (Some n) (sh_loop_list st))
        else bad
    | Err ValueError => bad
    | Err e => (st, Some e)
    end.

(** shell.py:494-496 exit_command *)
Definition exit_command (st : shell) : outcome := done (set_running st false).

(** shell.py:502-504 push_command *)
Definition push_command (st : shell) : outcome :=
  match nth_error (sh_heap st) (sh_cur st) with
  | None => (st, Some AttributeError)     (* impossible *)
  | Some s =>
      match copy s true with
      | Err e => (st, Some e)
      | Ok t => done (set_stack (set_heap st (sh_heap st ++ [t])) (sh_stack st ++ [length (sh_heap st)]))
      end
  end.

(** [self.sudoku = self.stack.pop(position)] for a valid position (shell.py:522) *)
Definition stack_pop (st : shell) (p : nat) : outcome :=
  match nth_error (sh_stack st) p with
  | None => (st, Some IndexError)
  | Some a => done (set_cur (set_stack st (firstn p (sh_stack st) ++ skipn (S p) (sh_stack st))) a)
  end.

(** shell.py:506-522 pop_command *)
Definition pop_command (W : world) (st : shell) (position : value) : outcome :=
  match sh_stack st with
  | [] => error st (MText (lit "stack is empty"))
  | _ =>
      match position with
      | VNone => stack_pop st (length (sh_stack st) - 1)
      | _ =>
          let bad := error st (MText (lit "0 <= position < len(stack)")) in
          match to_int W position with
          | Ok p => if (0 <=? p) && (p <? py_len (sh_stack st)) then stack_pop st (Z.to_nat p) else bad
          | Err ValueError => bad
          | Err e => (st, Some e)
          end
      end
  end.

(** shell.py:329-331 _print: TypeError if the object is no string *)
Definition shell_print (st : shell) (s : pystr) : outcome := done (add_out st (s ++ [10])).

(** shell.py:346-352: what is done with the result of a command *)
Definition handle_result (st : shell) (r : lres) : outcome :=
  match r with
  | RNone => done st
  | RText s => shell_print st s
  | ROther => (st, Some TypeError)
  | RFresh s => done (set_cur (set_heap st (sh_heap st ++ [s])) (length (sh_heap st)))
  | RSame => done st
  | RRaise e => (st, Some e)
  end.

(** [func( *all_args, **kwargs)] and the use of its result; the methods of the shell
    are known, all others are library functions (shell.py:346-352) *)
Definition call (W : world) (exec : shell -> command -> outcome) (st : shell) (c : command) : outcome :=
  let name := c_func c in
  let args := c_args c in
  let kw := c_kwargs c in
  if str_eqb name (lit "loop") then
    match bind1 (lit "n") None args kw with Ok v => loop_command W exec st v | Err e => (st, Some e) end
  else if str_eqb name (lit "exit") then
    match bind0 args kw with Ok _ => exit_command st | Err e => (st, Some e) end
  else if str_eqb name (lit "push") then
    match bind0 args kw with Ok _ => push_command st | Err e => (st, Some e) end
  else if str_eqb name (lit "pop") then
    match bind1 (lit "position") (Some VNone) args kw with Ok v => pop_command W st v | Err e => (st, Some e) end
  else if str_eqb name (lit "stack") then
    match bind0 args kw with
    | Ok _ => (* shell.py:498-500 stack_command *)
        shell_print st (lit "stack has " ++ str_of_int (py_len (sh_stack st)) ++ lit " sudokus")
    | Err e => (st, Some e)
    end
  else if str_mem (lit "sudoku") (c_special c) then
    match nth_error (sh_heap st) (sh_cur st) with
    | None => (st, Some AttributeError)     (* impossible *)
    | Some s =>
        let (s', r) := w_sudoku W (sh_calls st) name s args kw in
        handle_result (next_call (set_heap st (list_upd (sh_cur st) s' (sh_heap st)))) r
    end
  else handle_result (next_call st) (w_fun W (sh_calls st) name args kw).

(** shell.py:339-355 execute.  The fuel bounds the depth of the recursion through
    loop_command; theorems show that depth 2 suffices. *)
Fixpoint execute (fuel : nat) (W : world) (st : shell) (c : command) : outcome :=
  match fuel with
  | O => (st, Some OutOfFuel)
  | S fuel =>
      match call W (execute fuel W) st c with
      | (st, None) => done st
      | (st, Some e) => if is_exception e then error st (MExn e) else (st, Some e)
      end
  end.

(** shell.py:359-374: one command of a line.  (execute lets no KeyError or ValueError
    pass, so that the handlers only concern parse.) *)
Definition execute_part (fuel : nat) (W : world) (st : shell) (s : pystr) : outcome :=
  let s := strip s in
  match parse W s with
  | Ok c =>
      if str_eqb (c_func c) (lit "exit") then execute fuel W st c
      else if loop_active st && negb (str_eqb (c_func c) (lit "loop"))
      then done (set_loop st (sh_loop_n st) (sh_loop_list st ++ [c]))
      else execute fuel W st c
  | Err KeyError => error st (MExn KeyError)
  | Err ValueError => error st (MExn ValueError)
  | Err e => (st, Some e)
  end.

(** shell.py:357-374 execute_line *)
Definition execute_line (fuel : nat) (W : world) (st : shell) (line : pystr) : outcome :=
  do_each (execute_part fuel W) (split_go (lit ";") line 0) st.

(** shell.py:400-408: the text of a line without newline, comment and blanks around it *)
Definition line_text (line : pystr) : pystr :=
  let line := replace_char 10 [] line in
  let line := match cut (lit "#") line with Some (a, _) => a | None => line end in
  strip line.

(** [s.endswith('\\')] (shell.py:411) *)
Definition ends_with_backslash (s : pystr) : bool :=
  match rev s with c :: _ => c =? 92 | [] => false end.

(** shell.py:382-418: the loop of run.  [input] are the results of the calls of
    readline; at the end of the file readline returns the empty string. *)
Fixpoint run_loop (fuel : nat) (W : world) (input : list pystr) (lines : pystr) (st : shell) : outcome :=
  if sh_running st then
    let st := add_out st (sh_prompt st) in
    match input with
    | [] => done (if sh_interactive st then add_out st [10] else st)
    | [] :: _ => done (if sh_interactive st then add_out st [10] else st)
    | line :: input =>
        let line := line_text line in
        if ends_with_backslash line then run_loop fuel W input (lines ++ removelast line) st
        else
          let lines := lines ++ line in
          seq_do (match lines with [] => done st | _ => execute_line fuel W st lines end)
                 (run_loop fuel W input [])
    end
  else done st.

(** shell.py:376-424 run ([banner] is printed in interactive mode) *)
Definition run (fuel : nat) (W : world) (banner : pystr) (input : list pystr) (st : shell) : outcome :=
  run_loop fuel W input [] (if sh_interactive st then add_out st banner else st).

(** __main__.py:24-36 main: commands from a file or stdin ([isatty] of it decides whether
    the shell is interactive), or one line given by the option -c *)
Inductive invocation : Type :=
| IFile (isatty : bool) (input : list pystr)
| ICommand (line : pystr).
(** __main__.py:24-36 main *)
Definition main (fuel : nat) (W : world) (banner : pystr) (i : invocation) : outcome :=
  match i with
  | IFile tty input => run fuel W banner input (new_shell tty)
  | ICommand line => execute_line fuel W (new_shell false) line
  end.
