(** Model of the signatures of the functions behind the commands, of the binding of their arguments (Python's
    calling convention), of signature_str and of Shell.help_command (sudokutools/shell.py).

    The documentation strings are arbitrary (argument [docs]).  inspect.getargspec, which signature_str uses, was
    removed in Python 3.11; the model is that of Python 3 before that. *)
From Verif Require Export MShell.

(** The signature of a function: names of the parameters, default values of the last ones, whether it is a bound method
    (inspect.ismethod), and how many of the first parameters are given by Python (self, cls) or by the shell (the special
    arguments) (shell.py:201-206) *)
Record fspec : Type := mkFspec {
  f_args : list pystr;
  f_defaults : list value;
  f_method : bool;
  f_given : nat
}.

(** shell.py:530-563 COMMANDS: the functions and their signatures.  For a class (new) it is the one of __init__.  Methods
    of Shell and Sudoku taken from the class are functions in Python 3; only decode, a classmethod, is a bound method. *)
Definition SPECS : list (pystr * fspec) :=
  [
   (lit "new", mkFspec [lit "self"; lit "box_size"] [VTuple [VInt 3; VInt 3]] false 1);  (* sudoku.py:51 Sudoku.__init__ *)
   (lit "generate", mkFspec [lit "min_count"; lit "symmetry"; lit "box_size"] [VInt 0; VNone; VTuple [VInt 3; VInt 3]] false 0);  (* generate.py:60 generate *)
   (lit "generate_from_template", mkFspec [lit "template"; lit "tries"] [VInt 100] false 1);  (* generate.py:125 generate_from_template *)
   (lit "decode", mkFspec [lit "cls"; lit "s"; lit "empty"; lit "number_sep"; lit "sudoku_sep"; lit "candidate_sep"; lit "box_size"] [VStr (lit "0"); VNone; VStr (lit "|"); VStr (lit ","); VNone] true 1);  (* sudoku.py:291 Sudoku.decode *)
   (lit "get", mkFspec [lit "self"; lit "row"; lit "col"] [] false 1);  (* sudoku.py:211 Sudoku.get_number *)
   (lit "set", mkFspec [lit "self"; lit "row"; lit "col"; lit "value"] [] false 1);  (* sudoku.py:215 Sudoku.set_number *)
   (lit "set_candidates", mkFspec [lit "self"; lit "row"; lit "col"; lit "value"] [] false 1);  (* sudoku.py:231 Sudoku.set_candidates *)
   (lit "get_candidates", mkFspec [lit "self"; lit "row"; lit "col"] [] false 1);  (* sudoku.py:219 Sudoku.get_candidates *)
   (lit "remove_candidates", mkFspec [lit "self"; lit "row"; lit "col"; lit "value"] [] false 1);  (* sudoku.py:242 Sudoku.remove_candidates *)
   (lit "init_candidates", mkFspec [lit "sudoku"; lit "filled_only"] [VBool false] false 1);  (* solve.py:45 init_candidates *)
   (lit "encode", mkFspec [lit "self"; lit "row_sep"; lit "col_sep"; lit "include_candidates"] [VStr (lit ""); VStr (lit ""); VBool false] false 1);  (* sudoku.py:254 Sudoku.encode *)
   (lit "print", mkFspec [lit "self"] [] false 1);  (* sudoku.py:164 Sudoku.__str__ *)
   (lit "clear", mkFspec [] [] false 0);  (* shell.py:278 clear *)
   (lit "view", mkFspec [lit "sudoku"; lit "include_candidates"; lit "number_sep"; lit "candidate_prefix"; lit "align_right"] [VBool true; VNone; VStr (lit "*"); VBool true] false 1);  (* sudoku.py:541 view *)
   (lit "solve", mkFspec [lit "self"; lit "sudoku"] [] false 2);  (* shell.py:524 Shell.solve_command *)
   (lit "loop", mkFspec [lit "self"; lit "n"] [] false 1);  (* shell.py:464 Shell.loop_command *)
   (lit "stack", mkFspec [lit "self"] [] false 1);  (* shell.py:498 Shell.stack_command *)
   (lit "push", mkFspec [lit "self"] [] false 1);  (* shell.py:502 Shell.push_command *)
   (lit "pop", mkFspec [lit "self"; lit "position"] [VNone] false 1);  (* shell.py:506 Shell.pop_command *)
   (lit "help", mkFspec [lit "self"; lit "command"; lit "verbose"] [VNone; VBool true] false 1);  (* shell.py:426 Shell.help_command *)
   (lit "exit", mkFspec [lit "self"] [] false 1)  (* shell.py:494 Shell.exit_command *)
  ].

(** [repr(v)] of None, bools, ints, strings of printable characters without quotes and backslashes, and tuples of
    these: all default values are of this kind (the other values are not needed and get the empty text) (shell.py:211) *)
Fixpoint repr_value (v : value) : pystr :=
  match v with
  | VNone => lit "None"
  | VBool true => lit "True"
  | VBool false => lit "False"
  | VInt n => str_of_int n
  | VStr s => lit "'" ++ s ++ lit "'"
  | VTuple l =>
      let items := map repr_value l in
      match items with
      | [x] => lit "(" ++ x ++ lit ",)"
      | _ => lit "(" ++ join (lit ", ") items ++ lit ")"
      end
  | _ => []
  end.

(** shell.py:208-213: the loop over the parameters, from parameter [i] on; [n] is len(args) *)
Fixpoint signature_items (defaults : list value) (n i : Z) (args : list pystr) : res (list pystr) :=
  match args with
  | [] => Ok []
  | name :: t =>
      let* x :=
        if negb (py_len defaults =? 0) && (n - py_len defaults <=? i) then
          let j := i - py_len defaults in
          let* d := list_get defaults j in
          Ok (name ++ lit "=" ++ repr_value d)
        else Ok name in
      let* xs := signature_items defaults n (i + 1) t in
      Ok (x :: xs)
  end.

(** shell.py:191-215 signature_str *)
Definition signature_str (f : fspec) : res pystr :=
  let args := if f_method f then tl (f_args f) else f_args f in
  let* l := signature_items (f_defaults f) (py_len args) 0 args in
  Ok (join (lit " ") l).

(** [if v:]; unknown for values of other types (shell.py:426-462) *)
Definition truth (v : value) : option bool :=
  match v with
  | VInt n => Some (negb (n =? 0))
  | VBool b => Some b
  | VStr s => Some (negb (py_len s =? 0))
  | VNone => Some false
  | VTuple l | VList l | VSet l => Some (negb (py_len l =? 0))
  | VKeyword _ | VCommand _ => Some true
  | VOther _ => None
  end.

(** shell.py:566-576 COMMANDS_HELP *)
Definition COMMANDS_HELP : list (pystr * list pystr) :=
  [(lit "Creating sudokus:", [lit "new"; lit "decode"; lit "generate"; lit "generate_from_template"]);
   (lit "Setting and getting numbers and candidates:",
      [lit "get"; lit "set"; lit "get_candidates"; lit "set_candidates"; lit "remove_candidates"; lit "init_candidates"]);
   (lit "Printing:", [lit "encode"; lit "print"; lit "clear"; lit "view"]);
   (lit "Solving:", [lit "solve"]);
   (lit "Advanced:", [lit "loop"; lit "stack"; lit "push"; lit "pop"]);
   (lit "Other commands:", [lit "help"; lit "exit"])].

(** shell.py:428-447: the help for the command [name] *)
Definition help_one (docs : pystr -> option pystr) (name : pystr) (verbose : bool) : res pystr :=
  let* f := dget str_eqb SPECS name in
  let* sig := signature_str f in
  let doc_lines := match docs name with None => [] | Some d => split_go [10] d 0 end in
  let help_str := match docs name with
                  | None => lit "(Not documented)"
                  | Some _ => strip (hd [] doc_lines)
                  end in
  let s := name ++ lit " " ++ sig ++ lit ": " ++ help_str in
  Ok (match docs name with
      | Some (_ :: _) => if verbose then s ++ join [10] (tl doc_lines) else s
      | _ => s
      end).

(** shell.py:426-462 help_command; [None] if the argument is a value of another type *)
Definition help_command (docs : pystr -> option pystr) (command verbose : value) : option (res pystr) :=
  match truth command, truth verbose with
  | Some true, Some v =>
      Some (match command with
            | VCommand name | VKeyword name => help_one docs name v
            | _ => Err AttributeError
            end)
  | Some false, Some _ =>
      Some (let* s := foldM (fun s section =>
                        let* s := foldM (fun s name =>
                                           let* t := help_one docs name false in
                                           Ok (s ++ lit " - " ++ t ++ [10]))
                                        (snd section) (s ++ fst section ++ [10]) in
                        Ok (s ++ [10]))
                     COMMANDS_HELP [] in
            Ok (s ++ lit "NOTE: The 'sudoku' argument will be supplied automatically."))
  | _, _ => None
  end.

(** * Arguments *)
(** The parameters that are left for the arguments of the command, with their default values (shell.py:341-346) *)
Definition params (f : fspec) : list (pystr * option value) :=
  let n := length (f_args f) in
  let d := length (f_defaults f) in
  skipn (f_given f) (combine (f_args f) (repeat None (n - d) ++ map Some (f_defaults f))).

(** The parameters not given by position: by keyword, or the default value (shell.py:346) *)
Fixpoint bind_rest (ps : list (pystr * option value)) (kw : kwargs) : res (list value) :=
  match ps with
  | [] => Ok []
  | (name, default) :: ps =>
      let* v := match dget str_eqb kw name, default with
                | Ok v, _ => Ok v
                | Err _, Some v => Ok v
                | Err _, None => Err TypeError      (* missing argument *)
                end in
      let* vs := bind_rest ps kw in
      Ok (v :: vs)
  end.
(** shell.py:346: the values of the parameters in the call [func( *all_args, **kwargs)].  TypeError for too many
    arguments, unknown keywords and keywords of parameters given by position. *)
Definition bind (ps : list (pystr * option value)) (args : list value) (kw : kwargs) : res (list value) :=
  if (length ps <? length args)%nat then Err TypeError
  else
    let rest := skipn (length args) ps in
    if forallb (fun k => str_mem k (map fst rest)) (map fst kw) then
      let* vs := bind_rest rest kw in
      Ok (args ++ vs)
    else Err TypeError.
