(** The library functions behind the commands of the shell, for the usual arguments:
    ints, sets, lists and tuples of ints, one string.  All other calls (other types of
    arguments, keyword arguments, generate, generate_from_template, solve, help, clear)
    are left to an arbitrary world [O]. *)
From Verif Require Export MShell MSolve.

(** A value used as an index or in arithmetic; Python's True and False are the ints 1 and 0. (sudoku.py:186, 201, 229, 240, 252) *)
Definition int_of_value (v : value) : option Z :=
  match v with
  | VInt n => Some n
  | VBool b => Some (if b then 1 else 0)
  | _ => None
  end.
(** The ints of a collection; True and False are no ints here, since they are stored and printed as such. (sudoku.py:240, 252) *)
Fixpoint ints_of (l : list value) : option (list Z) :=
  match l with
  | [] => Some []
  | VInt n :: t => match ints_of t with Some ns => Some (n :: ns) | None => None end
  | _ :: _ => None
  end.
(** sudoku.py:240, 252: the ints of the argument value *)
Definition ints_of_value (v : value) : option (list Z) :=
  match v with
  | VTuple l | VList l | VSet l => ints_of l
  | _ => None
  end.

(** The result of a function returning a string (shell.py:346-352) *)
Definition text_result (s : sudoku) (r : res pystr) : sudoku * lres :=
  (s, match r with Ok t => RText t | Err e => RRaise e end).
(** The result of a method that changes the sudoku and returns None; if it raises, it has changed nothing (shell.py:346-350) *)
Definition change_result (s : sudoku) (r : res sudoku) : sudoku * lres :=
  match r with Ok t => (t, RNone) | Err e => (s, RRaise e) end.
(** The result of a function returning an object that is no string (shell.py:346-352) *)
Definition object_result {A} (s : sudoku) (r : res A) : sudoku * lres :=
  (s, match r with Ok _ => ROther | Err e => RRaise e end).

(** shell.py:530-563: the functions with the special argument sudoku, called with positional
    arguments only: sudoku.py:211-213 get_number, 215-217 set_number, 219-229 get_candidates,
    231-240 set_candidates, 242-252 remove_candidates, 254-288 encode, 164-170 __str__,
    541-648 view, solve.py:45-61 init_candidates.  [None] for calls that are not modelled
    here; init_candidates may leave the sudoku half-changed when it raises (it never does for
    box sizes >= 1), which is left to [O] too. *)
Definition lib_sudoku (name : pystr) (s : sudoku) (args : list value) : option (sudoku * lres) :=
  if str_eqb name (lit "get") then
    match args with
    | [VInt r; VInt c] => Some (object_result s (getitem s r c))
    | _ => None
    end
  else if str_eqb name (lit "set") then
    match args with
    | [VInt r; VInt c; VInt v] => Some (change_result s (setitem s r c v))
    | _ => None
    end
  else if str_eqb name (lit "get_candidates") then
    match args with
    | [VInt r; VInt c] => Some (object_result s (get_candidates s r c))
    | _ => None
    end
  else if str_eqb name (lit "set_candidates") then
    match args with
    | [VInt r; VInt c; v] =>
        match ints_of_value v with
        | Some l => Some (change_result s (set_candidates s r c l))
        | None => None
        end
    | _ => None
    end
  else if str_eqb name (lit "remove_candidates") then
    match args with
    | [VInt r; VInt c; v] =>
        match ints_of_value v with
        | Some l => Some (change_result s (remove_candidates s r c l))
        | None => None
        end
    | _ => None
    end
  else if str_eqb name (lit "init_candidates") then
    match args with
    | [] => match init_candidates s false with Ok t => Some (t, RNone) | Err _ => None end
    | [VBool b] => match init_candidates s b with Ok t => Some (t, RNone) | Err _ => None end
    | _ => None
    end
  else if str_eqb name (lit "encode") then
    match args with [] => Some (text_result s (encode s [] [] false)) | _ => None end
  else if str_eqb name (lit "print") then
    match args with [] => Some (text_result s (sudoku_str s)) | _ => None end
  else if str_eqb name (lit "view") then
    match args with [] => Some (text_result s (view s true None (lit "*") true)) | _ => None end
  else None.

(** The functions without special arguments: sudoku.py:51-67 __init__ and 290-430 decode *)
Definition lib_fun (name : pystr) (args : list value) : option lres :=
  if str_eqb name (lit "new") then
    match args with
    | [] => Some (RFresh (new_sudoku (3, 3)))
    | [VTuple [VInt w; VInt h]] | [VList [VInt w; VInt h]] => Some (RFresh (new_sudoku (w, h)))
    | _ => None
    end
  else if str_eqb name (lit "decode") then
    match args with
    | [VStr s] => Some (match decode s (lit "0") [] (lit "|") (lit ",") None with Ok t => RFresh t | Err e => RRaise e end)
    | _ => None
    end
  else None.

(** shell.py:346: the library functions modelled here, the others as in [O] *)
Definition std_world (O : world) : world :=
  mkWorld (w_literal O) (w_int O)
    (fun n name args kw =>
       match kw, lib_fun name args with
       | [], Some r => r
       | _, _ => w_fun O n name args kw
       end)
    (fun n name s args kw =>
       match kw, lib_sudoku name s args with
       | [], Some r => r
       | _, _ => w_sudoku O n name s args kw
       end).
