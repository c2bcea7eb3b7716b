(** The library functions behind all commands of the shell, called with positional and keyword arguments.

    Only the calls with arguments of unusual types (floats, dicts, a list where an int is expected, ...) and of
    generate_from_template with tries < 0 (which need not terminate) are left to an arbitrary world [O]. *)
From Verif Require Export MHelp MShellLib MGenerate.

(** The random decisions and the orders of sets in the n-th call of a library function (generate.py:49-117, solve.py:119, dlx.py:70) *)
Record chance : Type := mkChance {
  ch_generate : nat -> generate_oracle;
  ch_template : nat -> Z -> create_oracle * (list xrow -> list xrow -> list xrow);
  ch_brute : nat -> sudoku -> zset -> list Z
}.

(** generate.py:26-33, 88-92: the key of SYMMETRY; unhashable and other values are left to [O] *)
Definition symmetry_of (v : value) : option symmetry :=
  match v with
  | VNone => Some SymNone
  | VStr s =>
      Some (if str_eqb s (lit "rotate-90") then SymRotate90
            else if str_eqb s (lit "rotate-180") then SymRotate180
            else if str_eqb s (lit "mirror-x") then SymMirrorX
            else if str_eqb s (lit "mirror-y") then SymMirrorY
            else if str_eqb s (lit "mirror-xy") then SymMirrorXY
            else SymOther)
  | VInt _ | VBool _ => Some SymOther
  | _ => None
  end.

(** A box size given as a tuple or list of two ints (sudoku.py:58-62) *)
Definition box_size_of (v : value) : option (Z * Z) :=
  match ints_of_value v, v with
  | Some [w; h], (VTuple _ | VList _) => Some (w, h)
  | _, _ => None
  end.

(** The result of a function returning a new sudoku (shell.py:346-348) *)
Definition fresh_result (r : res sudoku) : lres := match r with Ok t => RFresh t | Err e => RRaise e end.

(** The functions without special argument sudoku; [vs] are the values of all parameters.  sudoku.py:51-67 __init__,
    generate.py:60-122 generate, sudoku.py:290-430 decode (an [empty] of one ASCII character: it is compared by
    identity), shell.py:278-286 clear (which writes to the terminal, not to outfile), 426-462 help_command *)
Definition full_fun (docs : pystr -> option pystr) (C : chance) (n : nat) (name : pystr) (vs : list value) : option lres :=
  if str_eqb name (lit "new") then
    match vs with
    | [b] => match box_size_of b with Some bs => Some (RFresh (new_sudoku bs)) | None => None end
    | _ => None
    end
  else if str_eqb name (lit "generate") then
    match vs with
    | [m; y; b] =>
        match int_of_value m, symmetry_of y, box_size_of b with
        | Some m, Some y, Some (w, h) =>
            Some (fresh_result (generate (ch_generate C n) m y (w, h)))
        | _, _, _ => None
        end
    | _ => None
    end
  else if str_eqb name (lit "decode") then
    match vs with
    | [VStr s; VStr [e]; ns; VStr ss; VStr cs; b] =>
        if (0 <=? e) && (e <? 128) then
          match (match ns with VNone => Some [] | VStr x => Some x | _ => None end),
                (match b with VNone => Some None | _ => option_map Some (box_size_of b) end) with
          | Some ns, Some b => Some (fresh_result (decode s [e] ns ss cs b))
          | _, _ => None
          end
        else None
    | _ => None
    end
  else if str_eqb name (lit "clear") then Some RNone
  else if str_eqb name (lit "help") then
    match vs with
    | [c; v] =>
        match help_command docs c v with
        | Some (Ok t) => Some (RText t)
        | Some (Err e) => Some (RRaise e)
        | None => None
        end
    | _ => None
    end
  else None.

(** The functions with special argument sudoku: sudoku.py:211-213 get_number, 215-217 set_number, 219-229
    get_candidates, 231-240 set_candidates, 242-252 remove_candidates, 254-288 encode, 164-170 __str__, 541-648 view,
    solve.py:45-61 init_candidates, generate.py:125-195 generate_from_template, shell.py:524-526 solve_command.
    (init_candidates does not raise, theorem C115_init.) *)
Definition full_sudoku (C : chance) (n : nat) (name : pystr) (s : sudoku) (vs : list value) : option (sudoku * lres) :=
  if str_eqb name (lit "get") then
    match vs with
    | [r; c] =>
        match int_of_value r, int_of_value c with
        | Some r, Some c => Some (object_result s (getitem s r c))
        | _, _ => None
        end
    | _ => None
    end
  else if str_eqb name (lit "set") then
    match vs with
    | [r; c; VInt v] =>
        match int_of_value r, int_of_value c with
        | Some r, Some c => Some (change_result s (setitem s r c v))
        | _, _ => None
        end
    | _ => None
    end
  else if str_eqb name (lit "get_candidates") then
    match vs with
    | [r; c] =>
        match int_of_value r, int_of_value c with
        | Some r, Some c => Some (object_result s (get_candidates s r c))
        | _, _ => None
        end
    | _ => None
    end
  else if str_eqb name (lit "set_candidates") then
    match vs with
    | [r; c; v] =>
        match int_of_value r, int_of_value c, ints_of_value v with
        | Some r, Some c, Some l => Some (change_result s (set_candidates s r c l))
        | _, _, _ => None
        end
    | _ => None
    end
  else if str_eqb name (lit "remove_candidates") then
    match vs with
    | [r; c; v] =>
        match int_of_value r, int_of_value c, ints_of_value v with
        | Some r, Some c, Some l => Some (change_result s (remove_candidates s r c l))
        | _, _, _ => None
        end
    | _ => None
    end
  else if str_eqb name (lit "init_candidates") then
    match vs with
    | [v] =>
        match truth v with
        | Some b => match init_candidates s b with Ok t => Some (t, RNone) | Err _ => None end
        | None => None
        end
    | _ => None
    end
  else if str_eqb name (lit "encode") then
    match vs with
    | [VStr r; VStr c; v] =>
        match truth v with
        | Some b => Some (text_result s (encode s r c b))
        | None => None
        end
    | _ => None
    end
  else if str_eqb name (lit "print") then Some (text_result s (sudoku_str s))
  else if str_eqb name (lit "view") then
    match vs with
    | [ic; _; VStr p; ar] =>
        match truth ic, truth ar with
        | Some ic, Some ar => Some (text_result s (view s ic None p ar))
        | _, _ => None
        end
    | _ => None
    end
  else if str_eqb name (lit "generate_from_template") then
    match vs with
    | [t] =>
        match int_of_value t with
        | Some t =>
            if 0 <=? t then
              Some (s, fresh_result (generate_from_template (S (Z.to_nat t)) (ch_template C n) s t))
            else None
        | None => None
        end
    | _ => None
    end
  else if str_eqb name (lit "solve") then
    Some (s, fresh_result (let* (u, _) := gnext (bruteforce (ch_brute C n) s) in Ok u))
  else None.

(** shell.py:346: a call binds its arguments (TypeError if that fails); what the function does depends on the values of
    its parameters only *)
Definition full_world (docs : pystr -> option pystr) (C : chance) (O : world) : world :=
  mkWorld (w_literal O) (w_int O)
    (fun n name args kw =>
       match (let* f := dget str_eqb SPECS name in bind (params f) args kw) with
       | Err e => RRaise e
       | Ok vs => match full_fun docs C n name vs with
                  | Some r => r
                  | None => w_fun O n name vs []
                  end
       end)
    (fun n name s args kw =>
       match (let* f := dget str_eqb SPECS name in bind (params f) args kw) with
       | Err e => (s, RRaise e)
       | Ok vs => match full_sudoku C n name s vs with
                  | Some r => r
                  | None => w_sudoku O n name s vs []
                  end
       end).
