(** Model of class GameShell (sudokutools/shell.py:24-185).

    Not modelled: Ctrl-C and the end of the input (EOFError), which are the only ways to
    leave the game besides a crash, and the text of a hint, which is an arbitrary
    function of the step. *)
From Verif Require Export MRate MGenerate MAnalyze MNotation MCodec.

(** The values of settings (shell.py:28-36): a bool or a pair of ints.  The
    descriptions (shell.py:39-47) are never used; they are not modelled. *)
Inductive setting : Type :=
| SBool (b : bool)
| SPair (a b : Z).
(** shell.py:28-36: the dict settings *)
Definition settings : Type := list (pystr * setting).

(** shell.py:28-36 *)
Definition default_settings : settings :=
  [(lit "autocandidates", SBool true);
   (lit "autocheck", SBool false);
   (lit "autoconflicts", SBool true);
   (lit "autoremove", SBool true);
   (lit "autoset", SBool false);
   (lit "dim", SPair 3 3);
   (lit "rating", SPair 1 10)].

(** [bool(self.settings.get(key, False))] (shell.py:67, 161, 176) *)
Definition setting_on (cfg : settings) (key : pystr) : bool :=
  match dget str_eqb cfg key with
  | Ok (SBool b) => b
  | Ok (SPair _ _) => true
  | Err _ => false
  end.

(** shell.py:73-74 get_setting (never called): indexing a bool raises TypeError *)
Definition get_setting (cfg : settings) (key : pystr) : res Z :=
  let* v := dget str_eqb cfg key in
  match v with
  | SBool _ => Err TypeError
  | SPair a _ => Ok a
  end.

(** Statements that change a state of type [S] and may raise (shell.py:58-185) *)
Definition stmt (S : Type) : Type := S -> S * option exn.
(** shell.py:58-185: [a; b] *)
Definition andthen {S} (o : S * option exn) (f : stmt S) : S * option exn :=
  match o with
  | (st, None) => f st
  | (st, Some e) => (st, Some e)
  end.
(** shell.py:102, 116, 123, 162, 167, 177, 180: [for x in l: ...] *)
Fixpoint for_each {S A} (f : A -> stmt S) (l : list A) (st : S) : S * option exn :=
  match l with
  | [] => (st, None)
  | x :: t => andthen (f x st) (for_each f t)
  end.
(** Evaluation of an expression (shell.py:58-185) *)
Definition with_value {S A} (r : res A) (st : S) (f : A -> S * option exn) : S * option exn :=
  match r with
  | Ok a => f a
  | Err e => (st, Some e)
  end.

(** The variables of autofill (shell.py:156-159): the sudoku, what was printed, [changed] *)
Record fill : Type := mkFill { f_sudoku : sudoku; f_out : pystr; f_changed : bool }.

(** shell.py:167-172: one field of surr; the list [coordinates] is part of the state *)
Definition autoremove_field (value : Z) (rc : coord) : stmt (fill * list coord) :=
  fun '(st, coordinates) =>
  let (r, c) := rc in
  with_value (get_candidates (f_sudoku st) r c) (st, coordinates) (fun cand =>
    if smem zcmp value cand then
      with_value (remove_candidates (f_sudoku st) r c [value]) (st, coordinates) (fun s =>
        ((mkFill s (f_out st) true, coordinates ++ [rc]), None))
    else ((st, coordinates), None)).

(** shell.py:161-174: the loop over sudoku.filled() (sudoku.py:87-95, written out) *)
Definition autoremove (verbose : bool) (rc : coord) : stmt fill :=
  fun st =>
  let (row, col) := rc in
  with_value (getitem (f_sudoku st) row col) st (fun value =>
    if value =? 0 then (st, None)
    else
      with_value (surrounding_of (f_sudoku st) row col false) st (fun surr =>
        let '(st, coordinates, e) := for_each (autoremove_field value) surr (st, []) in
        andthen (st, e) (fun st =>
          match coordinates with
          | _ :: _ =>
              if verbose then
                with_value (nencode coordinates 3 3 None (lit ",") []) st (fun t =>
                  (mkFill (f_sudoku st) (f_out st ++ lit "autoremove: " ++ t ++ lit "<>" ++ str_of_int value ++ [10])
                     (f_changed st), None))
              else (st, None)
          | [] => (st, None)
          end))).

(** shell.py:176-185: the loop over sudoku.empty() (sudoku.py:77-85, written out) *)
Definition autoset (verbose : bool) (rc : coord) : stmt fill :=
  fun st =>
  let (row, col) := rc in
  with_value (getitem (f_sudoku st) row col) st (fun value =>
    if negb (value =? 0) then (st, None)
    else
      with_value (get_candidates (f_sudoku st) row col) st (fun candidates =>
        match candidates with
        | [value] =>
            with_value (setitem (f_sudoku st) row col value) st (fun s =>
              let st := mkFill s (f_out st) (f_changed st) in
              if verbose then
                with_value (nencode [rc] 3 3 None (lit ",") []) st (fun t =>
                  (mkFill s (f_out st ++ lit "autoset: " ++ t ++ lit "=" ++ str_of_int value ++ [10]) true, None))
              else (mkFill s (f_out st) true, None))
        | _ => (st, None)
        end)).

(** shell.py:158-185: the body of the while loop *)
Definition autofill_pass (cfg : settings) (verbose : bool) : stmt fill :=
  fun st =>
  let st := mkFill (f_sudoku st) (f_out st) false in
  andthen (if setting_on cfg (lit "autoremove") then for_each (autoremove verbose) (coords (f_sudoku st)) st else (st, None))
          (fun st => if setting_on cfg (lit "autoset") then for_each (autoset verbose) (coords (f_sudoku st)) st else (st, None)).

(** shell.py:156-185 autofill: the sudoku and what was printed.  The fuel bounds the number of passes. *)
Fixpoint autofill_loop (fuel : nat) (cfg : settings) (verbose : bool) (st : fill) : fill * option exn :=
  match fuel with
  | O => (st, Some OutOfFuel)
  | S fuel =>
      andthen (autofill_pass cfg verbose st)
              (fun st => if f_changed st then autofill_loop fuel cfg verbose st else (st, None))
  end.
(** shell.py:156-185 autofill *)
Definition autofill (fuel : nat) (cfg : settings) (verbose : bool) (s : sudoku) : (sudoku * pystr) * option exn :=
  let (st, e) := autofill_loop fuel cfg verbose (mkFill s [] true) in
  ((f_sudoku st, f_out st), e).

(** shell.py:25-56: the attributes of a GameShell.  [running] is always True.  The
    hints generator keeps the sudoku it was created with, which nothing changes. *)
Record game : Type := mkGame {
  gm_settings : settings;
  gm_hints : option (sudoku * gen sudoku step sudoku);
  gm_hinted : option sudoku;
  gm_sudokus : list sudoku;
  gm_index : Z;
  gm_solution : sudoku;
  gm_out : pystr;
  gm_calls : nat                 (* number of calls of hints() *)
}.
(** shell.py:66-129, 147: print *)
Definition gprint (g : game) (t : pystr) : game :=
  mkGame (gm_settings g) (gm_hints g) (gm_hinted g) (gm_sudokus g) (gm_index g) (gm_solution g) (gm_out g ++ t) (gm_calls g).
(** shell.py:134, 139, 154: assignment to self.index *)
Definition set_index (g : game) (i : Z) : game :=
  mkGame (gm_settings g) (gm_hints g) (gm_hinted g) (gm_sudokus g) i (gm_solution g) (gm_out g) (gm_calls g).
(** shell.py:152-153: assignment to self.sudokus *)
Definition set_sudokus (g : game) (l : list sudoku) : game :=
  mkGame (gm_settings g) (gm_hints g) (gm_hinted g) l (gm_index g) (gm_solution g) (gm_out g) (gm_calls g).
(** shell.py:94: the generator self.hints after next() *)
Definition set_hints (g : game) (x : option (sudoku * gen sudoku step sudoku)) : game :=
  mkGame (gm_settings g) x (gm_hinted g) (gm_sudokus g) (gm_index g) (gm_solution g) (gm_out g) (gm_calls g).
(** shell.py:91-92: assignment to self.hinted_sudoku and self.hints *)
Definition new_hints (g : game) (x : sudoku * gen sudoku step sudoku) (s : sudoku) : game :=
  mkGame (gm_settings g) (Some x) (Some s) (gm_sudokus g) (gm_index g) (gm_solution g) (gm_out g) (S (gm_calls g)).

(** What is not modelled (shell.py:92, 94): the text of a step and the orders of sets in the n-th call of hints *)
Record genv : Type := mkGenv {
  ge_show : step -> pystr;
  ge_oracle : nat -> oracle
}.

(** [s.split()] (shell.py:86) *)
Fixpoint split_blanks (s word : pystr) : list pystr :=
  match s with
  | [] => match word with [] => [] | _ => [word] end
  | c :: t =>
      if is_space c then
        match word with [] => split_blanks t [] | _ => word :: split_blanks t [] end
      else split_blanks t (word ++ [c])
  end.

(** shell.py:89-96 the command hint *)
Definition cmd_hint (E : genv) (s : sudoku) : stmt game :=
  fun g =>
  let stale := match gm_hints g, gm_hinted g with
               | Some _, Some h => match sudoku_eq h s with Ok b => Ok (negb b) | Err e => Err e end
               | _, _ => Ok true
               end in
  with_value stale g (fun b =>
    let g' := if b : bool then
                with_value (copy s true) g (fun h => (new_hints g (s, hints (ge_oracle E (gm_calls g)) s) h, None))
              else (g, None) in
    andthen g' (fun g =>
      match gm_hints g with
      | Some (o, Yield st k) => (gprint (set_hints g (Some (o, k o))) (ge_show E st ++ [10]), None)
      | Some (_, Ret _) => (gprint g (lit "No more hints available." ++ [10]), None)
      | Some (_, Raise e) => (g, Some e)
      | None => (g, Some AttributeError)   (* impossible *)
      end)).

(** shell.py:99-114 the command conflicts; a conflict is a set of one or two fields and a value *)
Definition same_conflict (a b : coord * coord * Z) : bool :=
  let '(p, q, v) := a in
  let '(p', q', v') := b in
  (v =? v') && ((coord_eqb p p' && coord_eqb q q') || (coord_eqb p q' && coord_eqb q p')).
(** shell.py:109-114: the line printed for a conflict *)
Definition conflict_line (w h : Z) (x : coord * coord * Z) : res pystr :=
  let '(p, q, v) := x in
  let* a := nencode [p] w h None (lit ",") [] in
  let* b := nencode [q] w h None (lit ",") [] in
  Ok (lit "[F]" ++ a ++ lit " = " ++ b ++ lit " = " ++ str_of_int v ++ [10]).
(** shell.py:99-114: the loop of the command conflicts *)
Definition cmd_conflicts (s : sudoku) : stmt game :=
  fun g =>
  with_value (glist (find_conflicts s []) s) g (fun l =>
    let '(g, _, e) := for_each (fun x '(g, listed) =>
        if existsb (same_conflict x) listed then ((g, listed), None)
        else with_value (conflict_line (box_width s) (box_height s) x) (g, listed ++ [x])
               (fun t => ((gprint g t, listed ++ [x]), None)))
      l (g, []) in
    (g, e)).

(** shell.py:115-121 the command settings: unpacking a bool raises TypeError, so with the settings of __init__ nothing is
    printed (desc would be the second number of a pair) *)
Definition cmd_settings : stmt game :=
  fun g =>
  for_each (fun key g =>
      with_value (dget str_eqb (gm_settings g) key) g (fun v =>
        match v with
        | SBool _ => (g, Some TypeError)
        | SPair a b => (gprint g (ljust 20 (key ++ lit " = " ++ str_of_int a) ++ lit " # " ++ str_of_int b ++ [10]), None)
        end))
    (py_sorted (list_cmp zcmp) (dkeys (gm_settings g))) g.

(** shell.py:122-129 the command check *)
Definition cmd_check (s : sudoku) : stmt game :=
  fun g =>
  for_each (fun rc g =>
      with_value (getitem s (fst rc) (snd rc)) g (fun value =>
        if value =? 0 then (g, None)
        else with_value (getitem (gm_solution g) (fst rc) (snd rc)) g (fun w =>
          if value =? w then (g, None)
          else with_value (nencode [rc] (box_width s) (box_height s) None (lit ",") []) g (fun t =>
            (gprint g (lit "[F] " ++ t ++ lit " = " ++ str_of_int value ++ [10]), None)))))
    (coords s) g.

(** shell.py:140-147: an action.  The sudoku after the action is part of the state.  A number of an
    action is an int (see MNotation.apply_action); decode_action produces no other. *)
Definition cmd_action (fuel : nat) (line : pystr) : stmt (game * sudoku) :=
  fun '(g, s) =>
  let unknown g := gprint g (lit "Unknown command '" ++ line ++ lit "'" ++ [10]) in
  let fail g s e := match e with
                    | ValueError => ((unknown g, s), None)
                    | e => ((g, s), Some e)
                    end in
  match decode_action line (box_width s) (box_height s) with
  | Err e => fail g s e
  | Ok a =>
      match apply_action a s with
      | None => ((g, s), Some TypeError)    (* impossible *)
      | Some (Err e) => fail g s e          (* impossible; the sudoku would be half-changed *)
      | Some (Ok s) =>
          let '(s, t, e) := autofill fuel (gm_settings g) true s in
          let g := gprint g t in
          match e with
          | None => ((g, s), None)
          | Some e => fail g s e
          end
      end
  end.

(** shell.py:89-147: the command on the copy [s] of the current sudoku *)
Definition command_on (fuel : nat) (E : genv) (line command : pystr) : stmt (game * sudoku) :=
  fun '(g, s) =>
  let keep (o : game * option exn) := let (g, e) := o in ((g, s), e) in
  if str_eqb command (lit "hint") then keep (cmd_hint E s g)
  else if str_eqb command (lit "candidates") then
    with_value (init_candidates s false) (g, s) (fun s => ((g, s), None))
  else if str_eqb command (lit "conflicts") then keep (cmd_conflicts s g)
  else if str_eqb command (lit "settings") then keep (cmd_settings g)
  else if str_eqb command (lit "check") then keep (cmd_check s g)
  else if str_eqb command (lit "undo") then
    keep (if gm_index g =? 0 then gprint g (lit "Nothing to undo." ++ [10]) else set_index g (gm_index g - 1), None)
  else if str_eqb command (lit "redo") then
    keep (if gm_index g + 1 =? py_len (gm_sudokus g) then gprint g (lit "Nothing to redo." ++ [10])
          else set_index g (gm_index g + 1), None)
  else cmd_action fuel line (g, s).

(** [self.sudokus[:self.index + 1]] for an index >= 0 (shell.py:152) *)
Definition history_to (g : game) : list sudoku := firstn (Z.to_nat (gm_index g + 1)) (gm_sudokus g).

(** shell.py:81-154: one iteration of the loop of run *)
Definition game_line (fuel : nat) (E : genv) (line : pystr) : stmt game :=
  fun g =>
  with_value (list_get (gm_sudokus g) (gm_index g)) g (fun cur =>
  with_value (copy cur true) g (fun s =>
  with_value (view s true None (lit "*") true) g (fun t =>
    let g := gprint g (t ++ [10; 10] ++ lit "> ") in
    match split_blanks line [] with
    | [] => (g, Some IndexError)
    | command :: _ =>
        let '(g, s, e) := command_on fuel E line command (g, s) in
        andthen (g, e) (fun g =>
          if str_eqb command (lit "undo") || str_eqb command (lit "redo") then (g, None)
          else
            with_value (list_get (gm_sudokus g) (gm_index g)) g (fun cur =>
            with_value (equals s cur true) g (fun same =>
              if same : bool then (g, None)
              else (set_index (set_sudokus g (history_to g ++ [s])) (gm_index g + 1), None))))
    end))).

(** shell.py:58-71 new_sudoku.  The rating is computed from a copy. *)
Record new_oracle : Type := mkNew {
  no_generate : generate_oracle;
  no_brute : sudoku -> zset -> list Z;
  no_rate : oracle
}.
(** shell.py:58-71 new_sudoku *)
Definition new_game (fuel : nat) (o : new_oracle) (cfg : settings) (out : pystr) : res game :=
  let* s := generate (no_generate o) 0 SymNone (3, 3) in
  let* (solution, _) := gnext (bruteforce (no_brute o) s) in
  let* r := rate fuel (no_rate o) s in
  let t := lit "Generating new sudoku. Rating: " ++ str_of_int r ++ lit "/10" ++ [10] in
  let* s := if setting_on cfg (lit "autocandidates") then
              let* s := init_candidates s false in
              match autofill fuel cfg false s with
              | ((s, _), None) => Ok s
              | (_, Some e) => Err e
              end
            else init_candidates s true in
  Ok (mkGame cfg None None [s] 0 solution (out ++ t) 0%nat).

(** shell.py:81-154: the loop of run, for the lines that are entered until the end of the input *)
Definition play (fuel : nat) (E : genv) (lines : list pystr) : stmt game :=
  for_each (game_line fuel E) lines.

(** shell.py:76-154 run, with the version [version] *)
Definition run (fuel : nat) (o : new_oracle) (E : genv) (cfg : settings) (version : pystr) (lines : list pystr)
  : res (game * option exn) :=
  let* g := new_game fuel o cfg (lit "sudokutools game shell " ++ version ++ [10]
                                 ++ lit "For a list of available commands type: help" ++ [10]) in
  Ok (play fuel E lines g).
