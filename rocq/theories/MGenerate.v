(** Model of sudokutools/generate.py.  Randomness and the order of sets are
    oracles. *)
From Verif Require Export MAnalyze.

(** The keys of the dict SYMMETRY (generate.py:26-33); any other argument is
    [SymOther] (KeyError, line 90). *)
Inductive symmetry : Type :=
| SymNone | SymRotate90 | SymRotate180 | SymMirrorX | SymMirrorY | SymMirrorXY
| SymOther.

(** generate.py:26-33 *)
Definition symmetry_func (y : symmetry) : res (Z -> Z -> Z -> Z -> list coord) :=
  match y with
  | SymNone => Ok (fun w h r c => [(r, c)])
  | SymRotate90 => Ok (fun w h r c =>
      [(r, c); (w*h-1-c, r); (w*h-1-r, w*h-1-c); (c, w*h-1-r)])
  | SymRotate180 => Ok (fun w h r c => [(r, c); (w*h-1-r, w*h-1-c)])
  | SymMirrorX => Ok (fun w h r c => [(r, c); (w*h-1-r, c)])
  | SymMirrorY => Ok (fun w h r c => [(r, c); (r, w*h-1-c)])
  | SymMirrorXY => Ok (fun w h r c =>
      [(r, c); (w*h-1-r, c); (r, w*h-1-c); (w*h-1-r, w*h-1-c)])
  | SymOther => Err KeyError
  end.

(** random.choice on a list: the element at a random index, IndexError for an
    empty list (generate.py:49-50). [pick] is the random number; taken modulo
    the length it covers every index. *)
Definition choice {A} (pick : Z) (l : list A) : res A :=
  match l with
  | [] => Err IndexError
  | _ => list_get l (pick mod py_len l)
  end.

(** The random decisions and set orders of one call of create_solution. (generate.py:49-57) *)
Record create_oracle : Type := {
  co_row : Z;                               (* choice, line 49 *)
  co_col : Z;                               (* choice, line 50 *)
  co_shuffle : list Z -> list Z;            (* shuffle, line 52 *)
  co_ord : list xrow -> list xrow -> list xrow   (* sets in dlx, line 57 *)
}.

(** generate.py:36-57 create_solution *)
Definition create_solution (o : create_oracle) (box_size : Z * Z) : res sudoku :=
  let s := new_sudoku box_size in
  let* row := choice (co_row o) (py_range (box_height s)) in
  let* col := choice (co_col o) (py_range (box_width s)) in
  let nums := co_shuffle o (numbers s) in
  let* box := box_of s row col true in
  let* (_, s) := foldM (fun '(nums, s) ij =>
                          let* (n, nums) := list_pop nums in
                          let* s := setitem s (fst ij) (snd ij) n in
                          Ok (nums, s))
                       box (nums, s) in
  let* (sol, _) := gnext (dlx (co_ord o) s) in
  Ok sol.

(** generate.py:94-117: the random decisions and set orders of one call of generate *)
Record generate_oracle : Type := {
  go_create : create_oracle;
  go_shuffle : list coord -> list coord;         (* shuffle, line 97 *)
  go_ord : nat -> list xrow -> list xrow -> list xrow  (* is_unique, per iteration *)
}.

(** generate.py:100-120, the loop.  [fuel] bounds the number of iterations.  The
    set step_coords is iterated in canonical order: the loops over it commute.
    [k] numbers the iterations. *)
Fixpoint generate_loop (fuel : nat) (o : generate_oracle) (k : nat)
    (f : Z -> Z -> Z -> Z -> list coord) (min_count : Z) (solution : sudoku)
    (coords : list coord) (count : Z) (s : sudoku) : res sudoku :=
  match coords with
  | [] => Ok s
  | c0 :: _ =>
      match fuel with
      | O => Err OutOfFuel
      | S fuel =>
          let step_coords := sof_list coord_cmp
            (f (box_width s) (box_height s) (fst c0) (snd c0)) in
          let* coords := foldM (fun coords rc => list_remove coord_eqb rc coords)
                               step_coords coords in
          if count - py_len step_coords <? min_count then Ok s
          else
            let* (s, count) := foldM (fun '(s, count) rc =>
                                        let* s := setitem s (fst rc) (snd rc) 0 in
                                        Ok (s, count - 1))
                                     step_coords (s, count) in
            let* u := is_unique (go_ord o k) s in
            let* (s, count) :=
              if negb u then
                foldM (fun '(s, count) rc =>
                         let* v := getitem solution (fst rc) (snd rc) in
                         let* s := setitem s (fst rc) (snd rc) v in
                         Ok (s, count + 1))
                      step_coords (s, count)
              else Ok (s, count) in
            generate_loop fuel o (S k) f min_count solution coords count s
      end
  end.

(** generate.py:60-122 generate *)
Definition generate (o : generate_oracle) (min_count : Z) (y : symmetry) (box_size : Z * Z)
  : res sudoku :=
  let count_limit := fst box_size ^ 2 * snd box_size ^ 2 in
  if count_limit <? min_count then Err ValueError
  else
    match symmetry_func y with
    | Err KeyError => Err ValueError
    | Err e => Err e
    | Ok f =>
        let* solution := create_solution (go_create o) box_size in
        let* s := copy solution false in
        let cs := go_shuffle o (coords s) in
        let count := sudoku_len s in
        generate_loop (S (length cs)) o 0 f min_count solution cs count s
    end.

(** generate.py:181-195, the loop of generate_from_template.  [o t] are the random
    decisions of try [t]; the second component is the set order of is_unique. *)
Fixpoint template_loop (fuel : nat)
    (o : Z -> create_oracle * (list xrow -> list xrow -> list xrow))
    (template : sudoku) (tries t : Z) : res sudoku :=
  if (t <? tries) || (tries <? 0) then
    match fuel with
    | O => Err OutOfFuel
    | S fuel =>
        let* solution := create_solution (fst (o t)) (box_size template) in
        let* s := copy solution false in
        let* s := foldM (fun s rc =>
                           let* v := getitem template (fst rc) (snd rc) in
                           if v =? 0 then setitem s (fst rc) (snd rc) 0 else Ok s)
                        (coords template) s in
        let* u := is_unique (snd (o t)) s in
        if u : bool then Ok s
        else template_loop fuel o template tries (t + 1)
    end
  else Err RuntimeError.

(** generate.py:125-195 generate_from_template; the fuel is needed for
    [tries < 0] only *)
Definition generate_from_template (fuel : nat)
    (o : Z -> create_oracle * (list xrow -> list xrow -> list xrow))
    (template : sudoku) (tries : Z) : res sudoku :=
  template_loop fuel o template tries 0.
