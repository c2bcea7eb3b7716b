(** Model of class Sudoku of sudokutools/sudoku.py, without the conversion
    from and to strings (see MCodec.v). *)
From Verif Require Export PyBase PySet PyGen.
From Verif Require MCoord.

(** sudoku.py:58-67: the attributes of a Sudoku object.  [indices] and
    [numbers] (sudoku.py:61-62) are computed from the box size since they are
    never reassigned. *)
Record sudoku : Type := mkSudoku {
  box_width : Z;
  box_height : Z;
  s_numbers : list (list Z);        (* self.__numbers *)
  s_candidates : list (list zset)   (* self.__candidates *)
}.

(** sudoku.py:61-62 *)
Definition indices (s : sudoku) : list Z := py_range (box_width s * box_height s).
(** sudoku.py:62 the attribute numbers *)
Definition numbers (s : sudoku) : list Z := py_range2 1 (box_width s * box_height s + 1).

(** sudoku.py:51-67 __init__.  Simplification: box_size is a pair of ints (other
    arguments, rejected by lines 58-64, are not modelled). *)
Definition new_sudoku (box_size : Z * Z) : sudoku :=
  let (w, h) := box_size in
  let ind := py_range (w * h) in
  {| box_width := w;
     box_height := h;
     s_numbers := map (fun _ => repeat 0 (length ind)) ind;
     s_candidates := map (fun _ => repeat [] (length ind)) ind |}.

(** sudoku.py:59 the attribute box_size *)
Definition box_size (s : sudoku) : Z * Z := (box_width s, box_height s).

(** sudoku.py:69-75 __iter__: row-major order *)
Definition coords (s : sudoku) : list coord := list_prod (indices s) (indices s).

(** sudoku.py:172-186 __getitem__ (and 211-213 get_number) *)
Definition getitem (s : sudoku) (row col : Z) : res Z :=
  let* r := list_get (s_numbers s) row in list_get r col.

(** sudoku.py:188-201 __setitem__ (and 215-217 set_number) *)
Definition setitem (s : sudoku) (row col value : Z) : res sudoku :=
  let* r := list_get (s_numbers s) row in
  let* r' := list_set r col value in
  let* n' := list_set (s_numbers s) row r' in
  Ok {| box_width := box_width s; box_height := box_height s;
        s_numbers := n'; s_candidates := s_candidates s |}.

(** sudoku.py:219-229 get_candidates *)
Definition get_candidates (s : sudoku) (row col : Z) : res zset :=
  let* r := list_get (s_candidates s) row in list_get r col.

(** sudoku.py:231-240 set_candidates; [frozenset(value)] is [sof_list]. *)
Definition set_candidates (s : sudoku) (row col : Z) (value : list Z) : res sudoku :=
  let* r := list_get (s_candidates s) row in
  let* r' := list_set r col (sof_list zcmp value) in
  let* c' := list_set (s_candidates s) row r' in
  Ok {| box_width := box_width s; box_height := box_height s;
        s_numbers := s_numbers s; s_candidates := c' |}.

(** sudoku.py:242-252 remove_candidates *)
Definition remove_candidates (s : sudoku) (row col : Z) (value : list Z) : res sudoku :=
  let* r := list_get (s_candidates s) row in
  let* old := list_get r col in
  let* r' := list_set r col (sdiff zcmp old (sof_list zcmp value)) in
  let* c' := list_set (s_candidates s) row r' in
  Ok {| box_width := box_width s; box_height := box_height s;
        s_numbers := s_numbers s; s_candidates := c' |}.

(** sudoku.py:203-209 __len__ *)
Definition sudoku_len (s : sudoku) : Z := box_width s ^ 2 * box_height s ^ 2.

(** sudoku.py:77-85 empty: a generator over the shared sudoku *)
Definition empty (s : sudoku) : gen sudoku coord sudoku :=
  gfor (fun s rc =>
          do* v := lift (getitem s (fst rc) (snd rc)) in
          if v =? 0 then yield rc else Ret s)
       (coords s) s.

(** sudoku.py:87-95 filled *)
Definition filled (s : sudoku) : gen sudoku coord sudoku :=
  gfor (fun s rc =>
          do* v := lift (getitem s (fst rc) (snd rc)) in
          if negb (v =? 0) then yield rc else Ret s)
       (coords s) s.

(** sudoku.py:97-103 count *)
Definition count (s : sudoku) : res Z :=
  let* l := glist (filled s) s in Ok (py_len l).

(** sudoku.py:105-122 diff; [other] is not changed while iterating *)
Definition diff (s other : sudoku) : gen sudoku coord sudoku :=
  gfor (fun s rc =>
          do* a := lift (getitem s (fst rc) (snd rc)) in
          do* b := lift (getitem other (fst rc) (snd rc)) in
          if negb (a =? b) then yield rc else Ret s)
       (coords s) s.

(** sudoku.py:124-142 copy *)
Definition copy (s : sudoku) (include_candidates : bool) : res sudoku :=
  let new := new_sudoku (box_size s) in
  let* new := foldM (fun new rc =>
                       let* v := getitem s (fst rc) (snd rc) in
                       setitem new (fst rc) (snd rc) v)
                    (coords s) new in
  if include_candidates then
    foldM (fun new rc =>
             let* c := get_candidates s (fst rc) (snd rc) in
             set_candidates new (fst rc) (snd rc) c)
          (coords s) new
  else Ok new.

(** sudoku.py:157-160: the loop of __eq__; [get r c] is other[r, c], None stands for
    an object that is different from every int *)
Fixpoint eq_loop (s : sudoku) (get : Z -> Z -> res (option Z)) (l : list coord) : res bool :=
  match l with
  | [] => Ok true
  | rc :: t =>
      let* a := getitem s (fst rc) (snd rc) in
      let* b := get (fst rc) (snd rc) in
      match b with
      | Some b => if negb (a =? b) then Ok false else eq_loop s get t
      | None => Ok false
      end
  end.

(** sudoku.py:144-162 __eq__ for any object *)
Definition object_eq (s : sudoku) (get : Z -> Z -> res (option Z)) : res bool :=
  match eq_loop s get (coords s) with
  | Ok b => Ok b
  | Err IndexError | Err KeyError | Err TypeError => Ok false
  | Err e => Err e
  end.
(** sudoku.py:144-162 __eq__ for [other] a Sudoku *)
Definition sudoku_eq (s other : sudoku) : res bool :=
  object_eq s (fun r c => let* v := getitem other r c in Ok (Some v)).

(** equality of frozensets (sudoku.py:534) *)
Definition zset_eqb (a b : zset) : bool :=
  match list_cmp zcmp a b with Eq => true | _ => false end.

(** sudoku.py:530-538 equals *)
Fixpoint equals_loop (s other : sudoku) (candidates : bool) (l : list coord) : res bool :=
  match l with
  | [] => Ok true
  | rc :: t =>
      let* a := getitem s (fst rc) (snd rc) in
      let* b := getitem other (fst rc) (snd rc) in
      if negb (a =? b) then Ok false
      else if candidates then
        let* ca := get_candidates s (fst rc) (snd rc) in
        let* cb := get_candidates other (fst rc) (snd rc) in
        if negb (zset_eqb ca cb) then Ok false
        else equals_loop s other candidates t
      else equals_loop s other candidates t
  end.
(** sudoku.py:530-538 equals *)
Definition equals (s other : sudoku) (candidates : bool) : res bool :=
  equals_loop s other candidates (coords s).

(** sudoku.py:432-442 box_at *)
Definition box_at (s : sudoku) (row col : Z) : Z :=
  col / box_width s + row - (row mod box_height s).

(** sudoku.py:444-456 column_of *)
Definition column_of (s : sudoku) (row col : Z) (include : bool) : list coord :=
  map (fun i => (i, col))
      (filter (fun i => include || negb (i =? row)) (indices s)).

(** sudoku.py:458-470 row_of *)
Definition row_of (s : sudoku) (row col : Z) (include : bool) : list coord :=
  map (fun j => (row, j))
      (filter (fun j => include || negb (j =? col)) (indices s)).

(** sudoku.py:472-491 box_of *)
Definition box_of (s : sudoku) (row col : Z) (include : bool) : res (list coord) :=
  let grid_x := col - (col mod box_width s) in
  let grid_y := row - (row mod box_height s) in
  let coords := map (fun ij => (grid_y + fst ij, grid_x + snd ij))
                    (list_prod (py_range (box_height s)) (py_range (box_width s))) in
  if negb include then list_remove coord_eqb (row, col) coords
  else Ok coords.

(** sudoku.py:515-528 _quad_without_row_and_column_of *)
Definition quad_without_row_and_column_of (s : sudoku) (row col : Z) : list coord :=
  let grid_x := col - (col mod box_width s) in
  let grid_y := row - (row mod box_height s) in
  map (fun ij => (grid_y + fst ij, grid_x + snd ij))
      (filter (fun ij => negb (grid_y + fst ij =? row) && negb (grid_x + snd ij =? col))
              (list_prod (py_range (box_height s)) (py_range (box_width s)))).

(** sudoku.py:493-513 surrounding_of *)
Definition surrounding_of (s : sudoku) (row col : Z) (include : bool) : res (list coord) :=
  let coords := row_of s row col include
                ++ column_of s row col include
                ++ quad_without_row_and_column_of s row col in
  if include then list_remove coord_eqb (row, col) coords
  else Ok coords.
