(** Model of the conversions between sudokus and strings: Sudoku.encode,
    Sudoku.decode, view and Sudoku.__str__ of sudokutools/sudoku.py. *)
From Verif Require Export MSudoku PyStr.

(** sudoku.py:254-288 encode.  [sorted(clist)] is the canonical list itself
    (a set of ints is represented sorted). *)
Definition encode (s : sudoku) (row_sep col_sep : pystr) (include_candidates : bool)
  : res pystr :=
  let* rows := mapM (fun row =>
       let* nums := mapM (fun col => let* v := getitem s row col in Ok (str_of_int v))
                         (indices s) in
       Ok (join col_sep nums)) (indices s) in
  let r := join row_sep rows in
  if include_candidates then
    let* all := mapM (fun rc =>
         let* c := get_candidates s (fst rc) (snd rc) in
         Ok (concat (map str_of_int c))) (coords s) in
    Ok (r ++ lit "|" ++ join (lit ",") all)
  else Ok r.

(** [x ** 0.5] and [is_integer()] of sudoku.py:367-374: the exact square root if
    there is one.  Simplification: floats are replaced by exact arithmetic. *)
Definition exact_sqrt (n : Z) : option Z :=
  let r := Z.sqrt n in if r * r =? n then Some r else None.

(** sudoku.py:360-384: the automatic box size for [count] fields *)
Definition infer_box_size (count : Z) : res (Z * Z) :=
  match exact_sqrt count with
  | None => Err ValueError
  | Some length =>
      match exact_sqrt length with
      | Some width => Ok (width, width)
      | None =>
          (* the float [width] is replaced if the loop finds a divisor; it
             always does since [length] itself is in the range *)
          match List.find (fun i => length mod i =? 0) (py_range2 2 (length + 1)) with
          | Some width => if width =? length then Err ValueError
                          else Ok (width, length / width)
          | None => Err ValueError
          end
      end
  end.

(** sudoku.py:397 [item is empty].  CPython: the empty string and the strings of one Latin-1 character
    (code below 256) are unique objects; other strings produced by split() or iteration are new objects.
    Simplification: a text that is a single item, which split() gives back as the same object, is a
    different object from [empty]. *)
Definition unique_object (a : pystr) : bool :=
  match a with [] => true | [c] => c <=? 255 | _ => false end.
(** sudoku.py:397 [item is empty] *)
Definition str_is (a b : pystr) : bool := unique_object a && str_eqb a b.

(** sudoku.py:387-407: the loop reading the fields *)
Fixpoint read_fields (empty : pystr) (items : list pystr) (s : sudoku) (row col : Z) : res sudoku :=
  match items with
  | [] => Ok s
  | item :: t =>
      let* v := if str_is item empty then Ok 0 else int_of_str item in
      let* s := setitem s row col v in
      let n := box_width s * box_height s in
      let '(row, col) := if n <=? col + 1 then (row + 1, 0) else (row, col + 1) in
      if n <=? row then Ok s else read_fields empty t s row col
  end.

(** sudoku.py:413-428: the loop reading the candidates *)
Fixpoint read_candidates (number_sep : pystr) (l : list pystr) (s : sudoku) (row col : Z) : res sudoku :=
  match l with
  | [] => Ok s
  | c :: t =>
      let c := strip c in
      let* items := match number_sep with
                    | [] => Ok (map (fun x => [x]) c)
                    | _ => split number_sep c
                    end in
      let* candidates := mapM int_of_str items in
      let* s := set_candidates s row col candidates in
      let n := box_width s * box_height s in
      let '(row, col) := if col + 1 =? n then (row + 1, 0) else (row, col + 1) in
      if row =? n then Ok s else read_candidates number_sep t s row col
  end.

(** sudoku.py:338-352: removal of whitespace; [number_sep] None and "" behave the
    same and are both represented by [] *)
Definition clean (s empty number_sep sudoku_sep candidate_sep : pystr) : pystr :=
  let special := empty ++ sudoku_sep ++ candidate_sep ++ number_sep in
  fold_left (fun s c => if char_in c special then s else replace_char c number_sep s)
            WHITESPACE (strip s).

(** sudoku.py:290-430 decode; [number_sep] None is [] *)
Definition decode (s empty number_sep sudoku_sep candidate_sep : pystr)
    (box_size : option (Z * Z)) : res sudoku :=
  let s := clean s empty number_sep sudoku_sep candidate_sep in
  let* (sudoku_str, candidate_str) :=
    match sudoku_sep with
    | [] => Err ValueError  (* "" in s is true and s.split("", 1) raises *)
    | _ => Ok (match cut sudoku_sep s with Some (a, b) => (a, b) | None => (s, []) end)
    end in
  let items := match number_sep with
               | [] => map (fun c => [c]) sudoku_str
               | _ => split_go number_sep sudoku_str 0
               end in
  let* box_size := match box_size with
                   | Some b => Ok b
                   | None => infer_box_size (py_len items)
                   end in
  let* sudoku := read_fields empty items (new_sudoku box_size) 0 0 in
  match candidate_str with
  | [] => Ok sudoku
  | _ =>
      let* l := split candidate_sep candidate_str in
      read_candidates number_sep l sudoku 0 0
  end.

(** sudoku.py:591: max() of a list of lengths; ValueError if it is empty *)
Definition list_max (l : list Z) : res Z :=
  match l with
  | [] => Err ValueError
  | x :: t => Ok (fold_left Z.max t x)
  end.

(** sudoku.py:610-615: the horizontal rule *)
Definition view_rule (s : sudoku) (max_field_length : Z) : pystr :=
  let dash_count := box_width s + box_width s * max_field_length in
  str_mul 45 dash_count ++ lit "+" ++
  concat (map (fun _ => str_mul 45 (dash_count + 1) ++ lit "+") (py_range (box_height s - 2))) ++
  str_mul 45 dash_count ++ [10].

(** sudoku.py:621-641: the columns of one row *)
Definition view_row (s : sudoku) (include_candidates : bool) (number_sep candidate_prefix : pystr)
    (align_right : bool) (max_field_length row : Z) : res pystr :=
  let field_count := box_width s * box_height s in
  let* col_str := mapM (fun cc =>
      let* v := getitem s row cc in
      let* val := if negb (v =? 0) then Ok (str_of_int v)
                  else if negb include_candidates then Ok []
                  else let* c := get_candidates s row cc in
                       Ok (candidate_prefix ++ join number_sep (map str_of_int c)) in
      let val := if align_right : bool then rjust max_field_length val else ljust max_field_length val in
      Ok (if ((cc + 1) mod box_width s =? 0) && (cc <? field_count - 1)
          then [val; lit "|"] else [val]))
    (indices s) in
  Ok (join (lit " ") (concat col_str)).

(** sudoku.py:541-648 view.  The parameter [number_sep0] is overwritten (lines 592-595). *)
Definition view (s : sudoku) (include_candidates : bool) (number_sep0 : option pystr)
    (candidate_prefix : pystr) (align_right : bool) : res pystr :=
  let* max_length := list_max (map (fun n => py_len (str_of_int n)) (numbers s)) in
  let number_sep := if 1 <? max_length then lit "," else [] in
  let* max_field_length :=
    if include_candidates then
      foldM (fun m rc =>
               let* c := get_candidates s (fst rc) (snd rc) in
               let length := py_len (join number_sep (map str_of_int c)) + py_len candidate_prefix in
               Ok (if m <? length then length else m))
            (coords s) max_length
    else Ok max_length in
  let field_count := box_width s * box_height s in
  foldM (fun acc rc =>
           let* line := view_row s include_candidates number_sep candidate_prefix align_right
                                 max_field_length rc in
           let acc := acc ++ line in
           let acc := if rc <? field_count - 1 then acc ++ [10] else acc in
           Ok (if ((rc + 1) mod box_height s =? 0) && (rc <? field_count - 1)
               then acc ++ view_rule s max_field_length else acc))
        (indices s) [].

(** sudoku.py:164-170 __str__ *)
Definition sudoku_str (s : sudoku) : res pystr := view s false None (lit "*") true.
