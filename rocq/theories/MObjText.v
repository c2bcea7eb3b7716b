(** The texts of sudokus whose fields hold arbitrary objects (see MObjects.v): Sudoku.encode, view and
    Sudoku.__str__ of sudokutools/sudoku.py.  [truth x] is bool(x), [ostr x] is str(x); neither raises.  The
    candidates are ints. *)
From Verif Require Export MCodec.

(** sudoku.py:254-288 encode *)
Definition encode_o (ostr : Z -> pystr) (s : sudoku) (row_sep col_sep : pystr) (include_candidates : bool) : res pystr :=
  let* rows := mapM (fun row =>
       let* nums := mapM (fun col => let* v := getitem s row col in Ok (ostr v)) (indices s) in
       Ok (join col_sep nums)) (indices s) in
  let r := join row_sep rows in
  if include_candidates then
    let* all := mapM (fun rc =>
         let* c := get_candidates s (fst rc) (snd rc) in
         Ok (concat (map str_of_int c))) (coords s) in
    Ok (r ++ lit "|" ++ join (lit ",") all)
  else Ok r.

(** sudoku.py:621-641: the columns of one row *)
Definition view_row_o (truth : Z -> bool) (ostr : Z -> pystr) (s : sudoku) (include_candidates : bool)
    (number_sep candidate_prefix : pystr) (align_right : bool) (max_field_length row : Z) : res pystr :=
  let field_count := box_width s * box_height s in
  let* col_str := mapM (fun cc =>
      let* v := getitem s row cc in
      let* val := if truth v then Ok (ostr v)
                  else if negb include_candidates then Ok []
                  else let* c := get_candidates s row cc in
                       Ok (candidate_prefix ++ join number_sep (map str_of_int c)) in
      let val := if align_right : bool then rjust max_field_length val else ljust max_field_length val in
      Ok (if ((cc + 1) mod box_width s =? 0) && (cc <? field_count - 1)
          then [val; lit "|"] else [val]))
    (indices s) in
  Ok (join (lit " ") (concat col_str)).

(** sudoku.py:541-648 view.  The parameter [number_sep0] is overwritten (lines 592-595). *)
Definition view_o (truth : Z -> bool) (ostr : Z -> pystr) (s : sudoku) (include_candidates : bool)
    (number_sep0 : option pystr) (candidate_prefix : pystr) (align_right : bool) : res pystr :=
  let* max_length := list_max (map (fun n => py_len (str_of_int n)) (numbers s)) in
  let number_sep := if 1 <? max_length then lit "," else [] in
  let* max_field_length :=
    if include_candidates then
      foldM (fun m rc =>
               let* c := get_candidates s (fst rc) (snd rc) in
               let length := py_len (join number_sep (map str_of_int c)) + py_len candidate_prefix in
               Ok (if m <? length then length else m))
            (coords s) max_length
    else Ok max_length in
  let field_count := box_width s * box_height s in
  foldM (fun acc rc =>
           let* line := view_row_o truth ostr s include_candidates number_sep candidate_prefix align_right
                                   max_field_length rc in
           let acc := acc ++ line in
           let acc := if rc <? field_count - 1 then acc ++ [10] else acc in
           Ok (if ((rc + 1) mod box_height s =? 0) && (rc <? field_count - 1)
               then acc ++ view_rule s max_field_length else acc))
        (indices s) [].

(** sudoku.py:164-170 __str__ *)
Definition sudoku_str_o (truth : Z -> bool) (ostr : Z -> pystr) (s : sudoku) : res pystr :=
  view_o truth ostr s false None (lit "*") true.
