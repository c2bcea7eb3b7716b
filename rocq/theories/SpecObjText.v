(** Specification of the texts of sudokus with arbitrary objects. *)
From Verif Require Export SpecView MObjText.

(** The text of encode without candidates *)
Definition encode_text (ostr : Z -> pystr) (s : sudoku) (row_sep col_sep : pystr) : pystr :=
  let n := box_width s * box_height s in
  join row_sep (map (fun r => join col_sep (map (fun c => ostr (num s (r, c))) (below n))) (below n)).

(** The content of a field in view *)
Definition shown_o (truth : Z -> bool) (ostr : Z -> pystr) (s : sudoku) (inc : bool) (prefix : pystr) (p : coord) : pystr :=
  if truth (num s p) then ostr (num s p) else if inc then candidate_text s prefix p else [].

(** The text of view (as in SpecView.v); [cell p] is the content of the field [p] *)
Definition grid_row (w h : Z) (cell : coord -> pystr) (right : bool) (m r : Z) : pystr :=
  join (lit " | ") (map (fun k =>
    join (lit " ") (map (fun i => padded right m (cell (r, k * w + i))) (below w))) (below h)).
Definition grid_text (w h : Z) (cell : coord -> pystr) (right : bool) (m : Z) : pystr :=
  join ([10] ++ rule_text w h m ++ [10]) (map (fun b =>
    join [10] (map (fun i => grid_row w h cell right m (b * h + i)) (below h))) (below w)).
