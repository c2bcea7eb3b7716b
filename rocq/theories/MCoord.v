(** Model of sudokutools/coordinates.py.

    Python's [//] and [%] are [Z.div] and [Z.modulo] (both round towards minus
    infinity).  For [width = 0] or [height = 0] Python raises ZeroDivisionError
    where [Z.div] returns 0; no theorem speaks about that case. *)
From Verif Require Export PyBase.

(** coordinates.py:49-61 box_at *)
Definition box_at (row col width height : Z) : Z :=
  col / width + row - (row mod height).

(** coordinates.py:81-82: the nested comprehension
    [(y + i, x + j) for i in range(height) for j in range(width)] *)
Definition block (y x width height : Z) : list coord :=
  map (fun ij => (y + fst ij, x + snd ij))
      (list_prod (py_range height) (py_range width)).

(** coordinates.py:64-85 box_of *)
Definition box_of (row col width height : Z) (include : bool) : res (list coord) :=
  let grid_x := col - (col mod width) in
  let grid_y := row - (row mod height) in
  let coords := block grid_y grid_x width height in
  if negb include then list_remove coord_eqb (row, col) coords
  else Ok coords.

(** coordinates.py:88-102 column_of *)
Definition column_of (row col width height : Z) (include : bool) : list coord :=
  map (fun i => (i, col))
      (filter (fun i => include || negb (i =? row)) (py_range (width * height))).

(** coordinates.py:105-119 row_of *)
Definition row_of (row col width height : Z) (include : bool) : list coord :=
  map (fun j => (row, j))
      (filter (fun j => include || negb (j =? col)) (py_range (width * height))).

(** coordinates.py:147-160 _box_without_row_and_column_of *)
Definition box_without_row_and_column_of (row col width height : Z) : list coord :=
  let grid_x := col - (col mod width) in
  let grid_y := row - (row mod height) in
  map (fun ij => (grid_y + fst ij, grid_x + snd ij))
      (filter (fun ij => negb (grid_y + fst ij =? row) && negb (grid_x + snd ij =? col))
              (list_prod (py_range height) (py_range width))).

(** coordinates.py:122-144 surrounding_of *)
Definition surrounding_of (row col width height : Z) (include : bool) : res (list coord) :=
  let coords := row_of row col width height include
                ++ column_of row col width height include
                ++ box_without_row_and_column_of row col width height in
  if include then list_remove coord_eqb (row, col) coords
  else Ok coords.

(** coordinates.py:163-187 the_box *)
Definition the_box (box width height : Z) : res (list coord) :=
  if negb ((0 <=? box) && (box <? width * height)) then Err ValueError
  else
    let x := (box mod height) * width in
    let y := (box / height) * height in
    Ok (block y x width height).

(** coordinates.py:190-211 the_column *)
Definition the_column (col width height : Z) : res (list coord) :=
  if negb ((0 <=? col) && (col <? width * height)) then Err ValueError
  else Ok (map (fun r => (r, col)) (py_range (width * height))).

(** coordinates.py:214-240 the_part *)
Definition the_part (part width height : Z) : res (list coord) :=
  if negb ((0 <=? part) && (part <? width * height)) then Err ValueError
  else
    let col := part mod width in
    let row := part / width in
    Ok (map (fun ij => (row + fst ij * height, col + snd ij * width))
            (list_prod (py_range width) (py_range height))).

(** coordinates.py:243-265 the_row *)
Definition the_row (row width height : Z) : res (list coord) :=
  if negb ((0 <=? row) && (row <? width * height)) then Err ValueError
  else Ok (map (fun c => (row, c)) (py_range (width * height))).
