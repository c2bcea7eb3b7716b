(** Model of encode and decode of sudokutools/notation.py and of the functions the_* of
    sudokutools/coordinates.py for a width and a height that are ints or floats.  (MNotation.v and
    MCoord.v have ints only.)  Coordinates are ints.

    A finite float is represented by its value if that is an integer (None: it is not); infinities
    and NaN are not modelled.  Simplification: arithmetic with floats is exact and str() of a float
    with an integer as value is that integer with ".0" (true below 10^15). *)
From Verif Require Export MNotation.

(** notation.py:89, 154: the arguments width and height *)
Inductive num : Type :=
| NInt (n : Z)
| NFloat (v : option Z).

(** notation.py:112, 168: [int(width) != width] *)
Definition num_val (x : num) : option Z := match x with NInt n => Some n | NFloat v => v end.
(** notation.py:112, 168: the type of width and height *)
Definition is_float (x : num) : bool := match x with NInt _ => false | NFloat _ => true end.

(** [range(x)] of a number with the value n (coordinates.py:187, 211, 240, 265) *)
Definition range_num (float : bool) (n : Z) : res (list Z) := if float then Err TypeError else Ok (py_range n).

(** coordinates.py:181-183 and the like: the message [("..." % width) * height] of the ValueError *)
Definition range_error {A} (hf : bool) : res A := if hf then Err TypeError else Err ValueError.

(** coordinates.py:163-187 the_box; [wf] and [hf] say whether width and height are floats *)
Definition the_box_num (box width height : Z) (wf hf : bool) : res (list coord) :=
  if negb ((0 <=? box) && (box <? width * height)) then range_error hf
  else
    let x := (box mod height) * width in
    let y := (box / height) * height in
    let* is := range_num hf height in
    let* rows := mapM (fun i => let* js := range_num wf width in
                                Ok (map (fun j => (y + i, x + j)) js)) is in
    Ok (concat rows).

(** coordinates.py:190-211 the_column *)
Definition the_column_num (col width height : Z) (wf hf : bool) : res (list coord) :=
  if negb ((0 <=? col) && (col <? width * height)) then range_error hf
  else let* rs := range_num (wf || hf) (width * height) in Ok (map (fun r => (r, col)) rs).

(** coordinates.py:214-240 the_part *)
Definition the_part_num (part width height : Z) (wf hf : bool) : res (list coord) :=
  if negb ((0 <=? part) && (part <? width * height)) then range_error hf
  else
    let col := part mod width in
    let row := part / width in
    let* is := range_num wf width in
    let* rows := mapM (fun i => let* js := range_num hf height in
                                Ok (map (fun j => (row + i * height, col + j * width)) js)) is in
    Ok (concat rows).

(** coordinates.py:243-265 the_row *)
Definition the_row_num (row width height : Z) (wf hf : bool) : res (list coord) :=
  if negb ((0 <=? row) && (row <? width * height)) then range_error hf
  else let* cs := range_num (wf || hf) (width * height) in Ok (map (fun c => (row, c)) cs).

(** str() of a number (notation.py:346-347) *)
Definition num_str (float : bool) (n : Z) : pystr := str_of_int n ++ (if float then lit ".0" else []).

(** notation.py:341-350 _dict_to_str; [kf] says whether the numbers are floats *)
Definition numbers_str_num (float : bool) (nsep : pystr) (l : list Z) : pystr :=
  join nsep (map (fun k => num_str float (k + 1)) (py_sorted zcmp l)).
(** notation.py:341-350 _dict_to_str *)
Definition dict_to_str_num (float : bool) (q1 q2 : Z) (a_dict : list (list Z * zset)) (sep nsep : pystr)
  : res pystr :=
  let* s := mapM (fun keys =>
    let* value := dget key_eqb a_dict keys in
    Ok (q1 :: numbers_str_num float nsep keys ++ q2 :: numbers_str_num float nsep value))
    (py_sorted (list_cmp zcmp) (dkeys a_dict)) in
  Ok (join sep s).

(** notation.py:89-151 encode.  The numbers of boxes and parts (lines 133-134) are floats if the width
    or the height is; those of rows and columns are the coordinates. *)
Definition nencode_num (cs : list coord) (width height : num) (use_boxes : option bool) (sep nsep : pystr)
  : res pystr :=
  match num_val width, num_val height with
  | Some w, Some h =>
      if (w <? 1) || (h <? 1) then Err ValueError
      else
        let nsep := num_sep nsep (w * h) in
        let f := is_float width || is_float height in
        let* (rows, boxes) := collect w h cs in
        match use_boxes with
        | None =>
            let* bd := join_keys boxes in
            let* box_str := dict_to_str_num f 98 112 bd sep nsep in
            let* rd := join_keys rows in
            let* row_str := dict_to_str_num false 114 99 rd sep nsep in
            if py_len box_str <? py_len row_str then Ok box_str else Ok row_str
        | Some true => let* bd := join_keys boxes in dict_to_str_num f 98 112 bd sep nsep
        | Some false => let* rd := join_keys rows in dict_to_str_num false 114 99 rd sep nsep
        end
  | _, _ => Err ValueError
  end.

(** notation.py:218-223 all_funcs *)
Definition qualifier_fun_num (q number w h : Z) (wf hf : bool) : res (list coord) :=
  if q =? 114 then the_row_num number w h wf hf
  else if q =? 99 then the_column_num number w h wf hf
  else if q =? 98 then the_box_num number w h wf hf
  else the_part_num number w h wf hf.

(** notation.py:275-281 *)
Definition build_sets_num (w h : Z) (wf hf : bool) (all : list (Z * list Z)) : res (list (list coord)) :=
  let* sets := mapM (fun kv : Z * list Z =>
    let* s := foldM (fun s number =>
                let* l := qualifier_fun_num (fst kv) number w h wf hf in
                Ok (sunion coord_cmp s l)) (snd kv) [] in
    Ok (match snd kv with [] => [] | _ => [s] end)) all in
  Ok (concat sets).

(** notation.py:208-283 _decode_single *)
Definition decode_single_num (group : pystr) (w h : Z) (wf hf : bool) (nsep : pystr) : res (list coord) :=
  let* d := foldM (decode_char nsep) group dstate0 in
  let* all := match d_current d with
              | Some q =>
                  let* numbers := parse_numbers nsep (d_number_str d) in
                  Ok (dset Z.eqb (d_all d) q numbers)
              | None =>
                  match d_present d with
                  | [] => Err ValueError
                  | _ => Ok (d_all d)
                  end
              end in
  let* sets := build_sets_num w h wf hf all in
  match sets with
  | [] => Err TypeError
  | s :: t => Ok (fold_left (sinter coord_cmp) t s)
  end.

(** notation.py:154-205 decode *)
Definition ndecode_num (s : pystr) (width height : num) (sep nsep : pystr) : res (list coord) :=
  match num_val width, num_val height with
  | Some w, Some h =>
      if (w <? 1) || (h <? 1) then Err ValueError
      else
        let nsep := num_sep nsep (w * h) in
        let s := if negb (existsb (fun c => char_in c sep) WHITESPACE)
                    && negb (existsb (fun c => char_in c nsep) WHITESPACE)
                 then replace WHITESPACE [] s else s in
        let* groups := foldM (split_groups sep) QUALIFIERS [s] in
        foldM (fun coords group =>
          let* l := decode_single_num group w h (is_float width) (is_float height) nsep in
          Ok (sunion coord_cmp coords l)) groups []
  | _, _ => Err ValueError
  end.
