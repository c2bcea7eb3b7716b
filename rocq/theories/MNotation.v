(** Model of sudokutools/notation.py and sudokutools/actions.py.

    Separators are strings, widths, heights and coordinates are ints (the checks
    [int(width) != width] for other types are not modelled).  The characters
    r, c, b and p are the codes 114, 99, 98 and 112. *)
From Verif Require Export PySet PyDict PyStr MCoord MSudoku.

(** notation.py:211-216: the keys of [all_numbers], in that order; also the
    string "rcbp" of notation.py:189 *)
Definition QUALIFIERS : pystr := lit "rcbp".

(** notation.py:119-123 and 175-179: the number separator in effect *)
Definition num_sep (nsep : pystr) (length : Z) : pystr :=
  match nsep with
  | [] => if 9 <? length then lit "," else []
  | _ => nsep
  end.

(** notation.py:125-138: the loop filling [rows] and [boxes]; [d[k].add(v)] on a
    defaultdict of sets *)
Definition dadd (d : list (Z * zset)) (k v : Z) : list (Z * zset) :=
  dset Z.eqb d k (sadd zcmp v (dget_default Z.eqb d k [])).
(** notation.py:125-138: the loop *)
Definition collect (w h : Z) (cs : list coord)
  : res (list (Z * zset) * list (Z * zset)) :=
  foldM (fun rb rc =>
    let (row, col) := (rc : coord) in
    let (rows, boxes) := (rb : list (Z * zset) * list (Z * zset)) in
    if negb ((0 <=? row) && (row <? w * h)) || negb ((0 <=? col) && (col <? w * h))
    then Err ValueError
    else
      let box := col / w + row - row mod h in
      let part := col mod w + (row mod h) * w in
      Ok (dadd rows row col, dadd boxes box part))
    cs ([], []).

(** notation.py:318, 333-336: equality of the keys of [new_dict] (tuples) *)
Definition key_eqb (a b : list Z) : bool := cmp_eqb (list_cmp zcmp) a b.

(** notation.py:323-330: the first entry of [new_dict] with an equal value *)
Definition find_value (d : list (list Z * zset)) (v : zset) : option (list Z) :=
  match find (fun kv => cmp_eqb (list_cmp zcmp) (snd kv) v) d with
  | Some kv => Some (fst kv)
  | None => None
  end.

(** notation.py:317-338 _join_keys.  ([to_add] is never an empty tuple.) *)
Definition join_keys (a_dict : list (Z * zset)) : res (list (list Z * zset)) :=
  foldM (fun nd kv =>
    match find_value nd (snd kv) with
    | Some keys =>
        let* (_, nd') := dpop key_eqb nd keys in
        Ok (dset key_eqb nd' (py_sorted zcmp (fst kv :: keys)) (snd kv))
    | None => Ok (dset key_eqb nd [fst kv] (snd kv))
    end)
    a_dict [].

(** notation.py:346-347: the numbers of one qualifier *)
Definition numbers_str (nsep : pystr) (l : list Z) : pystr :=
  join nsep (map (fun k => str_of_int (k + 1)) (py_sorted zcmp l)).

(** notation.py:341-350 _dict_to_str; [format_str] is given by its two letters *)
Definition dict_to_str (q1 q2 : Z) (a_dict : list (list Z * zset)) (sep nsep : pystr)
  : res pystr :=
  let* s := mapM (fun keys =>
    let* value := dget key_eqb a_dict keys in
    Ok (q1 :: numbers_str nsep keys ++ q2 :: numbers_str nsep value))
    (py_sorted (list_cmp zcmp) (dkeys a_dict)) in
  Ok (join sep s).

(** notation.py:89-151 encode *)
Definition nencode (cs : list coord) (w h : Z) (use_boxes : option bool) (sep nsep : pystr)
  : res pystr :=
  if (w <? 1) || (h <? 1) then Err ValueError
  else
    let nsep := num_sep nsep (w * h) in
    let* (rows, boxes) := collect w h cs in
    match use_boxes with
    | None =>
        let* bd := join_keys boxes in
        let* box_str := dict_to_str 98 112 bd sep nsep in
        let* rd := join_keys rows in
        let* row_str := dict_to_str 114 99 rd sep nsep in
        if py_len box_str <? py_len row_str then Ok box_str else Ok row_str
    | Some true => let* bd := join_keys boxes in dict_to_str 98 112 bd sep nsep
    | Some false => let* rd := join_keys rows in dict_to_str 114 99 rd sep nsep
    end.

(** notation.py:189-198: one pass of the loop that splits the groups at [sep + c] *)
Definition split_groups (sep : pystr) (groups : list pystr) (c : Z) : res (list pystr) :=
  let* parts := mapM (fun group =>
    let* gs := PyStr.split (sep ++ [c]) group in
    match gs with
    | [] => Ok []
    | g0 :: gs => Ok (g0 :: map (cons c) gs)
    end) groups in
  Ok (concat parts).

(** notation.py:236-240 and 265-269: [number_str] as a list of ints *)
Definition parse_numbers (nsep number_str : pystr) : res (list Z) :=
  match nsep with
  | [] => mapM (fun n => let* k := int_of_str [n] in Ok (k - 1)) number_str
  | _ => let* ns := PyStr.split nsep number_str in
         mapM (fun n => let* k := int_of_str n in Ok (k - 1)) ns
  end.

(** The local variables of the loop in _decode_single (notation.py:211-227).
    [all_numbers] is a dictionary with the keys r, c, b, p; [current] is the
    empty string (None) or one letter. *)
Record dstate : Type := mk_dstate {
  d_all : list (Z * list Z);
  d_current : option Z;
  d_present : pystr;
  d_number_str : pystr
}.
(** notation.py:211-227: the variables before the loop *)
Definition dstate0 : dstate :=
  mk_dstate (map (fun q => (q, [])) QUALIFIERS) None [] [].

(** notation.py:229-261: the loop body for the character [c] *)
Definition decode_char (nsep : pystr) (d : dstate) (c : Z) : res dstate :=
  if char_in c (d_present d) then Err ValueError
  else if char_in c QUALIFIERS then
    match d_current d with
    | Some q =>
        let* numbers := parse_numbers nsep (d_number_str d) in
        match numbers with
        | [] => Err ValueError
        | _ => Ok (mk_dstate (dset Z.eqb (d_all d) q numbers) (Some c) (d_present d ++ [q]) [])
        end
    | None => Ok (mk_dstate (d_all d) (Some c) (d_present d) [])
    end
  else if is_digit c || char_in c nsep then
    match d_current d with
    | None => Err ValueError
    | Some _ => Ok (mk_dstate (d_all d) (d_current d) (d_present d) (d_number_str d ++ [c]))
    end
  else Err ValueError.

(** notation.py:218-223 all_funcs *)
Definition qualifier_fun (q number w h : Z) : res (list coord) :=
  if q =? 114 then the_row number w h
  else if q =? 99 then the_column number w h
  else if q =? 98 then the_box number w h
  else the_part number w h.

(** notation.py:275-281: the non-empty sets, in the order of [all_numbers].
    (They enter [all_sets] in this order.) *)
Definition build_sets (w h : Z) (all : list (Z * list Z)) : res (list (list coord)) :=
  let* sets := mapM (fun kv : Z * list Z =>
    let* s := foldM (fun s number =>
                let* l := qualifier_fun (fst kv) number w h in
                Ok (sunion coord_cmp s l)) (snd kv) [] in
    Ok (match snd kv with [] => [] | _ => [s] end)) all in
  Ok (concat sets).

(** notation.py:208-283 _decode_single; [set.intersection()] without an argument
    raises TypeError. *)
Definition decode_single (group : pystr) (w h : Z) (nsep : pystr) : res (list coord) :=
  let* d := foldM (decode_char nsep) group dstate0 in
  let* all := match d_current d with
              | Some q =>
                  let* numbers := parse_numbers nsep (d_number_str d) in
                  Ok (dset Z.eqb (d_all d) q numbers)
              | None =>
                  match d_present d with
                  | [] => Err ValueError
                  | _ => Ok (d_all d)
                  end
              end in
  let* sets := build_sets w h all in
  match sets with
  | [] => Err TypeError
  | s :: t => Ok (fold_left (sinter coord_cmp) t s)
  end.

(** notation.py:154-205 decode.  [sep + c] is never empty. *)
Definition ndecode (s : pystr) (w h : Z) (sep nsep : pystr) : res (list coord) :=
  if (w <? 1) || (h <? 1) then Err ValueError
  else
    let nsep := num_sep nsep (w * h) in
    let s := if negb (existsb (fun c => char_in c sep) WHITESPACE)
                && negb (existsb (fun c => char_in c nsep) WHITESPACE)
             then replace WHITESPACE [] s else s in
    let* groups := foldM (split_groups sep) QUALIFIERS [s] in
    foldM (fun coords group =>
      let* l := decode_single group w h nsep in
      Ok (sunion coord_cmp coords l)) groups [].

(** actions.py:1-27: the two actions.  A number or candidate is an int or a str. *)
Inductive atom : Type :=
| AInt (n : Z)
| AStr (s : pystr).
(** actions.py:1-27: an action object *)
Inductive action : Type :=
| RemoveCandidates (coordinates : list coord) (candidates : list atom)
| SetNumber (coordinates : list coord) (number : atom).

(** actions.py:6-8 RemoveCandidates.__call__ and 20-23 SetNumber.__call__, for
    integer numbers and candidates (None: a str, which the model of the sudoku
    cannot hold). *)
Definition atom_int (a : atom) : option Z := match a with AInt n => Some n | AStr _ => None end.
(** actions.py:8: all candidates as ints *)
Fixpoint atoms_ints (l : list atom) : option (list Z) :=
  match l with
  | [] => Some []
  | a :: t => match atom_int a, atoms_ints t with
              | Some n, Some r => Some (n :: r)
              | _, _ => None
              end
  end.
(** actions.py:6-8 RemoveCandidates.__call__ and 20-23 SetNumber.__call__ *)
Definition apply_action (a : action) (s : sudoku) : option (res sudoku) :=
  match a with
  | RemoveCandidates cs ds =>
      match atoms_ints ds with
      | Some l => Some (foldM (fun s rc => remove_candidates s (fst rc) (snd rc) l) cs s)
      | None => None
      end
  | SetNumber cs n =>
      match atom_int n with
      | Some k => Some (foldM (fun s rc =>
                    let* s := setitem s (fst rc) (snd rc) k in
                    set_candidates s (fst rc) (snd rc) [k]) cs s)
      | None => None
      end
  end.

(** notation.py:286-293 encode_action.  The result None stands for Python's None
    (the second branch has no return statement).  ["=" + n] raises TypeError
    for an int, and so does ["".join] of a list with an int. *)
Definition encode_action (a : action) (w h : Z) : res (option pystr) :=
  match a with
  | SetNumber cs n =>
      let* s := nencode cs w h None (lit ",") [] in
      match n with
      | AInt _ => Err TypeError
      | AStr t => Ok (Some (s ++ lit "=" ++ t))
      end
  | RemoveCandidates cs ds =>
      let* _ := nencode cs w h None (lit ",") [] in
      if existsb (fun d => match d with AInt _ => true | AStr _ => false end) ds
      then Err TypeError
      else Ok None
  end.

(** [s.partition(sep)], the parts before and after (notation.py:299, 304, 309) *)
Definition str_partition (sep s : pystr) : pystr * pystr :=
  match cut sep s with
  | Some lr => lr
  | None => (s, [])
  end.

(** [[int(c) for c in s]] (notation.py:301, 305) *)
Definition ints_of_chars (s : pystr) : res (list Z) := mapM (fun c => int_of_str [c]) s.

(** notation.py:296-314 decode_action *)
Definition decode_action (s : pystr) (w h : Z) : res action :=
  let s := strip s in
  if starts_with (lit "-") s then
    let (left, right) := str_partition (lit " ") s in
    let* coordinates := ndecode right w h (lit ",") [] in
    let* candidates := ints_of_chars left in
    Ok (RemoveCandidates coordinates (map AInt candidates))
  else if str_in (lit "<>") s then
    let (left, right) := str_partition (lit "<>") s in
    let* candidates := ints_of_chars right in
    let* coordinates := ndecode left w h (lit ",") [] in
    Ok (RemoveCandidates coordinates (map AInt candidates))
  else if str_in (lit "=") s then
    let (left, right) := str_partition (lit "=") s in
    let* number := int_of_str right in
    let* coordinates := ndecode left w h (lit ",") [] in
    Ok (SetNumber coordinates (AInt number))
  else Err ValueError.
