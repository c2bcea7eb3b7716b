(** Model of Sudoku.__init__ (sudokutools/sudoku.py) for arguments of any of the usual types.
    The other files use [MSudoku.new_sudoku], which has a pair of ints as argument. *)
From Verif Require Export MSudoku PyStr.

(** A Python value.  A float is represented by its value if that is an integer (None: any other
    float); a set by its elements in the order of iteration; a dict by its entries in the order
    of insertion. (sudoku.py:51: the argument box_size) *)
Inductive pyval : Type :=
| PNone
| PInt (n : Z)
| PBool (b : bool)
| PFloat (v : option Z)
| PStr (s : pystr)
| PTuple (l : list pyval)
| PList (l : list pyval)
| PSet (l : list pyval)
| PDict (l : list (pyval * pyval)).

(** bool is a subclass of int (sudoku.py:61-62) *)
Definition as_int (v : pyval) : option Z :=
  match v with PInt n => Some n | PBool b => Some (Z.b2z b) | _ => None end.

(** iteration over a value (sudoku.py:59-60) *)
Definition py_iter (v : pyval) : res (list pyval) :=
  match v with
  | PTuple l | PList l | PSet l => Ok l
  | PStr s => Ok (map (fun c => PStr [c]) s)
  | PDict l => Ok (map fst l)
  | _ => Err TypeError
  end.

(** Is the key equal to the int n (and has the same hash)? (sudoku.py:61-62) *)
Definition key_is (k : pyval) (n : Z) : bool :=
  match k with
  | PInt m => m =? n
  | PBool b => Z.b2z b =? n
  | PFloat (Some m) => m =? n
  | _ => false
  end.

(** [v[n]] for an int n that is not negative (sudoku.py:61-62) *)
Definition py_index (v : pyval) (n : nat) : res pyval :=
  match v with
  | PTuple l | PList l => match nth_error l n with Some x => Ok x | None => Err IndexError end
  | PStr s => match nth_error s n with Some c => Ok (PStr [c]) | None => Err IndexError end
  | PDict l => match List.find (fun e => key_is (fst e) (Z.of_nat n)) l with
               | Some e => Ok (snd e)
               | None => Err KeyError
               end
  | _ => Err TypeError
  end.

(** [a * b]; memory is not limited (sudoku.py:61-62) *)
Definition seq_mul (v : pyval) (n : Z) : res pyval :=
  let rep {A} (l : list A) := concat (repeat l (Z.to_nat n)) in
  match v with
  | PStr s => Ok (PStr (rep s))
  | PTuple l => Ok (PTuple (rep l))
  | PList l => Ok (PList (rep l))
  | _ => Err TypeError
  end.
(** sudoku.py:61-62: the product of a float and a number *)
Definition float_mul (v w : option Z) : option Z :=
  match v, w with Some a, Some b => Some (a * b) | _, _ => None end.
(** sudoku.py:61-62: [a * b] *)
Definition py_mul (a b : pyval) : res pyval :=
  match as_int a, as_int b with
  | Some m, Some n => Ok (PInt (m * n))
  | Some m, None => match b with PFloat w => Ok (PFloat (float_mul (Some m) w)) | _ => seq_mul b m end
  | None, Some n => match a with PFloat v => Ok (PFloat (float_mul v (Some n))) | _ => seq_mul a n end
  | None, None => match a, b with PFloat v, PFloat w => Ok (PFloat (float_mul v w)) | _, _ => Err TypeError end
  end.

(** [tuple(range(v))] and, with [v + 1], [tuple(range(1, v + 1))] (sudoku.py:61-62) *)
Definition py_range_of (v : pyval) : res (list Z) :=
  match as_int v with Some n => Ok (py_range n) | None => Err TypeError end.
(** sudoku.py:62 *)
Definition py_range_from_1 (v : pyval) : res (list Z) :=
  match as_int v with Some n => Ok (py_range2 1 (n + 1)) | None => Err TypeError end.

(** The attributes of a new sudoku (sudoku.py:58-67) *)
Record raw_sudoku : Type := mkRaw {
  r_box_size : pyval;
  r_box_width : pyval;
  r_box_height : pyval;
  r_indices : list Z;
  r_numbers_attr : list Z;
  r_rows : list (list Z);
  r_cands : list (list zset)
}.

(** sudoku.py:58-62: the body of the try statement *)
Definition init_attributes (box_size : pyval) : res (pyval * pyval * pyval * list Z * list Z) :=
  let* t := py_iter box_size in
  let* l := py_iter box_size in
  let* (w, h) := match l with [w; h] => Ok (w, h) | _ => Err ValueError end in
  let* a := py_index box_size 0 in
  let* b := py_index box_size 1 in
  let* m := py_mul a b in
  let* ind := py_range_of m in
  let* a := py_index box_size 0 in
  let* b := py_index box_size 1 in
  let* m := py_mul a b in
  let* nums := py_range_from_1 m in
  Ok (PTuple t, w, h, ind, nums).

(** sudoku.py:51-67 __init__.  Only a dict can raise KeyError or IndexError in the try statement,
    and the formatting of line 64 succeeds for a dict. *)
Definition sudoku_init (box_size : pyval) : res raw_sudoku :=
  match init_attributes box_size with
  | Ok (t, w, h, ind, nums) =>
      Ok (mkRaw t w h ind nums (map (fun _ => repeat 0 (length ind)) ind)
                (map (fun _ => repeat [] (length ind)) ind))
  | Err IndexError | Err KeyError => Err ValueError
  | Err e => Err e
  end.
