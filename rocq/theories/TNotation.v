(** The tests of sudokutools/tests/test_notation.py, run on the model.

    The model is run on the concrete data of the project's own tests.  These are tests of the model,
    not proofs about it: they guard against errors in the translation from Python.  The results are computed
    when the file is compiled ([Eval vm_compute]); each test compares the computed result with the expected one. *)
From Coq Require Import String.
From Verif Require Import MNotation MCoord.
Import ListNotations.
Open Scope string_scope.
Open Scope Z_scope.

(** tests/test_notation.py:14-24 *)
Definition RNCN_3x3 : list (list string) :=
  [["r1c1"; "r1c2"; "r1c3"; "r1c4"; "r1c5"; "r1c6"; "r1c7"; "r1c8"; "r1c9"];
   ["r2c1"; "r2c2"; "r2c3"; "r2c4"; "r2c5"; "r2c6"; "r2c7"; "r2c8"; "r2c9"];
   ["r3c1"; "r3c2"; "r3c3"; "r3c4"; "r3c5"; "r3c6"; "r3c7"; "r3c8"; "r3c9"];
   ["r4c1"; "r4c2"; "r4c3"; "r4c4"; "r4c5"; "r4c6"; "r4c7"; "r4c8"; "r4c9"];
   ["r5c1"; "r5c2"; "r5c3"; "r5c4"; "r5c5"; "r5c6"; "r5c7"; "r5c8"; "r5c9"];
   ["r6c1"; "r6c2"; "r6c3"; "r6c4"; "r6c5"; "r6c6"; "r6c7"; "r6c8"; "r6c9"];
   ["r7c1"; "r7c2"; "r7c3"; "r7c4"; "r7c5"; "r7c6"; "r7c7"; "r7c8"; "r7c9"];
   ["r8c1"; "r8c2"; "r8c3"; "r8c4"; "r8c5"; "r8c6"; "r8c7"; "r8c8"; "r8c9"];
   ["r9c1"; "r9c2"; "r9c3"; "r9c4"; "r9c5"; "r9c6"; "r9c7"; "r9c8"; "r9c9"]].
(** tests/test_notation.py:26-35 *)
Definition RNCN_4x2 : list (list string) :=
  [["r1c1"; "r1c2"; "r1c3"; "r1c4"; "r1c5"; "r1c6"; "r1c7"; "r1c8"];
   ["r2c1"; "r2c2"; "r2c3"; "r2c4"; "r2c5"; "r2c6"; "r2c7"; "r2c8"];
   ["r3c1"; "r3c2"; "r3c3"; "r3c4"; "r3c5"; "r3c6"; "r3c7"; "r3c8"];
   ["r4c1"; "r4c2"; "r4c3"; "r4c4"; "r4c5"; "r4c6"; "r4c7"; "r4c8"];
   ["r5c1"; "r5c2"; "r5c3"; "r5c4"; "r5c5"; "r5c6"; "r5c7"; "r5c8"];
   ["r6c1"; "r6c2"; "r6c3"; "r6c4"; "r6c5"; "r6c6"; "r6c7"; "r6c8"];
   ["r7c1"; "r7c2"; "r7c3"; "r7c4"; "r7c5"; "r7c6"; "r7c7"; "r7c8"];
   ["r8c1"; "r8c2"; "r8c3"; "r8c4"; "r8c5"; "r8c6"; "r8c7"; "r8c8"]].
(** tests/test_notation.py:37-46 *)
Definition RNCN_2x4 : list (list string) :=
  [["r1c1"; "r1c2"; "r1c3"; "r1c4"; "r1c5"; "r1c6"; "r1c7"; "r1c8"];
   ["r2c1"; "r2c2"; "r2c3"; "r2c4"; "r2c5"; "r2c6"; "r2c7"; "r2c8"];
   ["r3c1"; "r3c2"; "r3c3"; "r3c4"; "r3c5"; "r3c6"; "r3c7"; "r3c8"];
   ["r4c1"; "r4c2"; "r4c3"; "r4c4"; "r4c5"; "r4c6"; "r4c7"; "r4c8"];
   ["r5c1"; "r5c2"; "r5c3"; "r5c4"; "r5c5"; "r5c6"; "r5c7"; "r5c8"];
   ["r6c1"; "r6c2"; "r6c3"; "r6c4"; "r6c5"; "r6c6"; "r6c7"; "r6c8"];
   ["r7c1"; "r7c2"; "r7c3"; "r7c4"; "r7c5"; "r7c6"; "r7c7"; "r7c8"];
   ["r8c1"; "r8c2"; "r8c3"; "r8c4"; "r8c5"; "r8c6"; "r8c7"; "r8c8"]].
(** tests/test_notation.py:55-65 *)
Definition BNPN_3x3 : list (list string) :=
  [["b1p1"; "b1p2"; "b1p3"; "b2p1"; "b2p2"; "b2p3"; "b3p1"; "b3p2"; "b3p3"];
   ["b1p4"; "b1p5"; "b1p6"; "b2p4"; "b2p5"; "b2p6"; "b3p4"; "b3p5"; "b3p6"];
   ["b1p7"; "b1p8"; "b1p9"; "b2p7"; "b2p8"; "b2p9"; "b3p7"; "b3p8"; "b3p9"];
   ["b4p1"; "b4p2"; "b4p3"; "b5p1"; "b5p2"; "b5p3"; "b6p1"; "b6p2"; "b6p3"];
   ["b4p4"; "b4p5"; "b4p6"; "b5p4"; "b5p5"; "b5p6"; "b6p4"; "b6p5"; "b6p6"];
   ["b4p7"; "b4p8"; "b4p9"; "b5p7"; "b5p8"; "b5p9"; "b6p7"; "b6p8"; "b6p9"];
   ["b7p1"; "b7p2"; "b7p3"; "b8p1"; "b8p2"; "b8p3"; "b9p1"; "b9p2"; "b9p3"];
   ["b7p4"; "b7p5"; "b7p6"; "b8p4"; "b8p5"; "b8p6"; "b9p4"; "b9p5"; "b9p6"];
   ["b7p7"; "b7p8"; "b7p9"; "b8p7"; "b8p8"; "b8p9"; "b9p7"; "b9p8"; "b9p9"]].
(** tests/test_notation.py:67-76 *)
Definition BNPN_2x4 : list (list string) :=
  [["b1p1"; "b1p2"; "b2p1"; "b2p2"; "b3p1"; "b3p2"; "b4p1"; "b4p2"];
   ["b1p3"; "b1p4"; "b2p3"; "b2p4"; "b3p3"; "b3p4"; "b4p3"; "b4p4"];
   ["b1p5"; "b1p6"; "b2p5"; "b2p6"; "b3p5"; "b3p6"; "b4p5"; "b4p6"];
   ["b1p7"; "b1p8"; "b2p7"; "b2p8"; "b3p7"; "b3p8"; "b4p7"; "b4p8"];
   ["b5p1"; "b5p2"; "b6p1"; "b6p2"; "b7p1"; "b7p2"; "b8p1"; "b8p2"];
   ["b5p3"; "b5p4"; "b6p3"; "b6p4"; "b7p3"; "b7p4"; "b8p3"; "b8p4"];
   ["b5p5"; "b5p6"; "b6p5"; "b6p6"; "b7p5"; "b7p6"; "b8p5"; "b8p6"];
   ["b5p7"; "b5p8"; "b6p7"; "b6p8"; "b7p7"; "b7p8"; "b8p7"; "b8p8"]].
(** tests/test_notation.py:78-87 *)
Definition BNPN_4x2 : list (list string) :=
  [["b1p1"; "b1p2"; "b1p3"; "b1p4"; "b2p1"; "b2p2"; "b2p3"; "b2p4"];
   ["b1p5"; "b1p6"; "b1p7"; "b1p8"; "b2p5"; "b2p6"; "b2p7"; "b2p8"];
   ["b3p1"; "b3p2"; "b3p3"; "b3p4"; "b4p1"; "b4p2"; "b4p3"; "b4p4"];
   ["b3p5"; "b3p6"; "b3p7"; "b3p8"; "b4p5"; "b4p6"; "b4p7"; "b4p8"];
   ["b5p1"; "b5p2"; "b5p3"; "b5p4"; "b6p1"; "b6p2"; "b6p3"; "b6p4"];
   ["b5p5"; "b5p6"; "b5p7"; "b5p8"; "b6p5"; "b6p6"; "b6p7"; "b6p8"];
   ["b7p1"; "b7p2"; "b7p3"; "b7p4"; "b8p1"; "b8p2"; "b8p3"; "b8p4"];
   ["b7p5"; "b7p6"; "b7p7"; "b7p8"; "b8p5"; "b8p6"; "b8p7"; "b8p8"]].

Definition coords_same (a b : list coord) : bool := match list_cmp coord_cmp a b with Eq => true | _ => false end.
Definition res_is {A} (eqb : A -> A -> bool) (r : res A) (a : A) : bool := match r with Ok x => eqb x a | Err _ => false end.
Definition is_value_error {A} (r : res A) : bool := match r with Err ValueError => true | _ => false end.
(** encode(coords) with the default arguments *)
Definition enc (cs : list coord) : res pystr := nencode cs 3 3 None (lit ",") [].
Definition denc (s : pystr) : res (list coord) := ndecode s 3 3 (lit ",") [].
Definition all_cells (grid : list (list string)) (f : Z -> Z -> pystr -> bool) : bool :=
  forallb (fun ir => forallb (fun jt => f (fst ir) (fst jt) (lit (snd jt))) (combine (py_range (py_len (snd ir))) (snd ir)))
          (combine (py_range (py_len grid)) grid).

(** EncodeTests.test_numbers_are_sorted *)
Definition test_numbers_are_sorted_run := Eval vm_compute in
  [(enc [(0, 0); (0, 1)], Ok (lit "r1c12"));
   (enc [(0, 1); (0, 0)], Ok (lit "r1c12"));
   (enc [(0, 0); (1, 0)], Ok (lit "r12c1"));
   (enc [(1, 0); (0, 0)], Ok (lit "r12c1"))].
Example test_numbers_are_sorted : map fst test_numbers_are_sorted_run = map snd test_numbers_are_sorted_run.
Proof. reflexivity. Qed.
(** test_groups_are_sorted *)
Definition test_groups_are_sorted_run := Eval vm_compute in
  [(nencode [(0, 0); (9, 9)] 2 5 (Some false) (lit ",") [], Ok (lit "r1c1,r10c10"));
   (nencode [(9, 9); (0, 0)] 2 5 (Some false) (lit ",") [], Ok (lit "r1c1,r10c10"));
   (nencode [(0, 0); (9, 9)] 2 5 (Some true) (lit ",") [], Ok (lit "b1p1,b10p10"));
   (nencode [(9, 9); (0, 0)] 2 5 (Some true) (lit ",") [], Ok (lit "b1p1,b10p10"))].
Example test_groups_are_sorted : map fst test_groups_are_sorted_run = map snd test_groups_are_sorted_run.
Proof. reflexivity. Qed.
(** test_default_number_sep, test_custom_number_sep, test_default_group_sep, test_custom_group_sep *)
Definition test_separators_run := Eval vm_compute in
  [(nencode [(0, 0); (0, 11)] 4 4 None (lit ",") [], Ok (lit "r1c1,12"));
   (nencode [(0, 0); (0, 1); (8, 8)] 3 3 None (lit ",") (lit "."), Ok (lit "r1c1.2,r9c9"));
   (enc [(0, 0); (8, 8)], Ok (lit "r1c1,r9c9"));
   (nencode [(0, 0); (0, 1); (8, 8)] 3 3 None (lit ", ") [], Ok (lit "r1c12, r9c9"))].
Example test_separators : map fst test_separators_run = map snd test_separators_run.
Proof. reflexivity. Qed.
(** test_invalid_coordinates, test_invalid_dimensions (for ints) *)
Definition test_invalid_run := Eval vm_compute in
  [(forallb (fun rc => is_value_error (enc [rc])) [(0, 9); (9, 0); (-1, 0); (0, -1)] &&
  is_value_error (nencode [(0, 0)] 0 3 None (lit ",") []) && is_value_error (nencode [(0, 0)] 3 0 None (lit ",") []), true)].
Example test_invalid : map fst test_invalid_run = map snd test_invalid_run.
Proof. reflexivity. Qed.
(** width=1.0 in test_invalid_dimensions is the int 1 here *)
Definition test_width_1_run := Eval vm_compute in
  [(nencode [(0, 0)] 1 3 None (lit ",") [], Ok (lit "r1c1"))].
Example test_width_1 : map fst test_width_1_run = map snd test_width_1_run.
Proof. reflexivity. Qed.
(** test_use_boxes *)
Definition test_use_boxes_run := Eval vm_compute in
  [(nencode [(0, 0); (1, 1)] 3 3 (Some false) (lit ",") [], Ok (lit "r1c1,r2c2"));
   (nencode [(0, 0); (1, 1)] 3 3 (Some true) (lit ",") [], Ok (lit "b1p15"));
   (nencode [(0, 0); (1, 1)] 3 3 None (lit ",") [], Ok (lit "b1p15"));
   (nencode [(0, 2); (0, 3)] 3 3 (Some false) (lit ",") [], Ok (lit "r1c34"));
   (nencode [(0, 2); (0, 3)] 3 3 (Some true) (lit ",") [], Ok (lit "b1p3,b2p1"));
   (nencode [(0, 2); (0, 3)] 3 3 None (lit ",") [], Ok (lit "r1c34"))].
Example test_use_boxes : map fst test_use_boxes_run = map snd test_use_boxes_run.
Proof. reflexivity. Qed.
(** test_width_influences_boxes, test_height_influences_boxes *)
Definition test_influences_boxes_run := Eval vm_compute in
  [(nencode [(0, 2)] 3 3 (Some true) (lit ",") [], Ok (lit "b1p3"));
   (nencode [(0, 2)] 2 3 (Some true) (lit ",") [], Ok (lit "b2p1"));
   (nencode [(2, 0)] 3 3 (Some true) (lit ",") [], Ok (lit "b1p7"));
   (nencode [(2, 0)] 3 2 (Some true) (lit ",") [], Ok (lit "b3p1"))].
Example test_influences_boxes : map fst test_influences_boxes_run = map snd test_influences_boxes_run.
Proof. reflexivity. Qed.
(** test_encode_rncn_examples, test_encode_bnpn_3x3 *)
Definition test_encode_rncn_examples_run := Eval vm_compute in
  [(all_cells RNCN_2x4 (fun r c t => res_is str_eqb (nencode [(r, c)] 2 4 (Some false) (lit ",") []) t) &&
  all_cells RNCN_3x3 (fun r c t => res_is str_eqb (nencode [(r, c)] 3 3 (Some false) (lit ",") []) t) &&
  all_cells RNCN_4x2 (fun r c t => res_is str_eqb (nencode [(r, c)] 4 2 (Some false) (lit ",") []) t) &&
  all_cells BNPN_3x3 (fun r c t => res_is str_eqb (nencode [(r, c)] 3 3 (Some true) (lit ",") []) t), true)].
Example test_encode_rncn_examples : map fst test_encode_rncn_examples_run = map snd test_encode_rncn_examples_run.
Proof. reflexivity. Qed.

(** DecodeTests.test_split_groups *)
Definition test_split_groups_run := Eval vm_compute in
  [(denc (lit "r1c12,r9c9"), Ok [(0, 0); (0, 1); (8, 8)]);
   (ndecode (lit "r1c1,2,r10c10") 2 5 (lit ",") [], Ok [(0, 0); (0, 1); (9, 9)])].
Example test_split_groups : map fst test_split_groups_run = map snd test_split_groups_run.
Proof. reflexivity. Qed.
(** test_decode_rncn, test_decode_bnpn *)
Definition test_decode_cells_run := Eval vm_compute in
  [(forallb (fun g => all_cells (fst g) (fun r c t =>
             res_is coords_same (ndecode t (fst (snd g)) (snd (snd g)) (lit ",") []) [(r, c)]))
    [(RNCN_2x4, (2, 4)); (RNCN_3x3, (3, 3)); (RNCN_4x2, (4, 2)); (BNPN_2x4, (2, 4)); (BNPN_3x3, (3, 3)); (BNPN_4x2, (4, 2))], true)].
Example test_decode_cells : map fst test_decode_cells_run = map snd test_decode_cells_run.
Proof. reflexivity. Qed.
(** test_all_cells *)
Definition test_all_cells_run := Eval vm_compute in
  [(forallb (fun wh : Z * Z => let (w, h) := wh in forallb (fun num =>
      forallb (fun q => match qualifier_fun q num w h with
                        | Ok l => res_is coords_same (ndecode (q :: str_of_int (num + 1)) w h (lit ",") []) l
                        | Err _ => false
                        end) QUALIFIERS) (py_range (w * h)))
    [(2, 2); (2, 3); (2, 4); (3, 3); (4, 4)], true)].
Example test_all_cells : map fst test_all_cells_run = map snd test_all_cells_run.
Proof. reflexivity. Qed.
