(** Specification of the text of a sudoku. *)
From Verif Require Export SpecCodec.

(** The width of a field: the longest of the texts of 1..N and, with candidates, of the
    candidates (with prefix) of any field, filled or not. *)
Definition candidate_text (s : sudoku) (prefix : pystr) (p : coord) : pystr :=
  prefix ++ join (if 10 <=? box_width s * box_height s then lit "," else []) (map str_of_int (cand s p)).
Definition field_width (s : sudoku) (inc : bool) (prefix : pystr) (m : Z) : Prop :=
  ((exists n, 1 <= n <= box_width s * box_height s /\ m = Z.of_nat (length (str_of_int n))) \/
   (inc = true /\ exists p, field s p /\ m = Z.of_nat (length (candidate_text s prefix p)))) /\
  (forall n, 1 <= n <= box_width s * box_height s -> Z.of_nat (length (str_of_int n)) <= m) /\
  (inc = true -> forall p, field s p -> Z.of_nat (length (candidate_text s prefix p)) <= m).

(** 0, ..., n-1 *)
Definition below (n : Z) : list Z := map Z.of_nat (seq 0 (Z.to_nat n)).

(** A row: the fields of a box with blanks between them, and bars between the boxes *)
Definition row_text (s : sudoku) (inc : bool) (prefix : pystr) (right : bool) (m r : Z) : pystr :=
  join (lit " | ") (map (fun k =>
    join (lit " ") (map (fun i => padded right m (shown s inc prefix (r, k * box_width s + i))) (below (box_width s))))
    (below (box_height s))).
(** The rule between two boxes.  For boxes of height 1 it is too long. *)
Definition rule_text (w h m : Z) : pystr :=
  if h =? 1 then repeat 45 (Z.to_nat (w * (m + 1))) ++ lit "+" ++ repeat 45 (Z.to_nat (w * (m + 1)))
  else join (lit "-+-") (repeat (repeat 45 (Z.to_nat (w * (m + 1) - 1))) (Z.to_nat h)).
(** The text: the rows of the boxes, with rules between them *)
Definition sudoku_text (s : sudoku) (inc : bool) (prefix : pystr) (right : bool) (m : Z) : pystr :=
  join ([10] ++ rule_text (box_width s) (box_height s) m ++ [10]) (map (fun b =>
    join [10] (map (fun i => row_text s inc prefix right m (b * box_height s + i)) (below (box_height s))))
    (below (box_width s))).
