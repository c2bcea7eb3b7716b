(** Spec of the conversions between sudokus and strings. *)
From Verif Require Export Spec PyStr.

(** All numbers of [s] have one digit. *)
Definition one_digit (s : sudoku) : Prop := forall p, field s p -> 0 <= num s p <= 9.

(** All candidates of [s] have one digit. *)
Definition one_digit_cands (s : sudoku) : Prop :=
  forall p n, field s p -> In n (cand s p) -> 0 <= n <= 9.

(** The box size and the numbers of [t] are those of [s]. *)
Definition same_numbers (s t : sudoku) : Prop :=
  box_size t = box_size s /\ forall p, field s p -> num t p = num s p.

(** [d] is the least divisor of [n] which is greater than 1. *)
Definition least_divisor (d n : Z) : Prop :=
  2 <= d /\ (d | n) /\ forall e, 2 <= e -> (e | n) -> d <= e.

Definition square (n : Z) : Prop := exists k, 0 <= k /\ k * k = n.

(** The blank characters of Python's string.whitespace. *)
Definition blank (c : Z) : Prop := c = 32 \/ 9 <= c <= 13.

(** [a] and [b] differ only in blanks: by inserting and deleting blanks. *)
Inductive same_but_blanks : pystr -> pystr -> Prop :=
| sbb_nil : same_but_blanks [] []
| sbb_char : forall c a b, same_but_blanks a b -> same_but_blanks (c :: a) (c :: b)
| sbb_left : forall c a b, blank c -> same_but_blanks a b -> same_but_blanks (c :: a) b
| sbb_right : forall c a b, blank c -> same_but_blanks a b -> same_but_blanks a (c :: b).

(** The part of [l] of length [n] starting at [i]. *)
Definition substr (i n : Z) (l : pystr) : pystr := firstn (Z.to_nat n) (skipn (Z.to_nat i) l).

(** What view should write for a field: the number, or (if asked for) the prefix and
    the candidates, separated by commas if the numbers may have several digits. *)
Definition shown (s : sudoku) (inc : bool) (prefix : pystr) (p : coord) : pystr :=
  if num s p =? 0 then
    if inc then
      prefix ++ join (if 10 <=? box_width s * box_height s then lit "," else [])
                     (map str_of_int (cand s p))
    else []
  else str_of_int (num s p).

(** [t] filled up with blanks to [n] characters *)
Definition padded (right : bool) (n : Z) (t : pystr) : pystr :=
  let blanks := repeat 32 (Z.to_nat n - length t) in
  if right then blanks ++ t else t ++ blanks.

(** text.split("\n") *)
Definition lines (text : pystr) : list pystr := split_go [10] text 0.
