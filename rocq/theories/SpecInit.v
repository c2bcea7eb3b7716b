(** Specification of which arguments Sudoku() accepts; independent of the functions of the model. *)
From Verif Require Export MInit.

(** The value is the integer n (True is 1). *)
Inductive is_int : pyval -> Z -> Prop :=
| is_int_int : forall n, is_int (PInt n) n
| is_int_true : is_int (PBool true) 1
| is_int_false : is_int (PBool false) 0.

(** The number of values an iteration gives *)
Inductive holds_n : pyval -> nat -> Prop :=
| holds_tuple : forall l, holds_n (PTuple l) (length l)
| holds_list : forall l, holds_n (PList l) (length l)
| holds_set : forall l, holds_n (PSet l) (length l)
| holds_str : forall s, holds_n (PStr s) (length s)
| holds_dict : forall l, holds_n (PDict l) (length l).

(** The number n is a key: as int, bool or float *)
Inductive is_key : pyval -> Z -> Prop :=
| key_int : forall v n, is_int v n -> is_key v n
| key_float : forall n, is_key (PFloat (Some n)) n.

(** The first entry of the dict with the key n has the value v (there is at most one in Python). *)
Definition entry (l : list (pyval * pyval)) (n : Z) (v : pyval) : Prop :=
  exists l1 k l2, l = l1 ++ (k, v) :: l2 /\ is_key k n /\ forall e, In e l1 -> ~ is_key (fst e) n.
Definition no_entry (l : list (pyval * pyval)) (n : Z) : Prop := forall e, In e l -> ~ is_key (fst e) n.

(** The sudoku described by the attributes, if the box size consists of ints *)
Definition describes (o : raw_sudoku) (s : sudoku) : Prop :=
  is_int (r_box_width o) (box_width s) /\ is_int (r_box_height o) (box_height s) /\
  r_box_size o = PTuple [r_box_width o; r_box_height o] /\
  r_indices o = indices s /\ r_numbers_attr o = numbers s /\ r_rows o = s_numbers s /\ r_cands o = s_candidates s.
