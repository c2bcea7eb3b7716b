(** Properties C09-C12: coordinates.  Statements use only the model functions and Spec.v; the
    proofs are in the L*.v files. *)
From Verif Require Import LCoord MCoord.

(** The methods of Sudoku compute what the functions of coordinates.py compute, so C09-C11 hold for both. *)
Theorem C09_methods : forall s r c i,
  MSudoku.row_of s r c i = MCoord.row_of r c (box_width s) (box_height s) i /\
  MSudoku.column_of s r c i = MCoord.column_of r c (box_width s) (box_height s) i /\
  MSudoku.box_of s r c i = MCoord.box_of r c (box_width s) (box_height s) i /\
  MSudoku.surrounding_of s r c i = MCoord.surrounding_of r c (box_width s) (box_height s) i /\
  MSudoku.box_at s r c = MCoord.box_at r c (box_width s) (box_height s).
Proof. exact methods_proof. Qed.
Print Assumptions C09_methods.

(** C09: row_of, column_of, box_of. *)
Theorem C09_units : forall w h r c i, 1 <= w -> 1 <= h -> cell w h (r, c) ->
  exists lb, box_of r c w h i = Ok lb /\
  (forall l u, (l = row_of r c w h i /\ u = same_row) \/ (l = column_of r c w h i /\ u = same_col) \/
               (l = lb /\ u = same_box w h) ->
     NoDup l /\ (forall p, In p l <-> cell w h p /\ u p (r, c) /\ (i = true \/ p <> (r, c))) /\
     Z.of_nat (length l) = w * h - (if i then 0 else 1)).
Proof. exact C09_proof. Qed.
Print Assumptions C09_units.

Example C09_ex : cell 3 2 (3, 4) /\
  box_of 3 4 3 2 false = Ok [(2, 3); (2, 4); (2, 5); (3, 3); (3, 5)].
Proof. split; [split; simpl; lia | reflexivity]. Qed.

(** C10: surrounding_of. *)
Theorem C10_surrounding : forall w h r c, 1 <= w -> 1 <= h -> cell w h (r, c) ->
  exists l l', surrounding_of r c w h false = Ok l /\ surrounding_of r c w h true = Ok l' /\
    NoDup l /\ NoDup l' /\
    (forall p, In p l <-> cell w h p /\ peers w h (r, c) p) /\
    (forall p, In p l' <-> cell w h p /\ (p = (r, c) \/ peers w h (r, c) p)) /\
    Z.of_nat (length l') = 3 * (w * h) - w - h /\
    Z.of_nat (length l) = 3 * (w * h) - w - h - 1.
Proof. exact C10_proof. Qed.
Print Assumptions C10_surrounding.

Example C10_ex : cell 3 2 (3, 4) /\ exists l, surrounding_of 3 4 3 2 false = Ok l /\ length l = 12%nat.
Proof. split; [split; simpl; lia | eexists; split; reflexivity]. Qed.

(** C11: box_at is the unique box containing the field. *)
Theorem C11_box : forall w h r c b, 1 <= w -> 1 <= h -> cell w h (r, c) ->
  ((exists l, the_box b w h = Ok l /\ In (r, c) l) <-> b = box_at r c w h).
Proof. exact C11_box_proof. Qed.
Print Assumptions C11_box.

(** C11: parts. *)
Theorem C11_part : forall w h r c p, 1 <= w -> 1 <= h -> cell w h (r, c) ->
  ((exists l, the_part p w h = Ok l /\ In (r, c) l) <-> p = c mod w + (r mod h) * w).
Proof. exact C11_part_proof. Qed.
Print Assumptions C11_part.

(** C11: a box and a part meet in exactly one field. *)
Theorem C11_box_part : forall w h b p, 1 <= w -> 1 <= h -> 0 <= b < w * h -> 0 <= p < w * h ->
  exists lb lp, the_box b w h = Ok lb /\ the_part p w h = Ok lp /\
    exists q, (In q lb /\ In q lp) /\ forall q', In q' lb /\ In q' lp -> q' = q.
Proof. exact C11_inter_proof. Qed.
Print Assumptions C11_box_part.

(** C11: every unit has N distinct fields. *)
Theorem C11_units : forall w h k, 1 <= w -> 1 <= h -> 0 <= k < w * h ->
  exists lr lc lb lp, the_row k w h = Ok lr /\ the_column k w h = Ok lc /\
    the_box k w h = Ok lb /\ the_part k w h = Ok lp /\
    (forall q, In q lr <-> cell w h q /\ fst q = k) /\
    (forall q, In q lc <-> cell w h q /\ snd q = k) /\
    (forall l, l = lr \/ l = lc \/ l = lb \/ l = lp ->
       NoDup l /\ Z.of_nat (length l) = w * h /\ forall q, In q l -> cell w h q).
Proof. exact C11_units_proof. Qed.
Print Assumptions C11_units.

Example C11_ex : the_box 3 3 2 = Ok [(2, 3); (2, 4); (2, 5); (3, 3); (3, 4); (3, 5)] /\
  the_part 4 3 2 = Ok [(1, 1); (1, 4); (3, 1); (3, 4); (5, 1); (5, 4)] /\ box_at 3 4 3 2 = 3.
Proof. repeat split. Qed.

(** C12: invalid numbers are rejected. *)
Theorem C12_reject : forall w h k,
  (the_row k w h = Err ValueError <-> k < 0 \/ w * h <= k) /\
  (the_column k w h = Err ValueError <-> k < 0 \/ w * h <= k) /\
  (the_box k w h = Err ValueError <-> k < 0 \/ w * h <= k) /\
  (the_part k w h = Err ValueError <-> k < 0 \/ w * h <= k).
Proof. exact C12_proof. Qed.
Print Assumptions C12_reject.

Example C12_ex : the_box 6 3 2 = Err ValueError /\ the_row (-1) 3 2 = Err ValueError.
Proof. split; reflexivity. Qed.
