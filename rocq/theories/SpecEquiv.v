(** Specification of equivalent sudokus: the fields moved in such a way that
    peers stay peers, the numbers renamed. *)
From Verif Require Export Spec.

(** [fm] moves the fields of [s] to those of [t], [fi] moves them back, [nm]
    renames the numbers, [ni] undoes that; 0 stays the empty field and 1..N
    stay 1..N. *)
Record equivalent (fm fi : coord -> coord) (nm ni : Z -> Z) (s t : sudoku) : Prop := {
  eq_size : box_width t * box_height t = box_width s * box_height s;
  eq_to : forall p, field s p -> field t (fm p) /\ fi (fm p) = p;
  eq_from : forall q, field t q -> field s (fi q) /\ fm (fi q) = q;
  eq_peers : forall p q, field s p -> field s q ->
    (peers (box_width s) (box_height s) p q <-> peers (box_width t) (box_height t) (fm p) (fm q));
  eq_ren : forall v, ni (nm v) = v /\ nm (ni v) = v;
  eq_zero : nm 0 = 0;
  eq_range : forall v, 1 <= v <= box_width s * box_height s <-> 1 <= nm v <= box_width s * box_height s;
  eq_num : forall p, field s p -> num t (fm p) = nm (num s p)
}.

(** The transposed field. *)
Definition transpose (p : coord) : coord := (snd p, fst p).

(** [f] permutes 0..n-1 ([g] is the inverse) and keeps blocks of [b]
    neighbours together: rows of a band stay in a band, bands may be exchanged. *)
Definition block_perm (n b : Z) (f g : Z -> Z) : Prop :=
  (forall i, 0 <= i < n -> 0 <= f i < n /\ g (f i) = i) /\
  (forall i, 0 <= i < n -> 0 <= g i < n /\ f (g i) = i) /\
  (forall i j, 0 <= i < n -> 0 <= j < n -> (i / b = j / b <-> f i / b = f j / b)).
