(** Specification of sudokus that look alike: equivalent (SpecEquiv.v), and units are moved to units. *)
From Verif Require Export SpecEquiv SpecFind.

(** Rows may become columns and columns rows. *)
Definition turned (b : bool) (k : kind) : kind :=
  if b then match k with KRow => KCol | KCol => KRow | KBox => KBox end else k.

Definition alike (fm fi : coord -> coord) (nm ni : Z -> Z) (s t : sudoku) : Prop :=
  equivalent fm fi nm ni s t /\
  exists b, forall k p q, field s p -> field s q -> (together s k p q <-> together t (turned b k) (fm p) (fm q)).
