(** Specification of the number of filled fields of a symmetric pattern. *)
From Verif Require Export SpecGen.

(** The filled fields of [s] have the symmetry [y]. *)
Definition symmetric (y : symmetry) (s : sudoku) : Prop :=
  forall m p, In m (sym_maps (box_width s * box_height s) y) -> field s p -> (num s p = 0 <-> num s (m p) = 0).

(** The fields with smaller classes: the middle row, the middle column, the middle field. *)
Definition on_axis (y : symmetry) (n : Z) (p : coord) : Prop :=
  match y with
  | SymMirrorX => 2 * fst p = n - 1
  | SymMirrorY => 2 * snd p = n - 1
  | SymRotate90 | SymRotate180 => 2 * fst p = n - 1 /\ 2 * snd p = n - 1
  | SymMirrorXY => 2 * fst p = n - 1 \/ 2 * snd p = n - 1
  | SymNone | SymOther => False
  end.

(** The number of fields of the other classes. *)
Definition class_size (y : symmetry) : Z :=
  match y with
  | SymRotate90 | SymMirrorXY => 4
  | SymRotate180 | SymMirrorX | SymMirrorY => 2
  | SymNone | SymOther => 1
  end.
