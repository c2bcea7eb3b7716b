(** Specification for generate.py: admissible random decisions, symmetries of
    the grid, and the attempts of generate_from_template. *)
From Verif Require Export Spec MGenerate.

(** shuffle permutes a list, a set is iterated over in some order. *)
Definition create_admissible (o : create_oracle) : Prop :=
  (forall l, Permutation (co_shuffle o l) l) /\
  (forall p l, Permutation (co_ord o p l) l).

Definition generate_admissible (o : generate_oracle) : Prop :=
  create_admissible (go_create o) /\
  (forall l, Permutation (go_shuffle o l) l) /\
  (forall k p l, Permutation (go_ord o k p l) l).

(** Generators of the symmetries of an n x n grid. *)
Definition sym_maps (n : Z) (y : symmetry) : list (coord -> coord) :=
  match y with
  | SymRotate90 => [fun p => (snd p, n - 1 - fst p)]
  | SymRotate180 => [fun p => (n - 1 - fst p, n - 1 - snd p)]
  | SymMirrorX => [fun p => (n - 1 - fst p, snd p)]
  | SymMirrorY => [fun p => (fst p, n - 1 - snd p)]
  | SymMirrorXY => [fun p => (n - 1 - fst p, snd p); fun p => (fst p, n - 1 - snd p)]
  | SymNone | SymOther => []
  end.

(** The fields reachable from [p] by these maps. *)
Inductive sym_class (n : Z) (y : symmetry) (p : coord) : coord -> Prop :=
| class_refl : sym_class n y p p
| class_step : forall q m, sym_class n y p q -> In m (sym_maps n y) -> sym_class n y p (m q).

(** Attempt [t] of generate_from_template, [o t] being its random decisions: the
    created solution with the fields emptied that are empty in the template. *)
Definition attempt (o : Z -> create_oracle * (list xrow -> list xrow -> list xrow))
    (template : sudoku) (t : Z) (a : sudoku) : Prop :=
  wf a /\ box_size a = box_size template /\
  exists sol, create_solution (fst (o t)) (box_size template) = Ok sol /\
    (forall p, field template p -> num template p = 0 -> num a p = 0) /\
    (forall p, field template p -> num template p <> 0 -> num a p = num sol p).

(** [t] is [s] with the symmetry class of [p] emptied. *)
Definition emptied (y : symmetry) (s : sudoku) (p : coord) (t : sudoku) : Prop :=
  wf t /\ box_size t = box_size s /\
  (forall q, field s q -> sym_class (box_width s * box_height s) y p q -> num t q = 0) /\
  (forall q, field s q -> ~ sym_class (box_width s * box_height s) y p q -> num t q = num s q).

(** The puzzles that can be made of the solution [sol] (see C98): part of the
    solution, symmetric, uniquely solvable, enough numbers, and no class can
    be removed any more -- or there is a class whose removal would leave too
    few numbers. *)
Definition puzzle_of (sol : sudoku) (min_count : Z) (y : symmetry) (s : sudoku) : Prop :=
  wf s /\ box_size s = box_size sol /\
  (forall p, field s p -> cand s p = []) /\
  (forall p, field s p -> num s p = 0 \/ num s p = num sol p) /\
  (forall m p, In m (sym_maps (box_width s * box_height s) y) -> field s p ->
     (num s p = 0 <-> num s (m p) = 0)) /\
  unique_solution s /\
  (exists n, count s = Ok n /\ min_count <= n) /\
  ((forall p t, field s p -> num s p <> 0 -> emptied y s p t -> ~ unique_solution t) \/
   (exists p t n, field s p /\ num s p <> 0 /\ emptied y s p t /\ count t = Ok n /\ n < min_count)).
