(** The callbacks of C134. *)
From Verif Require Export Spec SpecSolvers MReport.

(** A step as [find] yields it. *)
Definition bare (st : step) : step :=
  {| st_class := st_class st; clues := clues st; affected := affected st; values := values st; actions := [] |}.

(** A callback that does not change the step: only its state changes, or it raises an exception. *)
Definition observer {W : Type} (f : W -> step -> res W) : W -> step -> res (W * step) :=
  fun w st => let* w := f w st in Ok (w, st).

(** [lambda step: step.apply(m)]: the state is the sudoku [m]. *)
Definition applying : sudoku -> step -> res (sudoku * step) :=
  fun m st => let* (st, m) := apply st m in Ok (m, st).

(** [lambda step: step.apply(m.copy(include_candidates=True))]: the sudoku [m] never changes. *)
Definition trying : sudoku -> step -> res (sudoku * step) :=
  fun m st => let* c := copy m true in let* (st, _) := apply st c in Ok (m, st).
