(** The specification, written without looking at the algorithms: fields,
    units, peers, solution grids; and what can be observed of a sudoku object
    through its accessors [sudoku[row, col]] and [get_candidates(row, col)]. *)
From Coq Require Export Sorted Permutation.
From Verif Require Export MSudoku.

(** * Grids.  [w], [h]: width and height of a box; the grid has N = w*h rows
    and columns. *)

(** (row, column) is a field of the grid. *)
Definition cell (w h : Z) (p : coord) : Prop :=
  0 <= fst p < w * h /\ 0 <= snd p < w * h.

Definition same_row (p q : coord) : Prop := fst p = fst q.
Definition same_col (p q : coord) : Prop := snd p = snd q.
Definition same_box (w h : Z) (p q : coord) : Prop :=
  fst p / h = fst q / h /\ snd p / w = snd q / w.

(** Two different fields that share a row, a column or a box. *)
Definition peers (w h : Z) (p q : coord) : Prop :=
  p <> q /\ (same_row p q \/ same_col p q \/ same_box w h p q).

(** A grid assigns a number to every field (only the fields matter). *)
Definition grid : Type := coord -> Z.

(** Complete and correct: numbers 1..N, peers differ. *)
Definition valid_grid (w h : Z) (f : grid) : Prop :=
  (forall p, cell w h p -> 1 <= f p <= w * h) /\
  (forall p q, cell w h p -> cell w h q -> peers w h p q -> f p <> f q).

(** Equality of grids on the fields. *)
Definition same_grid (w h : Z) (f g : grid) : Prop :=
  forall p, cell w h p -> f p = g p.

(** * Observing a sudoku object *)

(** The number / the candidates of a field ([wf] below makes sure that the
    accessors do not raise on fields). *)
Definition num (s : sudoku) (p : coord) : Z :=
  match getitem s (fst p) (snd p) with Ok v => v | Err _ => 0 end.
Definition cand (s : sudoku) (p : coord) : zset :=
  match get_candidates s (fst p) (snd p) with Ok c => c | Err _ => [] end.

(** [p] is a field of the sudoku [s]. *)
Definition field (s : sudoku) (p : coord) : Prop := cell (box_width s) (box_height s) p.

(** A well-formed sudoku object: N x N numbers and N x N candidate sets in the
    canonical (sorted) representation.  Theorem C03 shows that every object
    reachable through the API is of this form. *)
Record wf (s : sudoku) : Prop := {
  wf_w : 1 <= box_width s;
  wf_h : 1 <= box_height s;
  wf_nrows : length (s_numbers s) = Z.to_nat (box_width s * box_height s);
  wf_nrow : forall row, In row (s_numbers s) ->
              length row = Z.to_nat (box_width s * box_height s);
  wf_crows : length (s_candidates s) = Z.to_nat (box_width s * box_height s);
  wf_crow : forall row, In row (s_candidates s) ->
              length row = Z.to_nat (box_width s * box_height s);
  wf_cand : forall row c, In row (s_candidates s) -> In c row -> StronglySorted Z.lt c
}.

(** Grid [f] agrees with the filled fields of [s]. *)
Definition extends (s : sudoku) (f : grid) : Prop :=
  forall p, field s p -> num s p = 0 \/ num s p = f p.

(** [f] is a solution of [s]. *)
Definition solution (s : sudoku) (f : grid) : Prop :=
  valid_grid (box_width s) (box_height s) f /\ extends s f.

(** The numbers of [s] are exactly those of grid [f]. *)
Definition shows (s : sudoku) (f : grid) : Prop :=
  forall p, field s p -> num s p = f p.

(** No two peers hold the same (non-zero) number. *)
Definition conflict_free (s : sudoku) : Prop :=
  forall p q, field s p -> field s q -> peers (box_width s) (box_height s) p q ->
    num s p <> 0 -> num s p <> num s q.

(** Every number of [s] is 0 (empty) or one of 1..N. *)
Definition in_range (s : sudoku) : Prop :=
  forall p, field s p -> 0 <= num s p <= box_width s * box_height s.

(** No empty field. *)
Definition complete (s : sudoku) : Prop := forall p, field s p -> num s p <> 0.

(** Row-major order of fields. *)
Definition lex_lt (p q : coord) : Prop :=
  fst p < fst q \/ (fst p = fst q /\ snd p < snd q).

(** An index accepted by a Python list of length N (negative ones count from
    the end), and the place it denotes. *)
Definition valid_index (s : sudoku) (i : Z) : Prop :=
  - (box_width s * box_height s) <= i < box_width s * box_height s.
Definition same_place (s : sudoku) (r c r' c' : Z) : Prop :=
  r mod (box_width s * box_height s) = r' mod (box_width s * box_height s) /\
  c mod (box_width s * box_height s) = c' mod (box_width s * box_height s).

(** Histories of writes through the API; a failing write raises and leaves the
    object as it is. *)
Inductive write : Type :=
| WSet (r c v : Z)
| WSetCands (r c : Z) (vs : list Z)
| WRemoveCands (r c : Z) (vs : list Z).

Definition write_res (s : sudoku) (o : write) : res sudoku :=
  match o with
  | WSet r c v => setitem s r c v
  | WSetCands r c vs => set_candidates s r c vs
  | WRemoveCands r c vs => remove_candidates s r c vs
  end.

Definition do_write (s : sudoku) (o : write) : sudoku :=
  match write_res s o with Ok s' => s' | Err _ => s end.

(** The textbook definition: every row, column and box contains each of 1..N
    exactly once.  (Equivalence with [valid_grid] is a theorem.) *)
Definition once (n : Z) (f : grid) (unit : coord -> Prop) : Prop :=
  forall v, 1 <= v <= n ->
    exists p, unit p /\ f p = v /\ forall q, unit q -> f q = v -> q = p.

Definition latin (w h : Z) (f : grid) : Prop :=
  (forall r, 0 <= r < w * h -> once (w * h) f (fun p => cell w h p /\ fst p = r)) /\
  (forall c, 0 <= c < w * h -> once (w * h) f (fun p => cell w h p /\ snd p = c)) /\
  (forall i j, 0 <= i < w -> 0 <= j < h ->
     once (w * h) f (fun p => cell w h p /\ fst p / h = i /\ snd p / w = j)).

(** [ys] lists exactly the grids with property [P], each exactly once, as
    well-formed sudokus of the size of [s]. *)
Definition enumerates (s : sudoku) (P : grid -> Prop) (ys : list sudoku) : Prop :=
  (forall y, In y ys -> wf y /\ box_size y = box_size s /\ P (num y)) /\
  (forall f, P f -> exists y, In y ys /\ shows y f) /\
  ForallOrdPairs (fun a b => exists p, field s p /\ num a p <> num b p) ys.

(** [f] fills the empty fields of [s] with numbers 1..N such that peers differ
    (the filled fields may contain anything). *)
Definition completion (s : sudoku) (f : grid) : Prop :=
  (forall p, field s p ->
     (num s p <> 0 -> f p = num s p) /\
     (num s p = 0 -> 1 <= f p <= box_width s * box_height s)) /\
  (forall p q, field s p -> field s q -> peers (box_width s) (box_height s) p q -> f p <> f q).

(** [s] has exactly one solution (as a grid). *)
Definition unique_solution (s : sudoku) : Prop :=
  exists f, solution s f /\
    forall g, solution s g -> same_grid (box_width s) (box_height s) g f.
