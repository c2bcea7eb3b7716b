(** Specification of the solve steps of solvers.py, independent of how they
    are found. *)
From Verif Require Export Spec MSolvers.

(** [f] is a solution of [s] and every field still has the value of [f] among
    its candidates. *)
Definition consistent (s : sudoku) (f : grid) : Prop :=
  solution s f /\ forall p, field s p -> In (f p) (cand s p).

(** The oracle enumerates the sets it is asked for. *)
Definition oracle_ok (o : oracle) : Prop :=
  (forall s p l, Permutation (o_hidden o s p l) l) /\
  (forall s p l, Permutation (o_dlx o s p l) l).

(** [yields_when ok g s t st]: the generator [g], started while the sudoku is
    [s], yields the step [st] at a moment when the sudoku is [t]; between two
    yields the consumer may change the sudoku to anything allowed by [ok]
    (e.g. apply steps or not). *)
Inductive yields_when {R} (ok : sudoku -> Prop)
  : gen sudoku step R -> sudoku -> sudoku -> step -> Prop :=
| yw_here : forall st k s, yields_when ok (Yield st k) s s st
| yw_later : forall st0 k s s' t st, ok s' ->
    yields_when ok (k s') s' t st -> yields_when ok (Yield st0 k) s t st.

(** [raises_when ok g s e]: in some such run [g] raises [e]. *)
Inductive raises_when {R} (ok : sudoku -> Prop)
  : gen sudoku step R -> sudoku -> exn -> Prop :=
| rw_here : forall e s, raises_when ok (Raise e) s e
| rw_later : forall st k s s' e, ok s' ->
    raises_when ok (k s') s' e -> raises_when ok (Yield st k) s e.

(** The same object shape. *)
Definition like (s t : sudoku) : Prop := wf t /\ box_size t = box_size s.

(** What may be written about the fields by a step, for the solution [f]:
    never anything that contradicts [f]. *)
Definition sets_only (f : grid) (st : step) : Prop :=
  exists p, affected st = [p] /\ values st = [f p].
Definition never_removes (f : grid) (st : step) : Prop :=
  forall p v, In p (affected st) -> In v (values st) -> f p <> v.
Definition never_drops (f : grid) (st : step) : Prop :=
  forall p, In p (affected st) -> In (f p) (values st).

(** The sudoku after executing the recorded actions of some steps. *)
Definition replay (s : sudoku) (l : list step) : res sudoku :=
  foldM (fun s st => foldM do_action (actions st) s) l s.

(** The state of solve() after [k] rounds of its while loop (whether or not it
    ends there). *)
Fixpoint rounds (k : nat) (o : oracle) (s : sudoku) : res (list step * sudoku) :=
  match k with
  | O => Ok ([], s)
  | S k =>
      let* (l1, s) := rounds k o s in
      let* (l2, s) := solve_round o SOLVERS s in
      Ok (l1 ++ l2, s)
  end.

(** What it means that a step is sound for the solution [f] and can be applied
    to every sudoku consistent with [f]. *)
Definition applies (s : sudoku) (f : grid) (st : step) : Prop :=
  forall u, like s u -> consistent u f ->
    exists st' u', apply st u = Ok (st', u') /\ like s u' /\ consistent u' f.

(** Something about field [p] differs between [t] and [t']. *)
Definition changed (t t' : sudoku) (p : coord) : Prop := num t' p <> num t p \/ cand t' p <> cand t p.

(** Enough rounds for solve() on a solvable sudoku: N*N*(N+1)+2. *)
Definition fuel_bound (s : sudoku) : nat :=
  let n := Z.to_nat (box_width s * box_height s) in (n * n * (n + 1) + 2)%nat.

(** A bound for the number of different states solve() can be in. *)
Definition states_bound (s : sudoku) : nat :=
  let n := Z.to_nat (box_width s * box_height s) in
  let a := (n + n * n + 1)%nat in ((a * 2 ^ a) ^ (n * n))%nat.

(** solvers.py:569-570: the working copy solve() starts with *)
Definition start (s : sudoku) : res sudoku :=
  let* c := copy s false in init_candidates c true.

(** What steps are compared by. *)
Definition key (st : step) : list coord * list coord * list Z := (clues st, affected st, values st).
