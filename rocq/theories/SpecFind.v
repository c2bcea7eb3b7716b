(** Specification of what the find methods of solvers.py look for: naked and hidden singles
    and tuples, pointing tuples and fish, in terms of the fields of a unit and their
    candidates only. *)
From Verif Require Export SpecSolvers.

(** The three kinds of units. *)
Inductive kind : Type := KRow | KCol | KBox.
Definition together (s : sudoku) (k : kind) (p q : coord) : Prop :=
  match k with
  | KRow => same_row p q
  | KCol => same_col p q
  | KBox => same_box (box_width s) (box_height s) p q
  end.
(** The fields of the unit of kind [k] that contains the field [q]. *)
Definition unit_at (s : sudoku) (k : kind) (q p : coord) : Prop := field s p /\ together s k p q.

(** [l] lists the fields (the numbers) with property [P], in increasing order, each once. *)
Definition lists (l : list coord) (P : coord -> Prop) : Prop :=
  StronglySorted lex_lt l /\ forall p, In p l <-> P p.
Definition listsz (l : list Z) (P : Z -> Prop) : Prop :=
  StronglySorted Z.lt l /\ forall v, In v l <-> P v.

(** A step as it is before it is applied. *)
Definition step_is (cls : solver) (cl aff : list coord) (vals : list Z) (st : step) : Prop :=
  st_class st = cls /\ clues st = cl /\ affected st = aff /\ values st = vals /\ actions st = [].

(** All steps found by a class, if the sudoku is not changed meanwhile. *)
Definition all_steps (o : oracle) (cls : solver) (s : sudoku) (ys : list step) : Prop :=
  glist (MSolvers.find o cls s) s = Ok ys.

(** The number [v] has no other place in the unit of kind [k] of the field [p]. *)
Definition hidden_value (s : sudoku) (k : kind) (p : coord) (v : Z) : Prop :=
  1 <= v <= box_width s * box_height s /\
  forall q, unit_at s k p q -> q <> p -> ~ In v (cand s q).

(** Kinds are tried in the order column, row, box by HiddenSingle, row, column, box by NakedTuple. *)
Definition tried_before_hidden (a b : kind) : Prop :=
  match a, b with KCol, KRow | KCol, KBox | KRow, KBox => True | _, _ => False end.
Definition tried_before_naked (a b : kind) : Prop :=
  match a, b with KRow, KCol | KRow, KBox | KCol, KBox => True | _, _ => False end.

(** [n] fields of the unit of kind [k] of the empty field [q] with 2 to [n] candidates each and at
    most [n] together; [aff] are the other fields of the unit with one of these candidates. *)
Definition naked_tuple (s : sudoku) (n : nat) (k : kind) (q : coord) (cl aff : list coord) (vals : list Z) : Prop :=
  field s q /\ num s q = 0 /\
  StronglySorted lex_lt cl /\ length cl = n /\
  (forall p, In p cl -> unit_at s k q p /\ (2 <= length (cand s p) <= n)%nat) /\
  listsz vals (fun v => exists p, In p cl /\ In v (cand s p)) /\ (length vals <= n)%nat /\
  lists aff (fun p => unit_at s k q p /\ ~ In p cl /\ exists v, In v vals /\ In v (cand s p)) /\ aff <> [].

(** [n] numbers with 2 to [n] places each and at most [n] places [places] together in the unit of
    kind [k] of the empty field [q]; [aff] are those places with other candidates. *)
Definition hidden_tuple (s : sudoku) (n : nat) (k : kind) (q : coord) (places cl aff : list coord) (vals : list Z) : Prop :=
  field s q /\ num s q = 0 /\
  lists cl (unit_at s k q) /\
  StronglySorted Z.lt vals /\ length vals = n /\
  (forall v, In v vals -> 1 <= v <= box_width s * box_height s /\
     exists l, lists l (fun p => unit_at s k q p /\ In v (cand s p)) /\ (2 <= length l <= n)%nat) /\
  lists places (fun p => unit_at s k q p /\ exists v, In v vals /\ In v (cand s p)) /\ (length places <= n)%nat /\
  lists aff (fun p => In p places /\ exists v, In v (cand s p) /\ ~ In v vals) /\ aff <> [].

(** The number [v] has exactly [n] places in the unit of kind [k] of [q], all of them in the unit of
    kind [k2] of [q]; [aff] are its other places in the latter. *)
Definition pointing (s : sudoku) (n : nat) (k k2 : kind) (q : coord) (v : Z) (cl aff : list coord) : Prop :=
  1 <= v <= box_width s * box_height s /\ In q cl /\
  lists cl (fun p => unit_at s k q p /\ In v (cand s p)) /\ length cl = n /\
  (forall p, In p cl -> together s k2 p q) /\
  lists aff (fun p => unit_at s k2 q p /\ ~ In p cl /\ In v (cand s p)) /\ aff <> [].
(** A box against its rows and columns (for n = 1 only against its rows), a row or column against its boxes. *)
Definition pointing_kinds (n : nat) (k k2 : kind) : Prop :=
  (k = KBox /\ k2 = KRow) \/ (k = KBox /\ k2 = KCol /\ n <> 1%nat) \/ (k = KRow /\ k2 = KBox) \/ (k = KCol /\ k2 = KBox).

(** [n] lines with 2 to [n] places of [v] each, these places [cl] lie in at most [n] crossing lines [cov],
    at least two in each; [aff] are the other places of [v] in the crossing lines. *)
Definition fish (s : sudoku) (n : nat) (line other : coord -> Z) (v : Z) (lines cov : list Z) (cl aff : list coord) : Prop :=
  1 <= v <= box_width s * box_height s /\
  StronglySorted Z.lt lines /\ length lines = n /\
  (forall i, In i lines -> exists l,
     lists l (fun p => field s p /\ line p = i /\ In v (cand s p)) /\ (2 <= length l <= n)%nat) /\
  lists cl (fun p => field s p /\ In (line p) lines /\ In v (cand s p)) /\
  listsz cov (fun j => exists p, In p cl /\ other p = j) /\ (length cov <= n)%nat /\
  (forall j, In j cov -> exists p p', In p cl /\ In p' cl /\ p <> p' /\ other p = j /\ other p' = j) /\
  lists aff (fun p => field s p /\ In (other p) cov /\ ~ In p cl /\ In v (cand s p)) /\ aff <> [].
