(** Loops that change the sudoku they iterate over: [for x in s.empty(): ...] and the like. *)
From Verif Require Import MSolve MAnalyze Spec.

(** [for x in g: body], where [s] is the sudoku when the loop (or the rest of it) starts: the sudoku before
    each execution of the body with the value of x, and the sudoku after the loop. *)
Fixpoint loop {A} (body : sudoku -> A -> sudoku) (g : gen sudoku A sudoku) (s : sudoku) : list (sudoku * A) * res sudoku :=
  match g with
  | Ret _ => ([], Ok s)
  | Raise e => ([], Err e)
  | Yield x k =>
      let s' := body s x in
      let (l, r) := loop body (k s') s' in
      ((s, x) :: l, r)
  end.

(** [u] is a sudoku of the size of [s]. *)
Definition like (s u : sudoku) : Prop := wf u /\ box_size u = box_size s.

(** A body for fields keeps the size. *)
Definition body_ok (s : sudoku) (body : sudoku -> coord -> sudoku) : Prop :=
  forall u p, like s u -> field s p -> like s (body u p).

(** It changes no field that comes later. *)
Definition backward (s : sudoku) (body : sudoku -> coord -> sudoku) : Prop :=
  forall u p q, like s u -> field s p -> field s q -> lex_lt p q -> num (body u p) q = num u q.

(** It makes [good] true of its field, and of no field false. *)
Definition achieves (s : sudoku) (good : coord -> Z -> Prop) (body : sudoku -> coord -> sudoku) : Prop :=
  forall u p, like s u -> field s p -> good p (num (body u p) p) /\
    forall q, field s q -> good q (num u q) -> good q (num (body u p) q).

(** A body for conflicts clears one or both of the two fields and nothing else. *)
Definition clears (s : sudoku) (body : sudoku -> coord * coord * Z -> sudoku) : Prop :=
  forall u p q v, like s u -> field s p -> field s q -> like s (body u (p, q, v)) /\
    (forall r, field s r -> num (body u (p, q, v)) r = num u r \/ ((r = p \/ r = q) /\ num (body u (p, q, v)) r = 0)) /\
    (num (body u (p, q, v)) p = 0 \/ num (body u (p, q, v)) q = 0).

(** A body for conflicts that clears the second field (the first field). *)
Definition clears_second (s : sudoku) (body : sudoku -> coord * coord * Z -> sudoku) : Prop :=
  forall u p q v, like s u -> field s p -> field s q -> like s (body u (p, q, v)) /\
    num (body u (p, q, v)) q = 0 /\ forall r, field s r -> r <> q -> num (body u (p, q, v)) r = num u r.
Definition clears_first (s : sudoku) (body : sudoku -> coord * coord * Z -> sudoku) : Prop :=
  forall u p q v, like s u -> field s p -> field s q -> like s (body u (p, q, v)) /\
    num (body u (p, q, v)) p = 0 /\ forall r, field s r -> r <> p -> num (body u (p, q, v)) r = num u r.

(** [t] keeps a number of [s] exactly if no earlier peer keeps the same number. *)
Definition keeps_first (s t : sudoku) : Prop :=
  forall q, field s q ->
    ((exists p, field s p /\ lex_lt p q /\ peers (box_width s) (box_height s) p q /\ num t p = num s q) /\ num s q <> 0 -> num t q = 0) /\
    (~ ((exists p, field s p /\ lex_lt p q /\ peers (box_width s) (box_height s) p q /\ num t p = num s q) /\ num s q <> 0) -> num t q = num s q).

(** [t] keeps a number of [s] exactly if no later field of the unit has the same number in [s]. *)
Definition keeps_last (s t : sudoku) : Prop :=
  forall p, field s p ->
    ((exists q, field s q /\ lex_lt p q /\ peers (box_width s) (box_height s) p q /\ num s q = num s p) -> num t p = 0) /\
    (~ (exists q, field s q /\ lex_lt p q /\ peers (box_width s) (box_height s) p q /\ num s q = num s p) -> num t p = num s p).

(** A body for empty fields that sets the field to some candidate as calculated at that moment, and leaves it empty if there is none. *)
Definition fills_candidate (s : sudoku) (body : sudoku -> coord -> sudoku) : Prop :=
  body_ok s body /\
  forall u p, like s u -> field s p -> num u p = 0 ->
    (forall q, field s q -> q <> p -> num (body u p) q = num u q) /\
    forall l, calc_candidates u (fst p) (snd p) = Ok l -> (l = [] /\ num (body u p) p = 0) \/ In (num (body u p) p) l.

(** A body for empty fields that sets the field if exactly one candidate is calculated at that moment. *)
Definition fills_forced (s : sudoku) (body : sudoku -> coord -> sudoku) : Prop :=
  body_ok s body /\
  forall u p, like s u -> field s p -> num u p = 0 ->
    (forall q, field s q -> q <> p -> num (body u p) q = num u q) /\
    forall l, calc_candidates u (fst p) (snd p) = Ok l ->
      num (body u p) p = match l with [v] => v | _ => 0 end.

(** Several loops over the empty fields, one after another. *)
Fixpoint rounds (body : sudoku -> coord -> sudoku) (n : nat) (s : sudoku) : res sudoku :=
  match n with
  | O => Ok s
  | S n => match snd (loop body (empty s) s) with Ok t => rounds body n t | Err e => Err e end
  end.
