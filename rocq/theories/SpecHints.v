(** Specification of playing with hints(): ask for hints, apply one of them, ask again. *)
From Verif Require Export SpecLevel.

(** Every class that hints() asks, in this order. *)
Definition hint_classes : list solver :=
  [CalculateCandidates; NakedSingle; HiddenSingle; NakedTuple 2; HiddenTuple 2; NakedTuple 3; HiddenTuple 3; NakedTuple 4; HiddenTuple 4;
   NakedTuple 5; HiddenTuple 5; PointingTuple 2; PointingTuple 3; BasicFish 2; BasicFish 3; BasicFish 4].

(** hints() offers the step, for some order of Python's sets. *)
Definition offered (s : sudoku) (st : step) : Prop :=
  exists o ys, oracle_ok o /\ glist (hints o s) s = Ok ys /\ In st ys.

Inductive hinted : sudoku -> sudoku -> Prop :=
| hinted_stop : forall s, hinted s s
| hinted_step : forall s st st' s1 t, offered s st -> apply st s = Ok (st', s1) -> hinted s1 t -> hinted s t.

Definition no_hints (o : oracle) (s : sudoku) : Prop := glist (hints o s) s = Ok [].

(** Always the first hint: ask, apply the first step, at most n times; os are the orders of Python's sets when asked. *)
Fixpoint follow (n : nat) (os : nat -> oracle) (s : sudoku) : res sudoku :=
  match n with
  | O => Ok s
  | S n => match glist (hints (os O) s) s with
           | Ok (st :: _) => match apply st s with Ok (_, s1) => follow n (fun i => os (S i)) s1 | Err e => Err e end
           | Ok [] => Ok s
           | Err e => Err e
           end
  end.
