(** Specification for the steps of solve() that fill in numbers. *)
From Verif Require Export SpecSizes.

(** The classes that fill in a number; the others only take candidates away or calculate them. *)
Definition filling (cls : solver) : Prop := cls = NakedSingle \/ cls = HiddenSingle \/ cls = Bruteforce.

(** [l] contains exactly one step that fills the field [p], and this step fills in [v]. *)
Definition filled_once (l : list step) (p : coord) (v : Z) : Prop :=
  exists l1 st l2, l = l1 ++ st :: l2 /\ filling (st_class st) /\ affected st = [p] /\ values st = [v] /\
    forall st', In st' (l1 ++ l2) -> filling (st_class st') -> ~ In p (affected st').
