(** Specification of the texts of solve steps. *)
From Verif Require Export SpecFind MStepText.

(** A step with the attributes its class gives it. *)
Definition made (st : step) : Prop :=
  In (st_class st) SOLVERS /\
  (single_field (st_class st) = true -> exists p v, clues st = [p] /\ affected st = [p] /\ values st = [v]).
