(** Specification of the depth of the recursive searches. *)
From Verif Require Export Spec MRecursion.

(** [s] has [k] empty fields. *)
Definition empty_fields (s : sudoku) (k : nat) : Prop :=
  exists l, NoDup l /\ (forall p, In p l <-> field s p /\ num s p = 0) /\ length l = k.
(** Both generators yield the same and end in the same way. *)
Definition same_run {A R} (g g' : gen unit A R) : Prop := gyields g tt = gyields g' tt /\ gresult g tt = gresult g' tt.
