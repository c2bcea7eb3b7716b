(** What pop(position) of a list with [n] elements removes: negative positions count from the end. *)
From Verif Require Export SpecShell MShellO.

Definition list_position (n : nat) (k : Z) (p : nat) : Prop :=
  (p < n)%nat /\ (k = Z.of_nat p \/ k = Z.of_nat p - Z.of_nat n).

(** Execution from [st] wrote no message. *)
Definition quiet (st : shell) (o : outcome) : Prop := sh_err (fst o) = sh_err st.
