(** Specification of exact cover problems: constraints, rows that satisfy some of them, and sets of rows that satisfy every constraint
    exactly once. *)
From Verif Require Export MDlx.

(** A problem: a list of constraints without repetition; a dict of rows; every row is a list without repetition of constraints. *)
Record problem (cs : list xkey) (Y : ydict) : Prop := {
  pr_keys : NoDup cs;
  pr_rows : NoDup (map fst Y);
  pr_once : forall i l, In (i, l) Y -> NoDup l;
  pr_known : forall i l k, In (i, l) Y -> In k l -> In k cs
}.

Definition satisfies (Y : ydict) (i : xrow) (k : xkey) : Prop := exists l, In (i, l) Y /\ In k l.

(** Rows that satisfy every constraint exactly once; rows that satisfy nothing are not used. *)
Definition exact (cs : list xkey) (Y : ydict) (rows : list xrow) : Prop :=
  NoDup rows /\
  (forall i, In i rows -> exists k, satisfies Y i k) /\
  (forall k, In k cs -> exists i, In i rows /\ satisfies Y i k) /\
  (forall i i' k, In i rows -> In i' rows -> satisfies Y i k -> satisfies Y i' k -> i = i').

(** The rows of the dict X that are left after some calls of select() and deselect(). *)
Inductive reachable (cs : list xkey) (Y : ydict) : xdict -> Prop :=
| rc_init : forall X, exact_cover cs Y = Ok X -> reachable cs Y X
| rc_select : forall X r cols X1, reachable cs Y X -> select X Y r = Ok (cols, X1) -> reachable cs Y X1
| rc_undo : forall X r cols X1 X2, reachable cs Y X -> select X Y r = Ok (cols, X1) -> deselect X1 Y r cols = Ok X2 -> reachable cs Y X2.
