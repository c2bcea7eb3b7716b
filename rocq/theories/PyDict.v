(** Python dictionaries: association lists in insertion order.  No proofs. *)
From Verif Require Export PyBase.

Section Dict.
Context {K V : Type}.
Variable eqb : K -> K -> bool.

(** [d[k]]: KeyError if absent. *)
Fixpoint dget (d : list (K * V)) (k : K) : res V :=
  match d with
  | [] => Err KeyError
  | (k', v) :: t => if eqb k k' then Ok v else dget t k
  end.

(** [d[k] = v]: keeps the position of an existing key, appends a new one. *)
Fixpoint dset (d : list (K * V)) (k : K) (v : V) : list (K * V) :=
  match d with
  | [] => [(k, v)]
  | (k', v') :: t => if eqb k k' then (k', v) :: t else (k', v') :: dset t k v
  end.

(** [d.pop(k)]: KeyError if absent. *)
Fixpoint dpop (d : list (K * V)) (k : K) : res (V * list (K * V)) :=
  match d with
  | [] => Err KeyError
  | (k', v) :: t =>
      if eqb k k' then Ok (v, t)
      else let* (r, t') := dpop t k in Ok (r, (k', v) :: t')
  end.

(** [d[k]] for a [defaultdict] with default [v0] (without the insertion). *)
Definition dget_default (d : list (K * V)) (k : K) (v0 : V) : V :=
  match dget d k with Ok v => v | Err _ => v0 end.

Definition dkeys (d : list (K * V)) : list K := map fst d.
Definition dvalues (d : list (K * V)) : list V := map snd d.
End Dict.
