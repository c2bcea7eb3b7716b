(** Python sets as strictly increasing lists with respect to a comparison
    function, and [sorted].  The representation is canonical: two equal sets
    are the same list.  No proofs here. *)
From Verif Require Export PyBase.

Section Ordered.
Context {A : Type}.
Variable cmp : A -> A -> comparison.

Definition cmp_eqb (x y : A) : bool := match cmp x y with Eq => true | _ => false end.
Definition cmp_leb (x y : A) : bool := match cmp x y with Gt => false | _ => true end.

(** [x in s] *)
Definition smem (x : A) (s : list A) : bool := existsb (cmp_eqb x) s.

(** [s | {x}] / [s.add(x)] *)
Fixpoint sadd (x : A) (s : list A) : list A :=
  match s with
  | [] => [x]
  | y :: t => match cmp x y with
              | Lt => x :: s
              | Eq => s
              | Gt => y :: sadd x t
              end
  end.

(** [set(l)] *)
Definition sof_list (l : list A) : list A := fold_left (fun s x => sadd x s) l [].

(** [s.discard(x)] *)
Definition sdiscard (x : A) (s : list A) : list A := filter (fun y => negb (cmp_eqb x y)) s.

(** [s.remove(x)]: KeyError if [x] is not in [s]. *)
Definition sremove (x : A) (s : list A) : res (list A) :=
  if smem x s then Ok (sdiscard x s) else Err KeyError.

(** [s - t], [s & t], [s | t] *)
Definition sdiff (s t : list A) : list A := filter (fun x => negb (smem x t)) s.
Definition sinter (s t : list A) : list A := filter (fun x => smem x t) s.
Definition sunion (s t : list A) : list A := fold_left (fun s x => sadd x s) t s.

(** [sorted(l)] for a total order (stable insertion sort, keeps duplicates). *)
Fixpoint ins_by (leb : A -> A -> bool) (x : A) (l : list A) : list A :=
  match l with
  | [] => [x]
  | y :: t => if leb x y then x :: l else y :: ins_by leb x t
  end.
Definition sort_by (leb : A -> A -> bool) (l : list A) : list A :=
  fold_right (ins_by leb) [] l.
Definition py_sorted (l : list A) : list A := sort_by cmp_leb l.

End Ordered.

(** Lexicographic comparison of tuples, as Python compares tuples. *)
Definition pair_cmp {A B} (ca : A -> A -> comparison) (cb : B -> B -> comparison)
  (x y : A * B) : comparison :=
  match ca (fst x) (fst y) with
  | Eq => cb (snd x) (snd y)
  | c => c
  end.

Fixpoint list_cmp {A} (c : A -> A -> comparison) (x y : list A) : comparison :=
  match x, y with
  | [], [] => Eq
  | [], _ :: _ => Lt
  | _ :: _, [] => Gt
  | a :: x', b :: y' => match c a b with
                        | Eq => list_cmp c x' y'
                        | r => r
                        end
  end.

Definition zcmp : Z -> Z -> comparison := Z.compare.
Definition coord_cmp : coord -> coord -> comparison := pair_cmp zcmp zcmp.

(** A set of integers (candidates of a field). *)
Definition zset : Type := list Z.
