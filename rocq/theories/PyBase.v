(** Fragments of Python used by the model: exceptions as values, [range],
    list indexing, loops over lists that may raise.  No proofs here. *)
From Coq Require Export List ZArith Bool.
Export ListNotations.
Open Scope Z_scope.

(** Exceptions raised by the modelled code.  [OutOfFuel] is no Python
    exception: it marks that the fuel of a model function was exhausted. *)
Inductive exn : Type :=
| IndexError | KeyError | ValueError | TypeError | StopIteration
| RuntimeError | AssertionError | AttributeError
| SystemExit (status : Z) | KeyboardInterrupt
| OutOfFuel.

(** The outcome of a Python expression: a value or a raised exception. *)
Inductive res (A : Type) : Type :=
| Ok (a : A)
| Err (e : exn).
Arguments Ok {A} a.
Arguments Err {A} e.

Definition rbind {A B} (m : res A) (f : A -> res B) : res B :=
  match m with
  | Ok a => f a
  | Err e => Err e
  end.

Notation "'let*' x ':=' a 'in' b" := (rbind a (fun x => b))
  (at level 200, x pattern, a at level 100, b at level 200).

(** [for x in l: ...] where the body may raise; [acc] are the variables
    changed by the body. *)
Fixpoint foldM {A S} (f : S -> A -> res S) (l : list A) (acc : S) : res S :=
  match l with
  | [] => Ok acc
  | x :: t => let* acc' := f acc x in foldM f t acc'
  end.

(** [[f(x) for x in l]] *)
Fixpoint mapM {A B} (f : A -> res B) (l : list A) : res (list B) :=
  match l with
  | [] => Ok []
  | x :: t => let* y := f x in let* ys := mapM f t in Ok (y :: ys)
  end.

(** [[x for x in l if f(x)]] *)
Fixpoint filterM {A} (f : A -> res bool) (l : list A) : res (list A) :=
  match l with
  | [] => Ok []
  | x :: t =>
      let* b := f x in
      let* ys := filterM f t in
      Ok (if b : bool then x :: ys else ys)
  end.

(** [for x in l: if f(x): return True] ... [return False] *)
Fixpoint anyM {A} (f : A -> res bool) (l : list A) : res bool :=
  match l with
  | [] => Ok false
  | x :: t => let* b := f x in if b : bool then Ok true else anyM f t
  end.

(** [range(n)]; empty for n <= 0. *)
Definition py_range (n : Z) : list Z := map Z.of_nat (seq 0 (Z.to_nat n)).

(** [range(a, b)] *)
Definition py_range2 (a b : Z) : list Z := map (fun i => a + i) (py_range (b - a)).

(** [len(l)] *)
Definition py_len {A} (l : list A) : Z := Z.of_nat (length l).

(** Resolution of a list index: negative indices count from the end. *)
Definition py_idx (n : nat) (i : Z) : res nat :=
  if (0 <=? i) && (i <? Z.of_nat n) then Ok (Z.to_nat i)
  else if (- Z.of_nat n <=? i) && (i <? 0) then Ok (Z.to_nat (i + Z.of_nat n))
  else Err IndexError.

(** [l[i]] *)
Definition list_get {A} (l : list A) (i : Z) : res A :=
  let* k := py_idx (length l) i in
  match nth_error l k with
  | Some x => Ok x
  | None => Err IndexError
  end.

Fixpoint list_upd {A} (k : nat) (v : A) (l : list A) : list A :=
  match l, k with
  | [], _ => []
  | _ :: t, O => v :: t
  | x :: t, S k' => x :: list_upd k' v t
  end.

(** [l[i] = v] *)
Definition list_set {A} (l : list A) (i : Z) (v : A) : res (list A) :=
  let* k := py_idx (length l) i in
  Ok (list_upd k v l).

(** [l.remove(x)]: removes the first occurrence, ValueError if there is none. *)
Fixpoint list_remove {A} (eqb : A -> A -> bool) (x : A) (l : list A) : res (list A) :=
  match l with
  | [] => Err ValueError
  | y :: t => if eqb x y then Ok t
              else let* t' := list_remove eqb x t in Ok (y :: t')
  end.

(** [l.pop()]: last element and the list without it. *)
Definition list_pop {A} (l : list A) : res (A * list A) :=
  match rev l with
  | [] => Err IndexError
  | x :: t => Ok (x, rev t)
  end.

(** [x in l] *)
Definition list_in {A} (eqb : A -> A -> bool) (x : A) (l : list A) : bool :=
  existsb (eqb x) l.

(** [itertools.combinations(l, n)] in its documented (lexicographic) order. *)
Fixpoint combinations {A} (n : nat) (l : list A) : list (list A) :=
  match n with
  | O => [[]]
  | S n' =>
      match l with
      | [] => []
      | x :: t => map (cons x) (combinations n' t) ++ combinations n t
      end
  end.

(** A field of the grid: row and column. *)
Definition coord : Type := (Z * Z)%type.
Definition coord_eqb (a b : coord) : bool := (fst a =? fst b) && (snd a =? snd b).
