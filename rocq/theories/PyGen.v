(** Python generators.  A generator runs until it returns ([Ret]), raises
    ([Raise]) or yields ([Yield a k]).  After a yield it is resumed with [k i],
    where [i] is what the generator sees on resumption: for generators that
    look at a shared mutable sudoku this is that sudoku as the consumer left
    it ([I = sudoku]); for closed generators [I = unit].  No proofs here. *)
From Verif Require Export PyBase.

Inductive gen (I A R : Type) : Type :=
| Ret (r : R)
| Yield (a : A) (k : I -> gen I A R)
| Raise (e : exn).
Arguments Ret {I A R} r.
Arguments Yield {I A R} a k.
Arguments Raise {I A R} e.

Fixpoint gbind {I A R R'} (g : gen I A R) (f : R -> gen I A R') : gen I A R' :=
  match g with
  | Ret r => f r
  | Yield a k => Yield a (fun i => gbind (k i) f)
  | Raise e => Raise e
  end.

Notation "'do*' x ':=' a 'in' b" := (gbind a (fun x => b))
  (at level 200, x pattern, a at level 100, b at level 200).

(** An ordinary expression inside a generator. *)
Definition lift {I A R} (m : res R) : gen I A R :=
  match m with
  | Ok r => Ret r
  | Err e => Raise e
  end.

(** [yield a]; the result is what the generator sees on resumption. *)
Definition yield {I A} (a : A) : gen I A I := Yield a (fun i => Ret i).

(** [for x in l: ...] in a generator. *)
Fixpoint gfor {I A S B} (f : S -> B -> gen I A S) (l : list B) (acc : S) : gen I A S :=
  match l with
  | [] => Ret acc
  | x :: t => do* acc' := f acc x in gfor f t acc'
  end.

(** [for b in inner: body] where [inner] is itself a generator looking at the
    shared object; the first component of the loop state is that object. *)
Fixpoint gforgen {I A B R S} (body : (I * S) -> B -> gen I A (I * S))
    (inner : gen I B R) (st : I * S) : gen I A (I * S) :=
  match inner with
  | Ret _ => Ret st
  | Raise e => Raise e
  | Yield b k => do* st' := body st b in gforgen body (k (fst st')) st'
  end.

(** Consuming a generator completely without changing the shared object [i]:
    all yielded values and how it ended. *)
Fixpoint gyields {I A R} (g : gen I A R) (i : I) : list A :=
  match g with
  | Ret _ => []
  | Yield a k => a :: gyields (k i) i
  | Raise _ => []
  end.
Fixpoint gresult {I A R} (g : gen I A R) (i : I) : res R :=
  match g with
  | Ret r => Ok r
  | Yield _ k => gresult (k i) i
  | Raise e => Err e
  end.

(** [list(g)] *)
Definition glist {I A R} (g : gen I A R) (i : I) : res (list A) :=
  let* _ := gresult g i in Ok (gyields g i).

(** [next(g)] for a closed generator: the value and the rest of the generator. *)
Definition gnext {A R} (g : gen unit A R) : res (A * gen unit A R) :=
  match g with
  | Ret _ => Err StopIteration
  | Yield a k => Ok (a, k tt)
  | Raise e => Err e
  end.
