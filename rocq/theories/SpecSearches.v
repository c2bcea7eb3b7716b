(** What a program with several searches should do, with sudokus as values: a search looks at its argument
    once, when next() is called for the first time; from then on it is a list of solutions that are handed
    over one after the other. *)
From Coq Require Import Permutation.
From Verif Require Import MSearches Spec.

(** The solutions one search delivers for the sudoku [s] if nothing else happens *)
Definition alone (m : method) (s : sudoku) : list sudoku :=
  match m with
  | UseBruteforce ord => gyields (bruteforce ord s) tt
  | UseDlx ord => gyields (dlx ord s) tt
  end.

(** A search: not started, for the sudoku number [i], or the solutions still to come *)
Inductive vsearch : Type :=
| VFresh (m : method) (i : nat)
| VLeft (sols : list sudoku).

Record vstate : Type := mkV {
  v_objs : list sudoku;
  v_searches : list vsearch;
  v_log : list (nat * sudoku)
}.

Definition to_come (objs : list sudoku) (s : vsearch) : list sudoku :=
  match s with
  | VFresh m i => match nth_error objs i with Some x => alone m x | None => [] end
  | VLeft sols => sols
  end.

Definition vm_step (st : vstate) (op : mop) : vstate :=
  match op with
  | MOp o => mkV (v_step (v_objs st) o) (v_searches st) (v_log st)
  | MSearch m i =>
      match nth_error (v_objs st) i with
      | Some _ => mkV (v_objs st) (v_searches st ++ [VFresh m i]) (v_log st)
      | None => st
      end
  | MNext j =>
      match nth_error (v_searches st) j with
      | None => st
      | Some s =>
          match to_come (v_objs st) s with
          | x :: sols => mkV (v_objs st ++ [x]) (list_upd j (VLeft sols) (v_searches st)) (v_log st ++ [(j, x)])
          | [] => mkV (v_objs st) (list_upd j (VLeft []) (v_searches st)) (v_log st)
          end
      end
  end.

Definition vm_run (ops : list mop) : vstate := fold_left vm_step ops (mkV [] [] []).

(** What search number [j] has delivered *)
Definition delivered {A} (j : nat) (log : list (nat * A)) : list A :=
  map snd (filter (fun x => Nat.eqb (fst x) j) log).

(** How often the program calls next() on search number [j] *)
Definition nexts (j : nat) (ops : list mop) : nat :=
  length (filter (fun op => match op with MNext k => Nat.eqb k j | _ => false end) ops).

(** The orders in which sets are enumerated contain every element once. *)
Definition fair (m : method) : Prop :=
  match m with
  | UseBruteforce ord => forall t l, Permutation (ord t l) l
  | UseDlx ord => forall p l, Permutation (ord p l) l
  end.

(** What the search looks for (the same if no number of [s] is outside of 0..width*height) *)
Definition goal (m : method) (s : sudoku) : grid -> Prop :=
  match m with
  | UseBruteforce _ => completion s
  | UseDlx _ => solution s
  end.
