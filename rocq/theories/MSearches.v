(** Several searches at the same time: a program that creates, copies and changes sudokus, calls bruteforce()
    and dlx() any number of times and calls next() on the generators it got in any order (MHeapSolve.v has
    one generator only).  Calling a generator function executes nothing; the body starts at the first next(). *)
From Verif Require Export MHeapSolve.

(** solve.py:64 and 78: the two generator functions, with the orders in which sets are enumerated *)
Inductive method : Type :=
| UseBruteforce (ord : sudoku -> zset -> list Z)
| UseDlx (ord : list xrow -> list xrow -> list xrow).

(** solve.py:64-100: the body of the generator, started on the object [r] *)
Definition h_search (m : method) (hp : heap) (r : nat) : gen heap (nat * heap) heap :=
  match m with
  | UseBruteforce ord => h_bruteforce ord hp r
  | UseDlx ord => h_dlx ord hp r
  end.

(** Statements of the program (sudoku.py:51-67, 124-142, 188-201, 231-252; solve.py:64-100): generators are
    numbered in the order of the calls, sudokus in the order in which the program got them. *)
Inductive mop : Type :=
| MOp (o : hop)
| MSearch (m : method) (i : nat)
| MNext (j : nat).

(** solve.py:64-100: a generator object: not started (it holds its argument), suspended, or at its end *)
Inductive search : Type :=
| Fresh (m : method) (r : nat)
| Suspended (k : heap -> gen heap (nat * heap) heap)
| Ended.

(** The heap, the references to the sudokus the program knows, its generators, and what was delivered (the
    number of the generator and what the sudoku contained then) (solve.py:64-100) *)
Record mstate : Type := mkM {
  m_heap : heap;
  m_objs : list nat;
  m_searches : list search;
  m_log : list (nat * option sudoku)
}.

(** solve.py:64-100: the generator runs until it yields, returns or raises; [None]: it has ended before *)
Definition resume (hp : heap) (s : search) : option (gen heap (nat * heap) heap) :=
  match s with
  | Fresh m r => Some (h_search m hp r)
  | Suspended k => Some (k hp)
  | Ended => None
  end.

(** One statement (solve.py:64-100).  next() on a generator at its end raises StopIteration and changes nothing.
    If the body raises an exception, its working copy is lost; the heap of the model is then that before next(). *)
Definition m_step (st : mstate) (op : mop) : mstate :=
  match op with
  | MOp o =>
      let (hp, objs) := h_step (m_heap st, m_objs st) o in
      mkM hp objs (m_searches st) (m_log st)
  | MSearch m i =>
      match nth_error (m_objs st) i with
      | Some r => mkM (m_heap st) (m_objs st) (m_searches st ++ [Fresh m r]) (m_log st)
      | None => st
      end
  | MNext j =>
      match nth_error (m_searches st) j with
      | None => st
      | Some s =>
          match resume (m_heap st) s with
          | None => st
          | Some (Yield (c, hp) k) =>
              mkM hp (m_objs st ++ [c]) (list_upd j (Suspended k) (m_searches st)) (m_log st ++ [(j, h_contents hp c)])
          | Some (Ret hp) => mkM hp (m_objs st) (list_upd j Ended (m_searches st)) (m_log st)
          | Some (Raise _) => mkM (m_heap st) (m_objs st) (list_upd j Ended (m_searches st)) (m_log st)
          end
      end
  end.

(** The whole program (solve.py:64-100) *)
Definition m_run (ops : list mop) : mstate := fold_left m_step ops (mkM [] [] [] []).
