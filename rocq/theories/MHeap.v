(** Model of class Sudoku (sudokutools/sudoku.py) with explicit objects: lists and
    Sudoku instances live in a heap and are used by reference, so that it is visible
    which of them are shared.  (Integers, tuples and frozensets are immutable.)
    The other files use the model of MSudoku.v, in which a sudoku is a value;
    theorem C05 relates the two. *)
From Verif Require Export MSudoku.

(** An object of the heap; a reference is its position. (sudoku.py:58-67) *)
Inductive cell_obj : Type :=
| CNums (l : list Z)          (* a list of numbers: a row of self.__numbers *)
| CCands (l : list zset)      (* a list of frozensets: a row of self.__candidates *)
| CRefs (l : list nat)        (* a list of lists *)
| CSudoku (w h : Z) (nums cands : nat).  (* a Sudoku instance: box size, __numbers, __candidates *)

(** sudoku.py:51-67: the objects created so far *)
Definition heap : Type := list cell_obj.

(** Allocation of a new object (sudoku.py:65-67) *)
Definition alloc (hp : heap) (c : cell_obj) : nat * heap := (length hp, hp ++ [c]).

(** Access by reference.  An object of the wrong kind cannot occur (Err AttributeError). (sudoku.py:186, 201, 229, 240, 252) *)
Definition deref_refs (hp : heap) (a : nat) : res (list nat) :=
  match nth_error hp a with Some (CRefs l) => Ok l | _ => Err AttributeError end.
(** sudoku.py:186, 201: a row of self.__numbers *)
Definition deref_nums (hp : heap) (a : nat) : res (list Z) :=
  match nth_error hp a with Some (CNums l) => Ok l | _ => Err AttributeError end.
(** sudoku.py:229, 240, 252: a row of self.__candidates *)
Definition deref_cands (hp : heap) (a : nat) : res (list zset) :=
  match nth_error hp a with Some (CCands l) => Ok l | _ => Err AttributeError end.
(** sudoku.py:58-67: the attributes of an instance *)
Definition deref_sudoku (hp : heap) (a : nat) : res (Z * Z * nat * nat) :=
  match nth_error hp a with Some (CSudoku w h n c) => Ok (w, h, n, c) | _ => Err AttributeError end.

(** [[x for _ in ind]] where the evaluation of x allocates a new list (sudoku.py:65-67) *)
Fixpoint alloc_rows (hp : heap) (c : cell_obj) (ind : list Z) : list nat * heap :=
  match ind with
  | [] => ([], hp)
  | _ :: t => let (a, hp) := alloc hp c in
              let (l, hp) := alloc_rows hp c t in
              (a :: l, hp)
  end.

(** sudoku.py:51-67 __init__ *)
Definition h_new (hp : heap) (box_size : Z * Z) : nat * heap :=
  let (w, h) := box_size in
  let ind := py_range (w * h) in
  let (rows, hp) := alloc_rows hp (CNums (repeat 0 (length ind))) ind in
  let (nums, hp) := alloc hp (CRefs rows) in
  let (crows, hp) := alloc_rows hp (CCands (repeat [] (length ind))) ind in
  let (cands, hp) := alloc hp (CRefs crows) in
  alloc hp (CSudoku w h nums cands).

(** sudoku.py:172-186 __getitem__ *)
Definition h_getitem (hp : heap) (self : nat) (row col : Z) : res Z :=
  let* (_, _, nums, _) := deref_sudoku hp self in
  let* rows := deref_refs hp nums in
  let* a := list_get rows row in
  let* r := deref_nums hp a in
  list_get r col.

(** sudoku.py:188-201 __setitem__: changes the row list in place *)
Definition h_setitem (hp : heap) (self : nat) (row col value : Z) : res heap :=
  let* (_, _, nums, _) := deref_sudoku hp self in
  let* rows := deref_refs hp nums in
  let* a := list_get rows row in
  let* r := deref_nums hp a in
  let* r' := list_set r col value in
  Ok (list_upd a (CNums r') hp).

(** sudoku.py:219-229 get_candidates *)
Definition h_get_candidates (hp : heap) (self : nat) (row col : Z) : res zset :=
  let* (_, _, _, cands) := deref_sudoku hp self in
  let* rows := deref_refs hp cands in
  let* a := list_get rows row in
  let* r := deref_cands hp a in
  list_get r col.

(** sudoku.py:231-240 set_candidates *)
Definition h_set_candidates (hp : heap) (self : nat) (row col : Z) (value : list Z) : res heap :=
  let* (_, _, _, cands) := deref_sudoku hp self in
  let* rows := deref_refs hp cands in
  let* a := list_get rows row in
  let* r := deref_cands hp a in
  let* r' := list_set r col (sof_list zcmp value) in
  Ok (list_upd a (CCands r') hp).

(** sudoku.py:242-252 remove_candidates; [x -= y] on a frozenset makes a new one *)
Definition h_remove_candidates (hp : heap) (self : nat) (row col : Z) (value : list Z) : res heap :=
  let* (_, _, _, cands) := deref_sudoku hp self in
  let* rows := deref_refs hp cands in
  let* a := list_get rows row in
  let* r := deref_cands hp a in
  let* old := list_get r col in
  let* r' := list_set r col (sdiff zcmp old (sof_list zcmp value)) in
  Ok (list_upd a (CCands r') hp).

(** sudoku.py:69-75 __iter__ *)
Definition h_coords (w h : Z) : list coord := list_prod (py_range (w * h)) (py_range (w * h)).

(** sudoku.py:124-142 copy *)
Definition h_copy (hp : heap) (self : nat) (include_candidates : bool) : res (nat * heap) :=
  let* (w, h, _, _) := deref_sudoku hp self in
  let (new, hp) := h_new hp (w, h) in
  let* hp := foldM (fun hp rc =>
               let* v := h_getitem hp self (fst rc) (snd rc) in
               h_setitem hp new (fst rc) (snd rc) v) (h_coords w h) hp in
  let* hp := if include_candidates then
               foldM (fun hp rc =>
                 let* c := h_get_candidates hp self (fst rc) (snd rc) in
                 h_set_candidates hp new (fst rc) (snd rc) c) (h_coords w h) hp
             else Ok hp in
  Ok (new, hp).

(** A program that creates, copies and changes sudokus; objects are numbered in the
    order of their creation.  A statement that raises an exception has no effect
    (all of them raise before the first change). (sudoku.py:51-67, 124-142, 188-201, 231-252) *)
Inductive hop : Type :=
| ONew (box_size : Z * Z)
| OCopy (i : nat) (include_candidates : bool)
| OSet (i : nat) (row col value : Z)
| OSetC (i : nat) (row col : Z) (value : list Z)
| ORemC (i : nat) (row col : Z) (value : list Z).

(** The heap and the references to the objects. (sudoku.py:51-67, 124-142) *)
Definition hstate : Type := (heap * list nat)%type.
(** sudoku.py:188-201, 231-252: a method that changes the object number [i] *)
Definition h_update (st : hstate) (r : res heap) : hstate :=
  match r with Ok hp => (hp, snd st) | Err _ => st end.
(** sudoku.py:51-67, 124-142, 188-201, 231-252: one statement of the program *)
Definition h_step (st : hstate) (o : hop) : hstate :=
  let (hp, objs) := st in
  match o with
  | ONew b => let (a, hp) := h_new hp b in (hp, objs ++ [a])
  | OCopy i inc =>
      match nth_error objs i with
      | Some a => match h_copy hp a inc with
                  | Ok (b, hp) => (hp, objs ++ [b])
                  | Err _ => st
                  end
      | None => st
      end
  | OSet i r c v => match nth_error objs i with Some a => h_update st (h_setitem hp a r c v) | None => st end
  | OSetC i r c v => match nth_error objs i with Some a => h_update st (h_set_candidates hp a r c v) | None => st end
  | ORemC i r c v => match nth_error objs i with Some a => h_update st (h_remove_candidates hp a r c v) | None => st end
  end.
(** sudoku.py:51-67, 124-142, 188-201, 231-252: the whole program *)
Definition h_run (ops : list hop) : hstate := fold_left h_step ops ([], []).

(** Everything that can be read from an object: the box size, the numbers and the
    candidates (None: the heap is broken). (sudoku.py:186, 229) *)
Definition deref_all {A} (f : nat -> res A) (l : list nat) : option (list A) :=
  match mapM f l with Ok l => Some l | Err _ => None end.
(** sudoku.py:186, 229: the contents of all objects *)
Definition h_contents (hp : heap) (self : nat) : option sudoku :=
  match deref_sudoku hp self with
  | Ok (w, h, n, c) =>
      match deref_refs hp n, deref_refs hp c with
      | Ok ns, Ok cs =>
          match deref_all (deref_nums hp) ns, deref_all (deref_cands hp) cs with
          | Some a, Some b => Some (mkSudoku w h a b)
          | _, _ => None
          end
      | _, _ => None
      end
  | Err _ => None
  end.

(** The same program with sudokus as values. (sudoku.py:188-201, 231-252) *)
Definition v_update (st : list sudoku) (i : nat) (r : res sudoku) : list sudoku :=
  match r with Ok s => list_upd i s st | Err _ => st end.
(** sudoku.py:51-67, 124-142, 188-201, 231-252: one statement, with sudokus as values *)
Definition v_step (st : list sudoku) (o : hop) : list sudoku :=
  match o with
  | ONew b => st ++ [new_sudoku b]
  | OCopy i inc =>
      match nth_error st i with
      | Some s => match copy s inc with Ok t => st ++ [t] | Err _ => st end
      | None => st
      end
  | OSet i r c v => match nth_error st i with Some s => v_update st i (setitem s r c v) | None => st end
  | OSetC i r c v => match nth_error st i with Some s => v_update st i (set_candidates s r c v) | None => st end
  | ORemC i r c v => match nth_error st i with Some s => v_update st i (remove_candidates s r c v) | None => st end
  end.
(** sudoku.py:51-67, 124-142, 188-201, 231-252: the program, with sudokus as values *)
Definition v_run (ops : list hop) : list sudoku := fold_left v_step ops [].
