(** Model of the texts of solve steps: sudokutools/solvers.py, __repr__ and __str__. *)
From Verif Require Export MSolvers PyStr.

(** solvers.py:122, 176, 194, 225, 303-306, 371-374, 462-463, 530-532: __class__.__name__.  [solver] does not
    distinguish NakedTuple and NakedPair (both n = 2), nor the other bases; the names are those of the members of
    SOLVERS, the other values of n (classes made by a user, whose names are arbitrary) get the name of the base. *)
Definition class_name (cls : solver) : pystr :=
  match cls with
  | CalculateCandidates => lit "CalculateCandidates"
  | NakedSingle => lit "NakedSingle"
  | HiddenSingle => lit "HiddenSingle"
  | NakedTuple 2 => lit "NakedPair"
  | NakedTuple 3 => lit "NakedTriple"
  | NakedTuple 4 => lit "NakedQuad"
  | NakedTuple 5 => lit "NakedQuint"
  | NakedTuple _ => lit "NakedTuple"
  | HiddenTuple 2 => lit "HiddenPair"
  | HiddenTuple 3 => lit "HiddenTriple"
  | HiddenTuple 4 => lit "HiddenQuad"
  | HiddenTuple 5 => lit "HiddenQuint"
  | HiddenTuple _ => lit "HiddenTuple"
  | PointingTuple 2 => lit "PointingPair"
  | PointingTuple 3 => lit "PointingTriple"
  | PointingTuple _ => lit "PointingTuple"
  | BasicFish 2 => lit "XWing"
  | BasicFish 3 => lit "Swordfish"
  | BasicFish 4 => lit "Jellyfish"
  | BasicFish _ => lit "BasicFish"
  | Bruteforce => lit "Bruteforce"
  end.

(** solvers.py:83-84, 87-88, 154-155: "%s" of a tuple, given the repr of its items; one item gets a comma *)
Definition tuple_text {A} (item : A -> pystr) (l : list A) : pystr :=
  match l with
  | [x] => lit "(" ++ item x ++ lit ",)"
  | _ => lit "(" ++ join (lit ", ") (map item l) ++ lit ")"
  end.
(** solvers.py:83-84, 87-88, 154-155: "%s" of a pair of ints *)
Definition coord_text (p : coord) : pystr :=
  lit "(" ++ str_of_int (fst p) ++ lit ", " ++ str_of_int (snd p) ++ lit ")".

(** solvers.py:141-173: the subclasses of _SingleFieldStep *)
Definition single_field (cls : solver) : bool :=
  match cls with NakedSingle | HiddenSingle | Bruteforce => true | _ => false end.

(** solvers.py:82-84 SolveStep.__repr__ and 148-151 _SingleFieldStep.__repr__ *)
Definition step_repr (st : step) : res pystr :=
  if single_field (st_class st) then
    let* p := list_get (clues st) 0 in
    let* v := list_get (values st) 0 in
    Ok (class_name (st_class st) ++ lit "(" ++ str_of_int (fst p) ++ lit ", " ++ str_of_int (snd p) ++
        lit ", " ++ str_of_int v ++ lit ")")
  else
    Ok (class_name (st_class st) ++ lit "(" ++ tuple_text coord_text (clues st) ++ lit ", " ++
        tuple_text coord_text (affected st) ++ lit ", " ++ tuple_text str_of_int (values st) ++ lit ")").

(** solvers.py:86-88 SolveStep.__str__ and 153-155 _SingleFieldStep.__str__ *)
Definition step_str (st : step) : res pystr :=
  if single_field (st_class st) then
    let* p := list_get (clues st) 0 in
    let* v := list_get (values st) 0 in
    Ok (class_name (st_class st) ++ lit " at " ++ coord_text p ++ lit ": " ++ str_of_int v)
  else
    Ok (class_name (st_class st) ++ lit " at " ++ tuple_text coord_text (clues st) ++ lit ": " ++
        tuple_text str_of_int (values st)).
