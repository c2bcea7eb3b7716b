(** Specification of what applying a solve step does. *)
From Verif Require Export Spec MSolvers.

(** Class, clues, affected fields and values of the steps agree; only the recorded actions may differ. *)
Definition same_step (a b : step) : Prop :=
  st_class a = st_class b /\ clues a = clues b /\ affected a = affected b /\ values a = values b.

(** The step has what its class needs, and only mentions fields of sudokus with these boxes. *)
Definition applicable (w h : Z) (st : step) : Prop :=
  match st_class st with
  | CalculateCandidates => exists p l, clues st = p :: l /\ cell w h p
  | NakedSingle | HiddenSingle | Bruteforce =>
      exists p l v l', affected st = p :: l /\ values st = v :: l' /\ cell w h p
  | PointingTuple _ => values st <> [] /\ forall p, In p (affected st) -> cell w h p
  | NakedTuple _ | HiddenTuple _ | BasicFish _ => forall p, In p (affected st) -> cell w h p
  end.

(** The step, with actions chosen for [s0], takes candidate [x] from field [q]. *)
Definition drops (w h : Z) (st : step) (s0 : sudoku) (q : coord) (x : Z) : Prop :=
  match st_class st with
  | CalculateCandidates => False
  | NakedSingle | HiddenSingle | Bruteforce =>
      (exists p l, affected st = p :: l /\ peers w h p q) /\ (exists l, values st = x :: l) /\ In x (cand s0 q)
  | NakedTuple _ => In q (affected st) /\ In x (values st) /\ In x (cand s0 q)
  | HiddenTuple _ => In q (affected st) /\ ~ In x (values st) /\ In x (cand s0 q)
  | PointingTuple _ | BasicFish _ => In q (affected st) /\ In x (values st)
  end.

(** The step writes the number [v] into [q]; it replaces the candidates of [q] by [vs]. *)
Definition puts (st : step) (q : coord) (v : Z) : Prop :=
  match st_class st with
  | NakedSingle | HiddenSingle | Bruteforce => exists l l', affected st = q :: l /\ values st = v :: l'
  | _ => False
  end.
Definition replaces (st : step) (q : coord) (vs : list Z) : Prop :=
  match st_class st with
  | CalculateCandidates => exists l, clues st = q :: l /\ vs = values st
  | NakedSingle | HiddenSingle | Bruteforce => exists l v l', affected st = q :: l /\ values st = v :: l' /\ vs = [v]
  | _ => False
  end.

(** [t] is [s] after the step [st], whose actions were chosen for [s0]. *)
Definition applied (w h : Z) (st : step) (s0 s t : sudoku) : Prop :=
  wf t /\ box_width t = w /\ box_height t = h /\
  (forall q v, cell w h q -> puts st q v -> num t q = v) /\
  (forall q, cell w h q -> (forall v, ~ puts st q v) -> num t q = num s q) /\
  (forall q vs x, cell w h q -> replaces st q vs -> (In x (cand t q) <-> In x vs)) /\
  (forall q x, cell w h q -> (forall vs, ~ replaces st q vs) -> (In x (cand t q) <-> In x (cand s q) /\ ~ drops w h st s0 q x)).
