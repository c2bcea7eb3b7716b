(** Property C89: the texts of solve steps.  Statements use only the model functions and the specification files;
    the proofs are in the L*.v files. *)
From Verif Require Import SpecText LSolvers5 LStepText LStepText2 LCheck PSolvers.

(** C89: the repr of a step determines the class and the attributes, for any two steps with the attributes of their classes. *)
Theorem C89_repr : forall a b t, made a -> made b -> step_repr a = Ok t -> step_repr b = Ok t ->
  st_class a = st_class b /\ key a = key b.
Proof. exact repr_inj. Qed.
Print Assumptions C89_repr.

Example C89_repr_ex : let a := mkStep (NakedTuple 2) [(0, 0); (1, 0)] [(0, 1)] [1; 2] [] in
  made a /\ step_repr a = Ok (lit "NakedPair(((0, 0), (1, 0)), ((0, 1),), (1, 2))") /\
  made (mkStep Bruteforce [(7, 8)] [(7, 8)] [3] []) /\
  step_repr (mkStep Bruteforce [(7, 8)] [(7, 8)] [3] []) = Ok (lit "Bruteforce(7, 8, 3)").
Proof.
  cbv zeta. unfold made. split; [split; [vm_compute; tauto|discriminate]|]. split; [vm_compute; reflexivity|].
  split; [|vm_compute; reflexivity]. split; [vm_compute; tauto|]. intros _. exists (7, 8), 3. repeat split.
Qed.

(** C89: the str of a step determines the class, the clues and the values (not the affected fields). *)
Theorem C89_str : forall a b t, made a -> made b -> step_str a = Ok t -> step_str b = Ok t ->
  st_class a = st_class b /\ clues a = clues b /\ values a = values b.
Proof. exact str_inj. Qed.
Print Assumptions C89_str.

Example C89_str_ex : let a := mkStep (NakedTuple 2) [(0, 0); (1, 0)] [(0, 1)] [1; 2] [] in
  let b := mkStep (NakedTuple 2) [(0, 0); (1, 0)] [(1, 1)] [1; 2] [] in
  made a /\ made b /\ key a <> key b /\ step_str a = step_str b /\
  step_str a = Ok (lit "NakedPair at ((0, 0), (1, 0)): (1, 2)").
Proof.
  cbv zeta. unfold made. split; [split; [vm_compute; tauto|discriminate]|].
  split; [split; [vm_compute; tauto|discriminate]|]. split; [discriminate|]. split; vm_compute; reflexivity.
Qed.

(** C89: str and repr of the steps found in one sudoku never fail, and each of them tells steps of one class apart. *)
Theorem C89_text : forall o cls s ys, oracle_ok o -> wf s -> In cls SOLVERS -> all_steps o cls s ys ->
  (forall a, In a ys -> exists t u, step_str a = Ok t /\ step_repr a = Ok u) /\
  (forall a b, In a ys -> In b ys -> step_str a = step_str b -> key a = key b) /\
  (forall a b, In a ys -> In b ys -> step_repr a = step_repr b -> key a = key b).
Proof. exact C89_text_proof. Qed.
Print Assumptions C89_text.

Example C89_text_ex : map step_str (gyields (MSolvers.find o_ex NakedSingle ex4i) ex4i) =
    map Ok [lit "NakedSingle at (0, 2): 3"; lit "NakedSingle at (1, 1): 4"; lit "NakedSingle at (2, 1): 1"; lit "NakedSingle at (3, 2): 2"] /\
  map step_str (gyields (MSolvers.find o_ex (NakedTuple 2) tup4i) tup4i) =
    map Ok [lit "NakedPair at ((2, 1), (3, 1)): (1, 2)"; lit "NakedPair at ((0, 0), (1, 0)): (1, 2)"].
Proof. split; vm_compute; reflexivity. Qed.

(** C89: the texts start with the names of the classes in SOLVERS. *)
Theorem C89_names : map class_name SOLVERS =
  [lit "CalculateCandidates"; lit "NakedSingle"; lit "HiddenSingle"; lit "NakedPair"; lit "HiddenPair";
   lit "NakedTriple"; lit "HiddenTriple"; lit "NakedQuad"; lit "HiddenQuad"; lit "NakedQuint";
   lit "HiddenQuint"; lit "PointingPair"; lit "PointingTriple"; lit "XWing"; lit "Swordfish";
   lit "Jellyfish"; lit "Bruteforce"] /\
  forall a, In (st_class a) SOLVERS -> forall t u, step_str a = Ok t -> step_repr a = Ok u ->
    (exists t', t = class_name (st_class a) ++ lit " at " ++ t') /\ (exists u', u = class_name (st_class a) ++ lit "(" ++ u').
Proof.
  split; [vm_compute; reflexivity|]. intros a _ t u Et Eu. unfold step_str in Et. unfold step_repr in Eu.
  destruct (single_field (st_class a)).
  - destruct (list_get (clues a) 0) as [p|]; [|discriminate]. destruct (list_get (values a) 0) as [v|]; [|discriminate].
    cbn [rbind] in *. injection Et as <-. injection Eu as <-. split; eexists; reflexivity.
  - injection Et as <-. injection Eu as <-. split; eexists; reflexivity.
Qed.
Print Assumptions C89_names.

(** C89: two hints for one sudoku with the same text are the same step. *)
Theorem C89_hints : forall o s ys, oracle_ok o -> wf s -> glist (hints o s) s = Ok ys ->
  (forall a, In a ys -> exists t, step_str a = Ok t) /\
  (forall a b, In a ys -> In b ys -> step_str a = step_str b -> st_class a = st_class b /\ key a = key b).
Proof. exact C89_hints_proof. Qed.
Print Assumptions C89_hints.

Example C89_hints_ex : match glist (hints o_ex tup4i) tup4i with Ok ys => map step_str ys | Err _ => [] end =
  map Ok [lit "NakedPair at ((2, 1), (3, 1)): (1, 2)"; lit "NakedPair at ((0, 0), (1, 0)): (1, 2)";
    lit "HiddenPair at ((0, 1), (1, 1), (2, 1), (3, 1)): (3, 4)"; lit "HiddenPair at ((0, 1), (1, 1), (2, 1), (3, 1)): (3, 4)";
    lit "HiddenPair at ((0, 0), (0, 1), (1, 0), (1, 1)): (3, 4)"; lit "HiddenPair at ((0, 0), (0, 1), (1, 0), (1, 1)): (3, 4)";
    lit "PointingPair at ((2, 1), (3, 1)): (1,)"; lit "PointingPair at ((2, 1), (3, 1)): (2,)";
    lit "PointingPair at ((0, 0), (1, 0)): (1,)"; lit "PointingPair at ((0, 0), (1, 0)): (2,)"].
Proof. vm_compute. reflexivity. Qed.
