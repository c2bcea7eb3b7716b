(** Properties C05: independence of copies.  Statements use only the model functions and the
    specification files; the proofs are in the L*.v files. *)
From Verif Require Import LHeap.

(** C05: every program that creates, copies and changes sudokus reads from the objects of the heap what it would compute with values; in particular the value model of the other files is justified. *)
Theorem C05_objects_are_values : forall ops, map (h_contents (fst (h_run ops))) (snd (h_run ops)) = map Some (v_run ops).
Proof. exact h_run_values. Qed.
Print Assumptions C05_objects_are_values.

(** C05: the objects are distinct. *)
Theorem C05_distinct : forall ops, NoDup (snd (h_run ops)).
Proof. exact h_run_distinct. Qed.
Print Assumptions C05_distinct.

(** C05: a write changes only the object it names, whatever was copied from what. *)
Theorem C05_other_objects : forall ops ops' j, content (h_run ops) j <> None -> (forall op, In op ops' -> writes op <> Some j) ->
  content (h_run (ops ++ ops')) j = content (h_run ops) j.
Proof. exact writes_other. Qed.
Print Assumptions C05_other_objects.

(** C05: after b = a.copy(...), no sequence of statements without a write to a changes what can be read from a, and the same for b. *)
Theorem C05_copy_independent : forall ops i inc a b ops',
  content (h_run ops) i = Some a -> copy a inc = Ok b ->
  let n := length (snd (h_run ops)) in
  let pre := ops ++ [OCopy i inc] in
  content (h_run pre) i = Some a /\ content (h_run pre) n = Some b /\
  ((forall op, In op ops' -> writes op <> Some i) -> content (h_run (pre ++ ops')) i = Some a) /\
  ((forall op, In op ops' -> writes op <> Some n) -> content (h_run (pre ++ ops')) n = Some b).
Proof. exact copy_independent. Qed.
Print Assumptions C05_copy_independent.

(** Object 0 is set, copied to object 1, and then both are changed. *)
Definition C05_prog : list hop :=
  [ONew (2, 2); OSet 0 1 2 3; OSetC 0 0 0 [1; 4]; OCopy 0 true; OSet 1 1 2 4; ORemC 1 0 0 [1]; OSet 0 3 3 1].
Example C05_ex : exists a b, content (h_run C05_prog) 0 = Some a /\ content (h_run C05_prog) 1 = Some b /\
  getitem a 1 2 = Ok 3 /\ getitem b 1 2 = Ok 4 /\ getitem a 3 3 = Ok 1 /\ getitem b 3 3 = Ok 0 /\
  get_candidates a 0 0 = Ok [1; 4] /\ get_candidates b 0 0 = Ok [4].
Proof. eexists _, _. splits; [> vm_compute; reflexivity ..]. Qed.
