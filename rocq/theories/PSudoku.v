(** Properties C01-C04 and C06-C08: the Sudoku class.  Statements use only the model functions and Spec.v; the
    proofs are in the L*.v files. *)
From Verif Require Import LSudoku2 LCheck.

(** C01: a write changes exactly one field; IndexError exactly for bad indices. *)
Theorem C01_write_one_field : forall s r c v, wf s ->
  (valid_index s r /\ valid_index s c ->
   exists s', setitem s r c v = Ok s' /\
     getitem s' r c = Ok v /\
     box_width s' = box_width s /\ box_height s' = box_height s /\
     (forall r' c', ~ same_place s r c r' c' -> getitem s' r' c' = getitem s r' c') /\
     (forall r' c', get_candidates s' r' c' = get_candidates s r' c')) /\
  (~ (valid_index s r /\ valid_index s c) ->
   setitem s r c v = Err IndexError /\ getitem s r c = Err IndexError).
Proof. exact C01_proof. Qed.
Print Assumptions C01_write_one_field.

Example C01_ex : wf ex4 /\ valid_index ex4 (-1) /\ valid_index ex4 2 /\
  ~ same_place ex4 (-1) 2 0 2 /\ same_place ex4 (-1) 2 3 2 /\ ~ valid_index ex4 4.
Proof. unfold valid_index, same_place; split; [apply ex4_wf | vm_compute; intuition congruence]. Qed.

(** C02: set_candidates and remove_candidates. *)
Theorem C02_candidate_writes : forall s r c vs, wf s ->
  (valid_index s r /\ valid_index s c ->
   exists s1 s2 c0 c1 c2,
     get_candidates s r c = Ok c0 /\
     set_candidates s r c vs = Ok s1 /\ get_candidates s1 r c = Ok c1 /\
     (forall x, In x c1 <-> In x vs) /\ StronglySorted Z.lt c1 /\
     remove_candidates s r c vs = Ok s2 /\ get_candidates s2 r c = Ok c2 /\
     (forall x, In x c2 <-> In x c0 /\ ~ In x vs) /\ StronglySorted Z.lt c2 /\
     (forall s', s' = s1 \/ s' = s2 ->
        box_width s' = box_width s /\ box_height s' = box_height s /\
        (forall r' c', ~ same_place s r c r' c' -> get_candidates s' r' c' = get_candidates s r' c') /\
        (forall r' c', getitem s' r' c' = getitem s r' c'))) /\
  (~ (valid_index s r /\ valid_index s c) ->
   set_candidates s r c vs = Err IndexError /\ remove_candidates s r c vs = Err IndexError /\
   get_candidates s r c = Err IndexError).
Proof. exact C02_proof. Qed.
Print Assumptions C02_candidate_writes.

Example C02_ex : exists s1 s2, set_candidates ex4 0 0 [4; 1; 4] = Ok s1 /\
  get_candidates s1 0 0 = Ok [1; 4] /\ remove_candidates s1 (-4) 0 [4; 3] = Ok s2 /\
  get_candidates s2 0 0 = Ok [1].
Proof. do 2 eexists; repeat split; [> vm_compute; reflexivity ..]. Qed.

(** C03: a new sudoku. *)
Theorem C03_new_sudoku : forall w h, 1 <= w -> 1 <= h ->
  wf (new_sudoku (w, h)) /\ box_size (new_sudoku (w, h)) = (w, h) /\
  sudoku_len (new_sudoku (w, h)) = w ^ 2 * h ^ 2 /\
  (forall r c, cell w h (r, c) ->
     getitem (new_sudoku (w, h)) r c = Ok 0 /\ get_candidates (new_sudoku (w, h)) r c = Ok []).
Proof. exact C03_new_proof. Qed.
Print Assumptions C03_new_sudoku.

(** C03: every history of writes, failing ones included, keeps the object well formed. *)
Theorem C03_history : forall w h (ops : list write), 1 <= w -> 1 <= h ->
  let s := fold_left do_write ops (new_sudoku (w, h)) in
  wf s /\ box_size s = (w, h) /\
  (forall r c, (exists v, getitem s r c = Ok v) <-> valid_index s r /\ valid_index s c).
Proof. exact C03_history_proof. Qed.
Print Assumptions C03_history.

Example C03_ex : let s := fold_left do_write [WSet 0 5 3; WSet 1 9 4; WSetCands 2 2 [3; 1]; WRemoveCands 2 2 [3]]
    (new_sudoku (3, 2)) in
  getitem s 0 5 = Ok 3 /\ getitem s 1 9 = Err IndexError /\ get_candidates s 2 2 = Ok [1].
Proof. vm_compute; auto. Qed.

(** C04: copy(). *)
Theorem C04_copy : forall s, wf s ->
  exists t t', copy s false = Ok t /\ copy s true = Ok t' /\
    wf t /\ wf t' /\
    box_size t = box_size s /\ box_size t' = box_size s /\
    (forall r c, field s (r, c) ->
       getitem t r c = getitem s r c /\ getitem t' r c = getitem s r c /\
       get_candidates t r c = Ok [] /\ get_candidates t' r c = get_candidates s r c).
Proof. exact C04_proof. Qed.
Print Assumptions C04_copy.

Example C04_ex : wf ex6 /\ copy ex6 false = Ok ex6.
Proof. split; [apply ex6_wf | vm_compute; reflexivity]. Qed.

(** C06: diff(), == and equals().  The hypothesis says that both have the same number of rows. *)
Theorem C06_comparison : forall a b, wf a -> wf b -> NN a = NN b ->
  exists d e q qn, glist (diff a b) a = Ok d /\ sudoku_eq a b = Ok e /\
    equals a b true = Ok q /\ equals a b false = Ok qn /\
    StronglySorted lex_lt d /\
    (forall p, In p d <-> field a p /\ num a p <> num b p) /\
    (e = true <-> d = []) /\
    (e = true <-> forall p, field a p -> num a p = num b p) /\
    (q = true <-> forall p, field a p -> num a p = num b p /\ cand a p = cand b p) /\
    qn = e.
Proof. exact C06_proof. Qed.
Print Assumptions C06_comparison.

Example C06_ex : wf ex4 /\ wf ex4sol /\ sudoku_eq ex4 ex4sol = Ok false /\ sudoku_eq ex4 ex4 = Ok true /\
  glist (diff ex4 ex4m) ex4 = Ok [(0, 0); (0, 1); (1, 2); (1, 3); (2, 1); (2, 2); (3, 1)].
Proof. split; [apply ex4_wf|]. split; [apply ex4sol_wf|]. vm_compute; auto. Qed.

(** C07, the part that holds: == is symmetric for sudokus with the same number of rows. *)
Theorem C07_eq_symmetric_partial : forall a b, wf a -> wf b -> NN a = NN b -> sudoku_eq a b = sudoku_eq b a.
Proof. exact C07_partial_proof. Qed.
Print Assumptions C07_eq_symmetric_partial.

Example C07_ex : wf ex4 /\ wf ex4sol /\ NN ex4 = NN ex4sol /\ sudoku_eq ex4 ex4sol = Ok false /\ sudoku_eq ex4sol ex4 = Ok false /\
  NN (new_sudoku (2, 3)) = NN (new_sudoku (3, 2)) /\ sudoku_eq (new_sudoku (2, 3)) (new_sudoku (3, 2)) = Ok true.
Proof. split; [apply ex4_wf|]. split; [apply ex4sol_wf|]. repeat split; vm_compute; reflexivity. Qed.

(** C07 is false of the code in general. *)
Theorem C07_eq_symmetric_refuted : exists a b, wf a /\ wf b /\ sudoku_eq a b = Ok true /\ sudoku_eq b a = Ok false.
Proof. exact C07_refuted_proof. Qed.
Print Assumptions C07_eq_symmetric_refuted.

(** C08: empty(), filled() and count(). *)
Theorem C08_empty_filled : forall s, wf s ->
  exists e f n, glist (empty s) s = Ok e /\ glist (filled s) s = Ok f /\ count s = Ok n /\
    StronglySorted lex_lt e /\ StronglySorted lex_lt f /\
    (forall p, In p e <-> field s p /\ num s p = 0) /\
    (forall p, In p f <-> field s p /\ num s p <> 0) /\
    n = Z.of_nat (length f) /\
    Z.of_nat (length e) + n = sudoku_len s.
Proof. exact C08_proof. Qed.
Print Assumptions C08_empty_filled.

Example C08_ex : wf ex4 /\ glist (filled ex4) ex4 = Ok [(0, 1); (1, 2); (2, 2); (3, 1)] /\ count ex4 = Ok 4.
Proof. split; [apply ex4_wf | vm_compute; auto]. Qed.
