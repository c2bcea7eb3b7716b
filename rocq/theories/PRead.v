(** Property C107: what Sudoku.decode reads, for every text and all separators.  Statements use only
    the model functions and the specification in SpecRead.v, SpecDecode.v and SpecCodec.v. *)
From Verif Require Import LRead2.

(** C107: decode gives exactly the sudoku the text stands for. *)
Theorem C107_reads : forall s e ns ss cs size t, size_given_ok size ->
  (decode s e ns ss cs size = Ok t <-> stands_for s e ns ss cs size t \/ stands_for_nothing s e ns ss cs size t).
Proof. exact decode_reads. Qed.
Print Assumptions C107_reads.

(** C107: a text stands for at most one sudoku. *)
Theorem C107_unique : forall s e ns ss cs size t t', size_given_ok size ->
  stands_for s e ns ss cs size t -> stands_for s e ns ss cs size t' -> t = t'.
Proof.
  intros s e ns ss cs size t t' G A B. assert (X : Ok t = Ok t'); [|injection X as ->; auto].
  rewrite <- (proj2 (decode_reads s e ns ss cs size t G) (or_introl A)). apply decode_reads; auto.
Qed.
Print Assumptions C107_unique.

(** C107: IndexError, exactly if there are candidates but no fields. *)
Theorem C107_index_error : forall s e ns ss cs size, size_given_ok size ->
  (decode s e ns ss cs size = Err IndexError <-> only_candidates s e ns ss cs size).
Proof. exact decode_index. Qed.
Print Assumptions C107_index_error.

(** C107: ValueError for every other text. *)
Theorem C107_value_error : forall s e ns ss cs size, size_given_ok size ->
  (decode s e ns ss cs size = Err ValueError <->
   (forall t, ~ stands_for s e ns ss cs size t) /\ (forall t, ~ stands_for_nothing s e ns ss cs size t) /\ ~ only_candidates s e ns ss cs size).
Proof.
  intros s e ns ss cs size G. split.
  - intros E. split; [|split].
    + intros t X. pose proof (proj2 (decode_reads s e ns ss cs size t G) (or_introl X)). congruence.
    + intros t X. pose proof (proj2 (decode_reads s e ns ss cs size t G) (or_intror X)). congruence.
    + intros X. apply decode_index in X; auto. congruence.
  - intros [A [B C]]. destruct (decode s e ns ss cs size) as [t|x] eqn:E.
    + apply decode_reads in E; auto. destruct E as [E|E]; [destruct (A t E)|destruct (B t E)].
    + destruct (decode_fails s e ns ss cs size x G E) as [-> | ->]; auto. apply decode_index in E; auto. contradiction.
Qed.
Print Assumptions C107_value_error.

(** Examples: two rows of a 4x4 sudoku with blanks between them and candidates for two fields;
    numbers with a sign and two digits, a separator and another sign for empty fields; one field too few
    for a square; candidates only; nothing. *)
Definition read_ex1 : pystr := lit " 1234 3412" ++ [10] ++ lit "00000000 | 7 2,,53 ".
Definition decode_ex1 : sudoku := Eval vm_compute in
  match decode read_ex1 (lit "0") [] (lit "|") (lit ",") None with Ok t => t | Err _ => new_sudoku (0, 0) end.
Example read_ex1_ok : stands_for read_ex1 (lit "0") [] (lit "|") (lit ",") None decode_ex1 /\ box_size decode_ex1 = (2, 2) /\
  num decode_ex1 (1, 0) = 3 /\ cand decode_ex1 (0, 0) = [2; 7] /\ cand decode_ex1 (0, 1) = [] /\ cand decode_ex1 (0, 2) = [3; 5].
Proof.
  split; [|vm_compute; auto 8].
  assert (E : decode read_ex1 (lit "0") [] (lit "|") (lit ",") None = Ok decode_ex1) by (vm_compute; reflexivity).
  apply C107_reads in E; [|exact I]. destruct E as [E|[_ [_ [_ [X _]]]]]; [auto|discriminate X].
Qed.
Definition read_ex2 : pystr := lit "+12 - 3 - ; 10 11, ,  7".
Example read_ex2_bad : decode read_ex2 (lit "-") (lit " ") (lit ";") (lit ",") (Some (3, 4)) = Err ValueError.
Proof. vm_compute. reflexivity. Qed.
Example read_ex3_ok : exists t, stands_for (lit "+12 - 3 -;10 11,7") (lit "-") (lit " ") (lit ";") (lit ",") (Some (3, 4)) t /\
  num t (0, 0) = 12 /\ num t (0, 2) = 3 /\ num t (11, 11) = 0 /\ cand t (0, 0) = [10; 11] /\ cand t (0, 1) = [7].
Proof.
  destruct (decode (lit "+12 - 3 -;10 11,7") (lit "-") (lit " ") (lit ";") (lit ",") (Some (3, 4))) as [t|x] eqn:E; [|vm_compute in E; discriminate].
  exists t. split.
  - apply C107_reads in E; [|split; lia]. destruct E as [E|[_ [X _]]]; [auto|discriminate X].
  - vm_compute in E. injection E as <-. vm_compute. auto 8.
Qed.
Example read_ex4 : decode (lit "123 ") (lit "0") [] (lit "|") (lit ",") None = Err ValueError.
Proof. vm_compute. reflexivity. Qed.
Example read_ex5 : only_candidates (lit " |12,x") (lit "0") [] (lit "|") (lit ",") None.
Proof. apply C107_index_error; [exact I|]. vm_compute. reflexivity. Qed.
Example read_ex6 : stands_for_nothing (lit "  ") (lit "0") [] (lit "|") (lit ",") None (new_sudoku (0, 0)).
Proof.
  assert (E : decode (lit "  ") (lit "0") [] (lit "|") (lit ",") None = Ok (new_sudoku (0, 0))) by (vm_compute; reflexivity).
  apply C107_reads in E; [|exact I]. destruct E as [[_ [W _]]|E]; auto. destruct W as [W _]. cbn in W. lia.
Qed.
(** The sign for an empty field stands for 0 only if it is at most one character of Latin-1. *)
Example read_ex7 : decode [183; 49; 183; 183] [183] [] (lit "|") (lit ",") (Some (2, 1)) =
  decode (lit "0100") (lit "0") [] (lit "|") (lit ",") (Some (2, 1)) /\
  decode [8226; 49; 8226; 8226] [8226] [] (lit "|") (lit ",") (Some (2, 1)) = Err ValueError /\
  decode (lit "no 1 no") (lit "no") (lit " ") (lit "|") (lit ",") (Some (2, 1)) = Err ValueError.
Proof. vm_compute. auto. Qed.
