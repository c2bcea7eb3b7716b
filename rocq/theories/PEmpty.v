(** Property C101: sudokus without fields.  Statements use only the model functions and the
    specification files; the proofs are in the L*.v files. *)
From Verif Require Import LEmpty.

(** C101: a sudoku whose box width and height have a product of at most 0 has no fields: reading and writing raise IndexError, and it is written as the empty text. *)
Theorem C101_access : forall s, sudoku_ok s -> box_width s * box_height s <= 0 ->
  coords s = [] /\ (forall r c, getitem s r c = Err IndexError) /\ (forall r c v, setitem s r c v = Err IndexError) /\
  (forall b, copy s b = Ok s) /\ (forall a b, encode s a b false = Ok [] /\ encode s a b true = Ok (lit "|")).
Proof.
  intros s S H. rewrite (no_fields_inv s S H). splits; intros.
  - apply e_coords; auto.
  - apply e_getitem; auto.
  - apply e_setitem; auto.
  - apply e_copy; auto.
  - apply e_encode; auto.
Qed.
Print Assumptions C101_access.

(** C101: it cannot be shown: view raises ValueError, whatever the arguments. *)
Theorem C101_view : forall s, sudoku_ok s -> box_width s * box_height s <= 0 ->
  forall include_candidates number_sep prefix align_right, view s include_candidates number_sep prefix align_right = Err ValueError.
Proof. intros s S H. rewrite (no_fields_inv s S H). intros. apply e_view; auto. Qed.
Print Assumptions C101_view.

(** C101: it is solved and unique, and is its own only solution, with dlx and bruteforce. *)
Theorem C101_solved : forall s, sudoku_ok s -> box_width s * box_height s <= 0 ->
  is_solved s = Ok true /\ (forall ord, is_unique ord s = Ok true) /\
  (forall ord, glist (dlx ord s) tt = Ok [s]) /\ (forall ord, glist (bruteforce ord s) tt = Ok [s]).
Proof.
  intros s S H. rewrite (no_fields_inv s S H). split; [|split; [|split]]; intros.
  - apply e_solved; auto.
  - apply e_unique; auto.
  - rewrite e_dlx by auto. reflexivity.
  - apply e_brute; auto.
Qed.
Print Assumptions C101_solved.

(** C101: decode makes such a sudoku of a text of blanks, if no separator and no box size are given. *)
Theorem C101_decode : forall s empty sudoku_sep candidate_sep, strip s = [] -> sudoku_sep <> [] ->
  decode s empty [] sudoku_sep candidate_sep None = Ok (new_sudoku (0, 0)).
Proof.
  intros s e ss cs E N. unfold decode, clean. rewrite E.
  assert (X : forall l, fold_left (fun s c => if char_in c (e ++ ss ++ cs ++ []) then s else replace_char c [] s) l [] = []).
  { induction l as [|a l IH]; auto. cbn [fold_left]. destruct (char_in a _); exact IH. }
  rewrite X. clear X. destruct ss as [|x ss]; [contradiction|]. cbn. reflexivity.
Qed.
Print Assumptions C101_decode.

(** Such sudokus; the number of fields given by len is not 0 for a negative box size. *)
Example C101_ex :
  sudoku_ok (new_sudoku (0, 3)) /\ sudoku_ok (new_sudoku (-3, 3)) /\ sudoku_len (new_sudoku (0, 3)) = 0 /\ sudoku_len (new_sudoku (-3, 3)) = 81 /\
  decode (lit " ") (lit "0.") [] (lit "|") (lit ",") None = Ok (new_sudoku (0, 0)) /\ sudoku_ok (new_sudoku (0, 0)).
Proof.
  assert (X : forall w h, w * h <= 0 -> sudoku_ok (new_sudoku (w, h))).
  { intros w h H. rewrite e_new by auto. unfold sudoku_ok. cbn. replace (Z.to_nat (w * h)) with O by lia. splits; auto; contradiction. }
  split; [apply X; lia|]. split; [apply X; lia|]. split; [reflexivity|]. split; [reflexivity|]. split; [vm_compute; reflexivity|apply X; lia].
Qed.
