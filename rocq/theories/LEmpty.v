(** Lemmas about sudokus without fields. *)
From Verif Require Export LShell LCheck MAnalyze MCodec.

Lemma range_neg : forall n, n <= 0 -> py_range n = [].
Proof. intros n H. unfold py_range. replace (Z.to_nat n) with O by lia. reflexivity. Qed.

Lemma no_fields_inv : forall s, sudoku_ok s -> box_width s * box_height s <= 0 ->
  s = mkSudoku (box_width s) (box_height s) [] [].
Proof.
  intros [w h n c] [A [_ [B _]]] H. cbn in *. replace (Z.to_nat (w * h)) with O in * by lia.
  apply length_zero_iff_nil in A, B. subst. reflexivity.
Qed.

Section E.
Variables w h : Z.
Hypothesis H : w * h <= 0.
Let s := mkSudoku w h [] [].
Lemma e_coords : coords s = [].
Proof. unfold coords, indices, s. cbn [box_width box_height]. rewrite range_neg by auto. reflexivity. Qed.
Lemma e_new : new_sudoku (w, h) = s.
Proof. unfold new_sudoku, s. rewrite range_neg by auto. reflexivity. Qed.
Lemma e_copy : forall b, copy s b = Ok s.
Proof. intros b. unfold copy, box_size. cbn [s box_width box_height]. rewrite e_coords, e_new. destruct b; reflexivity. Qed.
Lemma e_getitem : forall r c, getitem s r c = Err IndexError.
Proof. intros r c. unfold getitem. cbn [s s_numbers]. rewrite list_get_err; auto. unfold py_len. cbn. lia. Qed.
Lemma e_setitem : forall r c v, setitem s r c v = Err IndexError.
Proof. intros r c v. unfold setitem. cbn [s s_numbers]. rewrite list_get_err; auto. unfold py_len. cbn. lia. Qed.
Lemma e_view : forall i n p a, view s i n p a = Err ValueError.
Proof.
  intros. unfold view, numbers, py_range2. cbn [s box_width box_height]. rewrite (range_neg (w * h + 1 - 1)) by lia. reflexivity.
Qed.
Lemma e_encode : forall a b, encode s a b false = Ok [] /\ encode s a b true = Ok (lit "|").
Proof.
  intros a b. unfold encode. rewrite e_coords. unfold indices. cbn [s box_width box_height]. rewrite range_neg by auto. split; reflexivity.
Qed.
Lemma e_empty : glist (empty s) s = Ok [] /\ glist (filled s) s = Ok [].
Proof. unfold empty, filled. rewrite e_coords. split; reflexivity. Qed.
Lemma e_solved : is_solved s = Ok true.
Proof.
  unfold is_solved. rewrite (proj1 e_empty). cbn [rbind]. unfold find_conflicts. rewrite e_coords. reflexivity.
Qed.
Lemma e_dlx : forall ord, dlx ord s = Yield s (fun _ => Ret tt).
Proof.
  intros ord. unfold dlx. rewrite e_copy. cbn [lift gbind]. unfold do_dlx. cbn [s box_width box_height].
  assert (K : all_keys (h * w) = []) by (unfold all_keys; rewrite range_neg by lia; reflexivity).
  assert (Y : build_Y h w = []).
  { unfold build_Y, all_rows. rewrite range_neg by lia. reflexivity. }
  rewrite K, Y, e_coords. cbn. rewrite !e_copy. cbn. reflexivity.
Qed.
Lemma e_brute : forall ord, glist (bruteforce ord s) tt = Ok [s].
Proof.
  intros ord. unfold bruteforce, has_conflict. rewrite e_coords. cbn [anyM lift gbind]. rewrite e_copy. cbn [lift gbind].
  assert (X : init_candidates s false = Ok s). { unfold init_candidates. rewrite e_coords. reflexivity. }
  rewrite X. cbn [lift gbind length do_bruteforce]. rewrite (proj1 e_empty). cbn. rewrite e_copy. cbn. auto.
Qed.
Lemma e_unique : forall ord, is_unique ord s = Ok true.
Proof.
  intros ord. unfold is_unique. rewrite e_dlx. reflexivity.
Qed.
End E.
