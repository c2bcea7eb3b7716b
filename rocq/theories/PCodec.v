(** Properties C48-C55, C71, C72: encode, decode and view.  Statements use only the model functions and the
    specification files; the proofs are in the L*.v files. *)
From Verif Require Import LCodec4 LView LCheck.
Import PyStr MCodec.

(** Helpers for the examples. *)
Definition allb (s : sudoku) (f : coord -> bool) : bool := forallb f (coords s).
Lemma allb_ok : forall s f, allb s f = true -> forall p, field s p -> f p = true.
Proof. intros s f H p Hp. unfold allb in H. rewrite forallb_forall in H. apply H, in_coords; auto. Qed.
Lemma one_digit_check : forall s, allb s (fun p => (0 <=? num s p) && (num s p <=? 9)) = true -> one_digit s.
Proof. intros s H p Hp. pose proof (allb_ok s _ H p Hp) as X. cbv beta in X. b2p. lia. Qed.
Lemma one_digit_cands_check : forall s,
  allb s (fun p => forallb (fun n => (0 <=? n) && (n <=? 9)) (cand s p)) = true -> one_digit_cands s.
Proof.
  intros s H p n Hp Hn. pose proof (allb_ok s _ H p Hp) as X. cbv beta in X. rewrite forallb_forall in X.
  specialize (X n Hn). b2p. lia.
Qed.

(** C48: decoding the encoding of a sudoku with one-digit numbers gives its numbers. *)
Theorem C48_roundtrip_digits : forall s, wf s -> one_digit s ->
  exists str t, encode s [] [] false = Ok str /\
    decode str (lit "0") [] (lit "|") (lit ",") (Some (box_size s)) = Ok t /\
    wf t /\ same_numbers s t /\ (forall p, field s p -> cand t p = []).
Proof. exact decode_digits. Qed.
Print Assumptions C48_roundtrip_digits.

Example C48_ex : wf ex6 /\ one_digit ex6.
Proof. split; [apply ex6_wf|apply one_digit_check; vm_compute; reflexivity]. Qed.
Example C48_ex2 : encode ex4sol [] [] false = Ok (lit "1234341221434321").
Proof. vm_compute; reflexivity. Qed.

(** C49: with the separator [c :: x] any integers are recovered. *)
Theorem C49_roundtrip_separated : forall s, wf s -> forall c x,
  is_digit c = false -> c <> 45 -> ~ In 124 (c :: x) ->
  exists str t, encode s (c :: x) (c :: x) false = Ok str /\
    decode str (lit "0") (c :: x) (lit "|") (lit ",") (Some (box_size s)) = Ok t /\
    wf t /\ same_numbers s t /\ (forall p, field s p -> cand t p = []).
Proof. exact decode_separated. Qed.
Print Assumptions C49_roundtrip_separated.

(** A blank is such a separator; the numbers may have several digits and a sign. *)
Definition big2 : sudoku := of_rows 2 1 [[10; -3]; [0; 4711]].
Example C49_ex : wf big2 /\ is_digit 32 = false /\ 32 <> 45 /\ ~ In 124 [32] /\
  encode big2 [32] [32] false = Ok (lit "10 -3 0 4711").
Proof.
  splits; try reflexivity; try lia; [apply wfb_ok; vm_compute; reflexivity|intros [H|[]]; discriminate].
Qed.

(** C50: numbers and candidates of one digit are recovered. *)
Theorem C50_roundtrip_candidates : forall s, wf s -> one_digit s -> one_digit_cands s ->
  exists str, encode s [] [] true = Ok str /\
    decode str (lit "0") [] (lit "|") (lit ",") (Some (box_size s)) = Ok s.
Proof. exact decode_candidates. Qed.
Print Assumptions C50_roundtrip_candidates.

Definition cand2 : sudoku := {| box_width := 2; box_height := 1; s_numbers := [[1; 0]; [0; 0]];
                                s_candidates := [[[]; [1; 2]]; [[2; 9]; []]] |}.
Example C50_ex : wf cand2 /\ one_digit cand2 /\ one_digit_cands cand2 /\
  encode cand2 [] [] true = Ok (lit "1000|,12,29,").
Proof.
  splits; [apply wfb_ok|apply one_digit_check|apply one_digit_cands_check|]; vm_compute; reflexivity.
Qed.

(** C51: for one-digit numbers and candidates different sudokus have different encodings.  Missing: several digits, where it is false. *)
Theorem C51_unambiguous_partial : forall s t, wf s -> wf t -> box_size s = box_size t ->
  one_digit s -> one_digit_cands s -> one_digit t -> one_digit_cands t ->
  encode s [] [] true = encode t [] [] true -> s = t.
Proof. exact C51_partial_proof. Qed.
Print Assumptions C51_unambiguous_partial.

Example C51_ex : wf cand2 /\ one_digit cand2 /\ one_digit_cands cand2 /\ encode cand2 [] [] true <> encode (new_sudoku (2, 1)) [] [] true.
Proof. destruct C50_ex as [H1 [H2 [H3 _]]]. split; auto. split; auto. split; auto. vm_compute. discriminate. Qed.

(** C51: exactly when two encodings are equal: the digits of the numbers are the same when written one after the other, and so are those of the candidates of each field. *)
Theorem C51_ambiguous_partial : forall s t, wf s -> wf t -> box_width s * box_height s = box_width t * box_height t ->
  (encode s [] [] true = encode t [] [] true <->
   concat (map (fun p => str_of_int (num s p)) (coords s)) = concat (map (fun p => str_of_int (num t p)) (coords s)) /\
   forall p, field s p -> concat (map str_of_int (cand s p)) = concat (map str_of_int (cand t p))).
Proof. exact encode_same. Qed.
Print Assumptions C51_ambiguous_partial.

(** C51: the candidates {12} and {1, 2} are both written 12. *)
Definition cand16 (l : zset) : sudoku := pcset (new_sudoku (4, 4)) (0, 0) l.
Theorem C51_unambiguous_refuted : exists s t, wf s /\ wf t /\ box_size s = box_size t /\
  (forall p n, field s p -> In n (cand s p) -> 1 <= n <= 16) /\
  (forall p n, field t p -> In n (cand t p) -> 1 <= n <= 16) /\
  cand s (0, 0) = [12] /\ cand t (0, 0) = [1; 2] /\
  exists str, encode s [] [] true = Ok str /\ encode t [] [] true = Ok str.
Proof.
  assert (R : forall l, forallb (fun n => (1 <=? n) && (n <=? 16)) l = true ->
     allb (cand16 l) (fun p => forallb (fun n => (1 <=? n) && (n <=? 16)) (cand (cand16 l) p)) = true ->
     forall p n, field (cand16 l) p -> In n (cand (cand16 l) p) -> 1 <= n <= 16).
  { intros l _ H p n Hp Hn. pose proof (allb_ok _ _ H p Hp) as X. cbv beta in X. rewrite forallb_forall in X.
    specialize (X n Hn). b2p. lia. }
  exists (cand16 [12]), (cand16 [1; 2]). splits; try (vm_compute; reflexivity).
  - apply wfb_ok; vm_compute; reflexivity.
  - apply wfb_ok; vm_compute; reflexivity.
  - apply R; vm_compute; reflexivity.
  - apply R; vm_compute; reflexivity.
  - eexists. split; [> vm_compute; reflexivity ..].
Qed.
Print Assumptions C51_unambiguous_refuted.

(** C52: the box size decode chooses for a string of digits, for every length. *)
Theorem C52_box_size : forall str, (forall c, In c str -> is_digit c = true) ->
  let r := decode str (lit "0") [] (lit "|") (lit ",") None in
  let result w h := exists t, r = Ok t /\ box_size t = (w, h) /\
    (forall i j, field t (i, j) ->
       num t (i, j) = nth (Z.to_nat (i * (w * h) + j)) str 0 - 48 /\ cand t (i, j) = []) in
  (~ square (py_len str) -> r = Err ValueError) /\
  (forall n, 0 <= n -> py_len str = n * n ->
     (forall m, 0 <= m -> n = m * m -> result m m) /\
     (forall d, ~ square n -> least_divisor d n -> d <> n -> result d (n / d)) /\
     (least_divisor n n -> r = Err ValueError)).
Proof. exact C52_proof. Qed.
Print Assumptions C52_box_size.

(** C52: when the box size of an encoded sudoku is recovered. *)
Theorem C52_recovered : forall s, wf s -> one_digit s ->
  ((exists str t, encode s [] [] false = Ok str /\
      decode str (lit "0") [] (lit "|") (lit ",") None = Ok t /\ box_size t = box_size s) <->
   (box_width s = box_height s \/
    (~ square (NN s) /\ 2 <= box_height s /\ least_divisor (box_width s) (NN s)))).
Proof. exact C52_recover_proof. Qed.
Print Assumptions C52_recovered.

Example C52_ex : exists t, decode (lit "123456" ++ repeat 48 30) (lit "0") [] (lit "|") (lit ",") None = Ok t /\
  box_size t = (2, 3) /\ num t (0, 5) = 6.
Proof. eexists. splits; [> vm_compute; reflexivity ..]. Qed.
Example C52_ex2 : least_divisor 2 6 /\ ~ square 6 /\ py_len (lit "123456" ++ repeat 48 30) = 6 * 6.
Proof.
  splits; [split; [lia|split; [exists 3; lia|intros; auto]]| |vm_compute; reflexivity].
  intros [k [K1 K2]]. assert (k = 2 \/ k = 3 \/ k <= 1 \/ 4 <= k) by lia. nia.
Qed.
(** The 3x2 sudoku ex6 is not recovered: its string is read as a 2x3 sudoku. *)
Example C52_ex3 : exists str t, encode ex6 [] [] false = Ok str /\
  decode str (lit "0") [] (lit "|") (lit ",") None = Ok t /\ box_size ex6 = (3, 2) /\ box_size t = (2, 3).
Proof. eexists. eexists. splits; [> vm_compute; reflexivity ..]. Qed.

(** C53: blanks are irrelevant (no number_sep; the other separators contain no blank). *)
Theorem C53_blanks : forall x y e a b size, same_but_blanks x y ->
  (forall c, blank c -> ~ In c e /\ ~ In c a /\ ~ In c b) ->
  decode x e [] a b size = decode y e [] a b size.
Proof. exact C53_proof. Qed.
Print Assumptions C53_blanks.

Example C53_ex : same_but_blanks (lit "12 34") ([10; 49; 50; 51] ++ [9; 52; 32]) /\
  (forall c, blank c -> ~ In c (lit "0") /\ ~ In c (lit "|") /\ ~ In c (lit ",")).
Proof.
  split.
  - change (lit "12 34") with [49; 50; 32; 51; 52]. cbn [app].
    apply sbb_right; [right; lia|]. apply sbb_char, sbb_char. apply sbb_left; [left; lia|].
    apply sbb_char. apply sbb_right; [right; lia|]. apply sbb_char. apply sbb_right; [left; lia|]. apply sbb_nil.
  - intros c H. unfold blank in H. change (lit "0") with [48]. change (lit "|") with [124]. change (lit ",") with [44]. cbn [In]. lia.
Qed.

(** C54: the text of view, for boxes of height at least 2: the number of lines, their
    common length, where each field is, and that the bars of the lines and the plus
    signs of the rules are at the same places.  (Missing: boxes of height 1.) *)
Theorem C54_view_rectangular_partial : forall s inc prefix right, wf s ->
  (forall p, field s p -> 0 <= num s p <= box_width s * box_height s) -> ~ In 10 prefix ->
  forall number_sep, 2 <= box_height s ->
  let w := box_width s in let h := box_height s in let N := w * h in
  exists text m, view s inc number_sep prefix right = Ok text /\
  py_len (lines text) = N + w - 1 /\
  (forall l, In l (lines text) -> py_len l = N * m + N + 2 * h - 3) /\
  (forall r c, field s (r, c) ->
     py_len (shown s inc prefix (r, c)) <= m /\
     substr (c * (m + 1) + 2 * (c / w)) m (nth (Z.to_nat (r + r / h)) (lines text) [])
     = padded right m (shown s inc prefix (r, c))) /\
  (forall r k, 0 <= r < N -> 1 <= k < h ->
     substr (k * w * (m + 1) + 2 * (k - 1)) 1 (nth (Z.to_nat (r + r / h)) (lines text) []) = lit "|") /\
  (forall j, 1 <= j < w ->
     let rule := nth (Z.to_nat (j * (h + 1) - 1)) (lines text) [] in
     (forall c, In c rule -> c = 45 \/ c = 43) /\
     count_occ Z.eq_dec rule 43 = Z.to_nat (h - 1) /\
     forall k, 1 <= k < h -> substr (k * w * (m + 1) + 2 * (k - 1)) 1 rule = lit "+").
Proof. exact C54_proof. Qed.
Print Assumptions C54_view_rectangular_partial.

Example C54_ex : wf ex4 /\ (forall p, field ex4 p -> 0 <= num ex4 p <= box_width ex4 * box_height ex4) /\
  ~ In 10 (lit "*") /\ 2 <= box_height ex4.
Proof.
  splits; [apply ex4_wf| |intros [H|[]]; discriminate|cbn; lia].
  intros p Hp. assert (H : allb ex4 (fun p => (0 <=? num ex4 p) && (num ex4 p <=? 4)) = true) by (vm_compute; reflexivity).
  pose proof (allb_ok _ _ H p Hp) as X. cbv beta in X. b2p. change (box_width ex4 * box_height ex4) with 4. lia.
Qed.
Example C54_ex2 : view ex4sol false None (lit "*") true =
  Ok (join [10] [lit "1 2 | 3 4"; lit "3 4 | 1 2"; lit "----+----"; lit "2 1 | 4 3"; lit "4 3 | 2 1"]).
Proof. vm_compute; reflexivity. Qed.

(** C54: for boxes of height 1 the lines do not have the same length. *)
Theorem C54_view_rectangular_refuted : exists s text a b, wf s /\
  (forall p, field s p -> 0 <= num s p <= box_width s * box_height s) /\
  view s false None (lit "*") true = Ok text /\ In a (lines text) /\ In b (lines text) /\ length a <> length b.
Proof.
  exists (of_rows 2 1 [[1; 2]; [2; 1]]). eexists. exists (lit "1 2"), (lit "----+----"). splits.
  - apply wfb_ok; vm_compute; reflexivity.
  - intros p Hp.
    assert (H : allb (of_rows 2 1 [[1; 2]; [2; 1]]) (fun p => (0 <=? num (of_rows 2 1 [[1; 2]; [2; 1]]) p) && (num (of_rows 2 1 [[1; 2]; [2; 1]]) p <=? 2)) = true)
      by (vm_compute; reflexivity).
    pose proof (allb_ok _ _ H p Hp) as X. cbv beta in X. b2p. change (box_width (of_rows 2 1 [[1; 2]; [2; 1]]) * box_height (of_rows 2 1 [[1; 2]; [2; 1]])) with 2. lia.
  - vm_compute; reflexivity.
  - vm_compute. tauto.
  - vm_compute. tauto.
  - vm_compute. discriminate.
Qed.
Print Assumptions C54_view_rectangular_refuted.

(** C55: the argument number_sep of view has no effect. *)
Theorem C55_view_number_sep : forall s inc prefix right a b,
  view s inc a prefix right = view s inc b prefix right.
Proof. reflexivity. Qed.
Print Assumptions C55_view_number_sep.
(** Candidates of a 4x4 sudoku are not separated although "-" is asked for. *)
Example C55_ex : view (pcset (new_sudoku (2, 2)) (0, 0) [1; 2]) true (Some (lit "-")) (lit "*") true =
  Ok (join [10] [lit "*12   * |   *   *"; lit "  *   * |   *   *"; lit "--------+--------";
                 lit "  *   * |   *   *"; lit "  *   * |   *   *"]).
Proof. vm_compute; reflexivity. Qed.

(** C71: rows separated by a blank, usually a newline. *)
Theorem C71_rows : forall s, wf s -> forall r c x, blank r -> ~ In r (c :: x) ->
  is_digit c = false -> c <> 45 -> ~ In 124 (c :: x) ->
  exists str t, encode s [r] (c :: x) false = Ok str /\
    decode str (lit "0") (c :: x) (lit "|") (lit ",") (Some (box_size s)) = Ok t /\
    wf t /\ same_numbers s t /\ (forall p, field s p -> cand t p = []).
Proof. exact decode_rows. Qed.
Print Assumptions C71_rows.
Example C71_ex : blank 10 /\ ~ In 10 [32] /\ wf big2 /\
  encode big2 [10] [32] false = Ok (lit "10 -3" ++ [10] ++ lit "0 4711").
Proof.
  splits; [right; lia|intros [H|[]]; discriminate|apply wfb_ok; vm_compute; reflexivity|vm_compute; reflexivity].
Qed.

(** C72: missing fields are empty. *)
Theorem C72_short : forall w h str, 1 <= w -> 1 <= h ->
  (forall c, In c str -> is_digit c = true) -> py_len str <= w * h * (w * h) ->
  exists t, decode str (lit "0") [] (lit "|") (lit ",") (Some (w, h)) = Ok t /\ wf t /\ box_size t = (w, h) /\
    forall r c, field t (r, c) -> cand t (r, c) = [] /\
      num t (r, c) = if r * (w * h) + c <? py_len str then nth (Z.to_nat (r * (w * h) + c)) str 0 - 48 else 0.
Proof. exact C72_short_proof. Qed.
Print Assumptions C72_short.

(** C72: surplus fields are ignored, whatever they are. *)
Theorem C72_long : forall w h str more, 1 <= w -> 1 <= h ->
  (forall c, In c str -> is_digit c = true) -> py_len str = w * h * (w * h) ->
  (forall c, In c more -> is_space c = false /\ c <> 124) ->
  decode (str ++ more) (lit "0") [] (lit "|") (lit ",") (Some (w, h)) =
  decode str (lit "0") [] (lit "|") (lit ",") (Some (w, h)).
Proof. exact C72_long_proof. Qed.
Print Assumptions C72_long.

Example C72_ex : exists t, decode (lit "12") (lit "0") [] (lit "|") (lit ",") (Some (2, 1)) = Ok t /\
  decode (lit "1200xyz") (lit "0") [] (lit "|") (lit ",") (Some (2, 1)) = Ok t /\ num t (0, 1) = 2.
Proof. eexists. splits; [> vm_compute; reflexivity ..]. Qed.
