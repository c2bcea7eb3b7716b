(** C135: the texts of sudokus with arbitrary objects in the fields. *)
From Verif Require Import LObjText LCheck.
Import PyStr MCodec.

(** C135: encode joins the texts of the objects. *)
Theorem C135_encode : forall ostr s row_sep col_sep, wf s ->
  encode_o ostr s row_sep col_sep false = Ok (encode_text ostr s row_sep col_sep).
Proof. exact encode_o_ok. Qed.
Print Assumptions C135_encode.

(** C135: a sudoku of ints with the same texts and candidates has the same encoding. *)
Theorem C135_same : forall ostr s t row_sep col_sep include_candidates, wf s -> wf t -> box_size t = box_size s ->
  (forall p, field s p -> ostr (num s p) = str_of_int (num t p) /\ cand s p = cand t p) ->
  encode_o ostr s row_sep col_sep include_candidates = encode t row_sep col_sep include_candidates.
Proof. exact encode_o_same. Qed.
Print Assumptions C135_same.

(** C135: if every text is one digit, decode gives the sudoku of the ints. *)
Theorem C135_digits : forall ostr s, wf s -> (forall p, field s p -> exists d, 0 <= d <= 9 /\ ostr (num s p) = [48 + d]) ->
  exists str u, encode_o ostr s [] [] false = Ok str /\
    decode str (lit "0") [] (lit "|") (lit ",") (Some (box_size s)) = Ok u /\ wf u /\ box_size u = box_size s /\
    (forall p, field s p -> ostr (num s p) = [48 + num u p]) /\ (forall p, field s p -> cand u p = []).
Proof. exact C135_digits_proof. Qed.
Print Assumptions C135_digits.

(** C135: with a separator [c :: x] the same holds for the texts of any ints. *)
Theorem C135_separated : forall ostr s c x, wf s -> (forall p, field s p -> exists n, ostr (num s p) = str_of_int n) ->
  is_digit c = false -> c <> 45 -> ~ In 124 (c :: x) ->
  exists str u, encode_o ostr s (c :: x) (c :: x) false = Ok str /\
    decode str (lit "0") (c :: x) (lit "|") (lit ",") (Some (box_size s)) = Ok u /\ wf u /\ box_size u = box_size s /\
    (forall p, field s p -> ostr (num s p) = str_of_int (num u p)) /\ (forall p, field s p -> cand u p = []).
Proof. exact C135_separated_proof. Qed.
Print Assumptions C135_separated.

(** C135: view returns the text described in SpecObjText.v; the width of the fields is that of the numbers and candidates. *)
Theorem C135_view : forall truth ostr s include_candidates number_sep prefix align_right, wf s ->
  exists m, field_width s include_candidates prefix m /\
  view_o truth ostr s include_candidates number_sep prefix align_right =
  Ok (grid_text (box_width s) (box_height s) (shown_o truth ostr s include_candidates prefix) align_right m).
Proof. intros. apply view_o_exact; auto. Qed.
Print Assumptions C135_view.

(** C135: str is that text without candidates. *)
Theorem C135_str : forall truth ostr s, wf s -> exists m, field_width s false [] m /\
  sudoku_str_o truth ostr s =
  Ok (grid_text (box_width s) (box_height s) (fun p => if truth (num s p) then ostr (num s p) else []) true m).
Proof.
  intros truth ostr s W. destruct (view_o_exact truth ostr s false (lit "*") true W None) as [m [F E]]. exists m.
  split; [|exact E]. destruct F as [[A|[A _]] [B _]]; [|discriminate A]. split; [left; exact A|]. split; [exact B|discriminate].
Qed.
Print Assumptions C135_str.

(** Some objects: 0..9 the ints, 11..19 the strings "1".."9", 20 None, 21 the float 1.0 *)
Definition text_of (x : Z) : pystr :=
  if x =? 20 then lit "None" else if x =? 21 then lit "1.0" else if 10 <? x then [48 + (x - 10)] else str_of_int x.
Definition truth_of (x : Z) : bool := negb ((x =? 0) || (x =? 20)).
Definition words2 : sudoku := of_rows 1 2 [[11; 2]; [0; 11]].
Definition floats2 : sudoku := of_rows 1 2 [[21; 2]; [20; 0]].
Example C135_ex_words : wf words2 /\ (forall p, field words2 p -> exists d, 0 <= d <= 9 /\ text_of (num words2 p) = [48 + d]) /\
  encode_o text_of words2 [] [] false = Ok (lit "1201").
Proof.
  split; [apply wfb_ok; vm_compute; reflexivity|]. split; [|vm_compute; reflexivity].
  intros p F. apply in_coords in F. change (coords words2) with [(0, 0); (0, 1); (1, 0); (1, 1)] in F.
  destruct F as [<-|[<-|[<-|[<-|[]]]]]; [exists 1|exists 2|exists 0|exists 1]; (split; [lia|vm_compute; reflexivity]).
Qed.
(** None and 0 are empty fields for view; the text of 1.0 is wider than the field.  decode cannot read these. *)
Example C135_ex_floats : wf floats2 /\ encode_o text_of floats2 (lit ";") (lit ",") false = Ok (lit "1.0,2;None,0") /\
  sudoku_str_o truth_of text_of floats2 = Ok (lit "1.0 | 2" ++ [10] ++ lit "  |  ") /\
  decode (lit "1.0,2,None,0") (lit "0") (lit ",") (lit "|") (lit ";") (Some (1, 2)) = Err ValueError.
Proof.
  split; [apply wfb_ok; vm_compute; reflexivity|]. split; [vm_compute; reflexivity|]. split; vm_compute; reflexivity.
Qed.
