(** Properties C113: widths and heights that are floats.  Statements use only the model functions
    and the specification files; the proofs are in the L*.v files. *)
From Verif Require Import LBase SpecNotationNum LNotationNum.

(** C113: with ints this model is that of MNotation.v. *)
Theorem C113_ints : forall w h,
  (forall cs ub sep nsep, nencode_num cs (NInt w) (NInt h) ub sep nsep = nencode cs w h ub sep nsep) /\
  (forall s sep nsep, ndecode_num s (NInt w) (NInt h) sep nsep = ndecode s w h sep nsep).
Proof. intros w h. split; intros; [apply encode_int|apply decode_int]. Qed.
Print Assumptions C113_ints.

(** C113: a float that is no integer is refused with ValueError. *)
Theorem C113_not_round : forall w h sep nsep, num_val w = None \/ num_val h = None ->
  (forall cs ub, nencode_num cs w h ub sep nsep = Err ValueError) /\ (forall s, ndecode_num s w h sep nsep = Err ValueError).
Proof. intros w h sep nsep H. split; intros; [now apply encode_bad|now apply decode_bad]. Qed.
Print Assumptions C113_not_round.

(** C113: the text of encode with a float among width and height: rows and columns are written as with ints, boxes and parts like 1.0; without use_boxes it is the shorter of the two. *)
Theorem C113_encode : forall w h x y cs sep nsep, num_val w = Some x -> num_val h = Some y -> is_float w || is_float h = true -> 1 <= x -> 1 <= y ->
  (forall p, In p cs -> cell x y p) ->
  let ns := number_separator nsep (x * y) in
  exists rs bs, entries (map row_col cs) rs /\ entries (map (box_part x y) cs) bs /\
    let rt := entries_text 114 99 sep ns rs in
    let bt := float_entries_text 98 112 sep ns bs in
    nencode_num cs w h (Some false) sep nsep = Ok rt /\
    nencode_num cs w h (Some true) sep nsep = Ok bt /\
    nencode_num cs w h None sep nsep = Ok (if py_len bt <? py_len rt then bt else rt).
Proof. exact encode_float. Qed.
Print Assumptions C113_encode.

(** C113: decode with a float never returns.  It raises TypeError or ValueError, and TypeError for every text that can be read with ints. *)
Theorem C113_decode : forall s w h x y sep nsep, num_val w = Some x -> num_val h = Some y -> is_float w || is_float h = true ->
  ndecode_num s w h sep nsep = Err TypeError \/ (ndecode_num s w h sep nsep = Err ValueError /\ ndecode s x y sep nsep = Err ValueError).
Proof. exact decode_float. Qed.
Print Assumptions C113_decode.

(** C113: the functions the_* with a float among width and height: TypeError for a number in range; a number out of range gives the documented ValueError only if the height is an int (the message is [("..." % width) * height]). *)
Theorem C113_units : forall n w h wf hf, 1 <= w -> 1 <= h -> wf || hf = true ->
  let e := if hf then TypeError else if (0 <=? n) && (n <? w * h) then TypeError else ValueError in
  the_row_num n w h wf hf = Err e /\ the_column_num n w h wf hf = Err e /\
  the_box_num n w h wf hf = Err e /\ the_part_num n w h wf hf = Err e.
Proof. exact units_float. Qed.
Print Assumptions C113_units.

(** C113: that decode reads what encode has written for round floats is refuted, and so is that it can be read with the ints of the same value. *)
Definition C113_diagonal : list coord := map (fun i => (i, i)) (py_range 9).
Theorem C113_round_trip_refuted : exists t, nencode_num C113_diagonal (NFloat (Some 3)) (NInt 3) None (lit ",") [] = Ok t /\
  t = lit "b1.05.09.0p1.05.09.0" /\
  ndecode_num t (NFloat (Some 3)) (NInt 3) (lit ",") [] = Err ValueError /\ ndecode t 3 3 (lit ",") [] = Err ValueError /\
  nencode C113_diagonal 3 3 None (lit ",") [] = Ok (lit "b159p159").
Proof. eexists. splits; [> vm_compute; reflexivity ..]. Qed.
Print Assumptions C113_round_trip_refuted.

Example C113_ex :
  nencode_num [(0, 0); (1, 0)] (NFloat (Some 2)) (NFloat (Some 2)) None (lit ",") [] = Ok (lit "r12c1") /\
  nencode_num [(0, 0); (1, 0)] (NInt 2) (NFloat (Some 2)) (Some true) (lit ",") [] = Ok (lit "b1.0p1.03.0") /\
  ndecode_num (lit "r12c1") (NFloat (Some 2)) (NInt 2) (lit ",") [] = Err TypeError /\
  ndecode_num (lit "r9") (NFloat (Some 2)) (NInt 2) (lit ",") [] = Err ValueError /\
  ndecode_num (lit "r9") (NInt 2) (NFloat (Some 2)) (lit ",") [] = Err TypeError /\
  ndecode_num (lit "r1") (NFloat None) (NInt 2) (lit ",") [] = Err ValueError.
Proof. splits; vm_compute; reflexivity. Qed.
