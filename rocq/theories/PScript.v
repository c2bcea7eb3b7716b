(** Property C138: digits and blanks of other scripts. *)
From Coq Require Import Lia.
From Verif Require Import SpecScript LScript LCheck.
Import PyStr MNotation.

(** C138: Sudoku.decode gives the same for two texts that differ only in the script of their digits, if no separator contains a digit and the sign for an
    empty field is not a digit other than 0. *)
Theorem C138_decode : forall empty ns ss cs box t t', (forall c d, empty = [c] -> digit_of c d -> d = 0) ->
  no_digits ns -> no_digits ss -> no_digits cs -> transliterated t t' ->
  decode t empty ns ss cs box = decode t' empty ns ss cs box.
Proof. exact tl_decode. Qed.
Print Assumptions C138_decode.

(** C138: so does decode_action for the number after = and the candidates after <>. *)
Theorem C138_action : forall l r r' w h, ~ In 45 l -> transliterated r r' ->
  (~ In 61 l -> ~ In 60 (l ++ r) -> decode_action (l ++ lit "=" ++ r) w h = decode_action (l ++ lit "=" ++ r') w h) /\
  (~ In 60 l -> decode_action (l ++ lit "<>" ++ r) w h = decode_action (l ++ lit "<>" ++ r') w h).
Proof. intros l r r' w h N H. split; [intros; apply tl_set; auto|intros; apply tl_remove; auto]. Qed.
Print Assumptions C138_action.

(** C138: fields are named with ASCII digits only: notation.decode accepts no text with other characters than r, c, b, p, the digits 0 to 9, commas and
    ASCII blanks. *)
Theorem C138_fields : forall s w h l c, ndecode s w h (lit ",") [] = Ok l -> In c s -> letter c \/ digit c \/ c = 44 \/ In c WHITESPACE.
Proof. exact fields_chars. Qed.
Print Assumptions C138_fields.
Theorem C138_fields_refuted : exists t t', transliterated t t' /\ ndecode t 2 2 (lit ",") [] = Ok [(0, 0)] /\ ndecode t' 2 2 (lit ",") [] = Err ValueError.
Proof.
  exists (lit "r1c1"), [114; 1633; 99; 49]. split; [|split; vm_compute; reflexivity].
  repeat (apply Forall2_cons; [auto; right; exists 1; split; apply decimal_iff; reflexivity|]). constructor.
Qed.
Print Assumptions C138_fields_refuted.

(** C138: blanks of any script around the text change nothing. *)
Theorem C138_blanks : forall a b, only_blanks a -> only_blanks b ->
  (forall s empty ns ss cs box, decode (a ++ s ++ b) empty ns ss cs box = decode s empty ns ss cs box) /\
  (forall s w h, decode_action (a ++ s ++ b) w h = decode_action s w h).
Proof. intros a b A B. split; intros; [apply decode_outer|apply action_outer]; auto. Qed.
Print Assumptions C138_blanks.

(** Arabic-Indic, Devanagari and fullwidth digits in one text, with an ideographic and a no-break space around it; a superscript two and a control character 28
    within an item are refused, at the ends of the whole text 28 is dropped. *)
Example C138_ex :
  transliterated (lit "1200|3") [1633; 65298; 48; 1632; 124; 2409] /\ no_digits (lit "|") /\ no_digits (lit ",") /\ only_blanks [12288; 160; 28] /\
  (exists s, decode [12288; 1633; 65298; 48; 1632; 124; 2409; 28] (lit "0") [] (lit "|") (lit ",") (Some (1, 2)) = Ok s /\
     decode (lit "1200|3") (lit "0") [] (lit "|") (lit ",") (Some (1, 2)) = Ok s /\ s_numbers s = [[1; 2]; [0; 0]] /\ get_candidates s 0 0 = Ok [3]) /\
  decode [49; 178; 48; 48] (lit "0") [] (lit "|") (lit ",") (Some (1, 2)) = Err ValueError /\
  decode (lit "1, 2,0,0") (lit "0") (lit ",") (lit "|") (lit ",") None = decode [49; 44; 160; 50; 44; 48; 44; 48] (lit "0") (lit ",") (lit "|") (lit ",") None /\
  decode [49; 44; 28; 50; 44; 160; 48; 44; 48] (lit "0") (lit ",") (lit "|") (lit ",") None = Err ValueError /\
  decode_action (lit "r1c1=" ++ [1636; 50]) 2 2 = Ok (SetNumber [(0, 0)] (AInt 42)) /\
  decode_action (lit "r1c1<>" ++ [1636; 50]) 2 2 = Ok (RemoveCandidates [(0, 0)] [AInt 4; AInt 2]).
Proof.
  split.
  { repeat (apply Forall2_cons; [first [left; reflexivity|right; eexists; split; apply decimal_iff; [reflexivity|reflexivity]]|]). constructor. }
  split; [change (lit "|") with [124]; intros c d [<-|[]]; apply mid_no; lia|]. split; [change (lit ",") with [44]; intros c d [<-|[]]; apply small_no; lia|].
  split; [intros c [<-|[<-|[<-|[]]]]; reflexivity|].
  split; [eexists; split; [vm_compute; reflexivity|]; splits; vm_compute; reflexivity|]. splits; vm_compute; reflexivity.
Qed.
