(** Properties C105, C106: how the texts of notation.py are read. *)
From Verif Require Import SpecDecode LDecode4 SpecGame LGame7.
Import PyStr MNotation.

(** C105: every text has exactly one list of groups. *)
Theorem C105_groups : forall sep nsep ns s, separators_ok sep nsep ->
  exists gs, groups_of sep ns s gs /\ forall gs', groups_of sep ns s gs' -> gs' = gs.
Proof.
  intros sep nsep ns s H. destruct (groups_ok sep nsep H ns s) as [gs [_ G]]. exists gs. split; auto.
  intros gs' G'. apply (groups_unique sep nsep H ns s); auto.
Qed.
Print Assumptions C105_groups.

(** C105: a group is well formed in at most one way. *)
Theorem C105_sections : forall sep nsep n g ss ss', separators_ok sep nsep -> plain_separator (number_separator nsep n) ->
  well_formed (number_separator nsep n) g ss -> well_formed (number_separator nsep n) g ss' -> ss = ss'.
Proof. intros sep nsep n g ss ss' H P. apply formed_unique; auto. apply (seps_effective sep); auto. Qed.
Print Assumptions C105_sections.

(** C105: decode gives exactly the fields the text names. *)
Theorem C105_accepted : forall sep nsep w h s l, separators_ok sep nsep -> plain_separator (number_separator nsep (w * h)) -> 1 <= w -> 1 <= h ->
  (ndecode s w h sep nsep = Ok l <-> names_fields sep (number_separator nsep (w * h)) w h s l).
Proof.
  intros sep nsep w h s l H P Hw Hh. destruct (groups_ok sep nsep H (number_separator nsep (w * h)) s) as [gs [_ G]].
  rewrite (ndecode_iff sep nsep H w h Hw Hh P s gs l G). split.
  - intros [fs X]. exists gs, fs. tauto.
  - intros [gs' [fs [G' X]]]. rewrite (groups_unique sep nsep H _ s gs gs' G G'). eauto.
Qed.
Print Assumptions C105_accepted.

(** C105: it raises TypeError exactly if the first group that is not accepted is r, c, b or p alone, or one of them with
    digits and then the same letter again. *)
Theorem C105_type_error : forall sep nsep w h s, separators_ok sep nsep -> plain_separator (number_separator nsep (w * h)) -> 1 <= w -> 1 <= h ->
  (ndecode s w h sep nsep = Err TypeError <-> numberless_text sep (number_separator nsep (w * h)) (w * h) s).
Proof.
  intros sep nsep w h s H P Hw Hh. destruct (groups_ok sep nsep H (number_separator nsep (w * h)) s) as [gs [_ G]].
  rewrite (text_type_error sep nsep H w h Hw Hh P s gs G). split.
  - intros [a [fs [g [b [-> X]]]]]. exists a, fs, g, b. tauto.
  - intros [a [fs [g [b [G' X]]]]]. exists a, fs, g, b. split; auto. apply (groups_unique sep nsep H _ s gs _ G G').
Qed.
Print Assumptions C105_type_error.

(** C105: every other text is refused with ValueError, and so is every text if a width is not positive. *)
Theorem C105_value_error : forall sep nsep w h s, separators_ok sep nsep -> plain_separator (number_separator nsep (w * h)) ->
  (ndecode s w h sep nsep = Err ValueError <-> ~ (1 <= w /\ 1 <= h) \/ exists a fs g b,
    groups_of sep (number_separator nsep (w * h)) s (a ++ g :: b) /\ Forall2 (accepted (number_separator nsep (w * h)) (w * h)) a fs /\
    ~ numberless (number_separator nsep (w * h)) g /\ forall f, ~ accepted (number_separator nsep (w * h)) (w * h) g f).
Proof.
  intros sep nsep w h s H P. destruct (Z_lt_le_dec w 1) as [Hw|Hw]; [split; [left; lia|intros _; apply ndecode_small; auto]|].
  destruct (Z_lt_le_dec h 1) as [Hh|Hh]; [split; [left; lia|intros _; apply ndecode_small; auto]|].
  destruct (groups_ok sep nsep H (number_separator nsep (w * h)) s) as [gs [_ G]].
  rewrite (text_value_error sep nsep H w h Hw Hh P s gs G). split.
  - intros [a [fs [g [b [-> X]]]]]. right. exists a, fs, g, b. tauto.
  - intros [X|[a [fs [g [b [G' X]]]]]]; [lia|]. exists a, fs, g, b. split; auto. apply (groups_unique sep nsep H _ s gs _ G G').
Qed.
Print Assumptions C105_value_error.

(** r1c2 has two sections; r1c is row 1; in r1r2c3 the 1 is ignored; r and r1r have no numbers that count. *)
Example C105_ex_accepted : accepted [] 9 (lit "r1c") [(114, [1]); (99, [])] /\ separators_ok (lit ",") [] /\ plain_separator (number_separator [] 9) /\
  groups_of (lit ",") [] (lit "r1c,c2") [lit "r1c"; lit "c2"].
Proof.
  split; [|split; [apply commas_ok|split; [apply default_plain|]]].
  - split; [|split].
    + split; [|split].
      * split; [discriminate|]. split.
        -- intros q l [E|[E|[]]]; injection E as <- _; unfold letter; auto.
        -- exists [[114; 49]; [99]]. split; [reflexivity|]. constructor; [|constructor; [|constructor]].
           ++ exists [49]. split; auto. exists [[49]]. split; auto. split; auto. split; [|intros X; congruence]. intros x [<-|[]].
              split; auto. split; [discriminate|]. intros c [<-|[]]. unfold digit; lia.
           ++ exists []. split; auto. exists []. split; auto. split; auto. split; [intros x []|intros X; congruence].
      * intros a q b E. destruct a as [|x [|y [|z a]]]; try discriminate. injection E as _ _ E. auto.
      * intros a q l b m c E. destruct b as [|y b]; auto. exfalso. apply (f_equal (@length _)) in E. cbn in E.
        repeat (rewrite app_length in E; cbn in E). lia.
    + intros q l k [N [a [c [E C]]]] I. destruct a as [|x [|y [|z a]]]; try discriminate.
      * injection E as <- <- _. destruct I as [<-|[]]. lia.
      * injection E as _ <- <- _. congruence.
    + exists 114, [1]. split; [discriminate|]. exists [], [(99, [])]. split; auto. intros [X|[]]. discriminate.
  - exists (lit "r1c,c2"). split.
    + right. split; [intros [c [A B]]|split; [intros [c [A B]]; destruct B|]].
      * destruct B as [<-|[]]. repeat (destruct A as [A|A]; [discriminate|]). destruct A.
      * exists [lit "r1c,c2"]. split; [reflexivity|split; [reflexivity|split; [discriminate|]]]. intros x [<-|[]] [a [b E]].
        assert (I : In 32 (lit "r1c,c2")) by (rewrite E; apply in_app_iff; right; left; auto).
        repeat (destruct I as [I|I]; [discriminate|]). destruct I.
    + split; [reflexivity|split; [discriminate|split]].
      * intros g [<-|[]]. exists 99, [50]. split; auto. unfold letter; auto.
      * intros g q I L [a [b E]]. assert (J : In 44 g) by (rewrite E, !in_app_iff; right; left; left; left; reflexivity).
        destruct I as [<-|[<-|[]]]; repeat (destruct J as [J|J]; [discriminate|]); destruct J.
Qed.
Example C105_ex : ndecode (lit "r1c,c2") 1 2 (lit ",") [] = Ok [(0, 0); (0, 1); (1, 1)] /\
  ndecode (lit "r1r2c1") 1 2 (lit ",") [] = Ok [(1, 0)] /\ ndecode (lit "r9r2c1") 1 2 (lit ",") [] = Ok [(1, 0)] /\
  ndecode (lit "r1,c") 1 2 (lit ",") [] = Err TypeError /\ ndecode (lit "r7r") 1 2 (lit ",") [] = Err TypeError /\
  ndecode (lit "rc1") 1 2 (lit ",") [] = Err ValueError /\ ndecode (lit "r1c1r1") 1 2 (lit ",") [] = Err ValueError.
Proof. repeat split; reflexivity. Qed.

(** C106: a line is read as an action exactly if it has the parts of one and its fields can be read. *)
Theorem C106_action : forall w h s a, 1 <= w -> 1 <= h ->
  (decode_action s w h = Ok a <-> exists x mk l, action_parts s x mk /\
     names_fields (lit ",") (number_separator [] (w * h)) w h x l /\ a = mk l).
Proof.
  intros w h s a Hw Hh. rewrite read_action_ok.
  split; intros [x [mk [l [P [E ->]]]]]; exists x, mk, l; split; auto; split; auto;
    apply (C105_accepted (lit ",") [] w h x l commas_ok (default_plain _) Hw Hh); auto.
Qed.
Print Assumptions C106_action.

(** C106: reading it raises TypeError exactly if the fields are of the kind that does so. *)
Theorem C106_type_error : forall w h s, 1 <= w -> 1 <= h ->
  (decode_action s w h = Err TypeError <-> numberless_action (number_separator [] (w * h)) (w * h) s).
Proof.
  intros w h s Hw Hh. rewrite read_action_type.
  split; intros [x [E P]]; exists x; split; auto;
    apply (C105_type_error (lit ",") [] w h x commas_ok (default_plain _) Hw Hh); auto.
Qed.
Print Assumptions C106_type_error.

(** C106: all other lines are refused with ValueError. *)
Theorem C106_outcome : forall w h s, (exists a, decode_action s w h = Ok a) \/ decode_action s w h = Err TypeError \/ decode_action s w h = Err ValueError.
Proof.
  intros w h s. destruct (minus_dec (strip s)) as [[u M]|M].
  - rewrite (action_minus s u w h M). destruct (cut (lit " ") (45 :: u)) as [[l r]|]; auto.
    destruct (ndecode_outcome r w h (lit ",") []) as [[[x ->]| ->]| ->]; auto.
  - destruct (other_parts s w h M) as [X|[l [mk P]]]; auto. rewrite (parts_result s l mk w h P).
    destruct (ndecode_outcome l w h (lit ",") []) as [[[x ->]| ->]| ->]; eauto.
Qed.
Print Assumptions C106_outcome.

(** C106: the lines of the game that end it with TypeError, by their text alone. *)
Theorem C106_game : forall fuel E line g H, env_ok E -> (2 <= fuel)%nat -> game_ok g -> has_history g H ->
  (snd (game_line fuel E line g) = Some TypeError <->
   first_word line (lit "settings") \/ (exists w, first_word line w /\ ~ In w named) /\ numberless_action [] 9 line).
Proof.
  intros fuel E line g H HE Hf G HH. rewrite (line_crash_iff fuel E line g H TypeError HE Hf G HH). unfold crashes.
  pose proof (C106_type_error 3 3 line ltac:(lia) ltac:(lia)) as X. change (number_separator [] (3 * 3)) with (@nil Z) in X. change (3 * 3) with 9 in X.
  split.
  - intros [[E1 _]|[[_ E1]|[_ [E1 E2]]]]; [discriminate|auto|]. right. split; auto. apply X; auto.
  - intros [E1|[E1 E2]]; [auto|]. right. right. split; auto. split; auto. apply X; auto.
Qed.
Print Assumptions C106_game.

Example C106_ex : action_parts (lit " r1c1=+1_0 ") (lit "r1c1") (fun cs => SetNumber cs (AInt 10)) /\
  decode_action (lit " r1c1=+1_0 ") 3 3 = Ok (SetNumber [(0, 0)] (AInt 10)) /\
  decode_action (lit "r1c1=2<>3") 3 3 = Err ValueError /\ decode_action (lit "r<>7") 3 3 = Err TypeError /\
  decode_action (lit "-7 r") 3 3 = Err TypeError /\ decode_action (lit "-7 r1") 3 3 = Err ValueError /\ decode_action (lit "r=x") 3 3 = Err ValueError.
Proof.
  split; [|repeat split; reflexivity].
  apply (parts_set _ (lit "r1c1=+1_0") (lit "r1c1") (lit "+1_0") 10).
  - apply trimmed_strip. reflexivity.
  - discriminate.
  - apply cut_no. reflexivity.
  - apply cut_iff; [discriminate|reflexivity].
  - apply int_text_iff. reflexivity.
Qed.
