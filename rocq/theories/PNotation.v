(** Properties C56-C63, C73, C74: notation and actions.  Statements use only the model functions and the
    specification files; the proofs are in the L*.v files. *)
From Verif Require Import LNotation7 LCheck.
Import PyStr MNotation.

(** C56: decode (encode cs) are the sorted distinct coordinates of cs; [ub] chooses rncn, bnpn or the shorter of the two. *)
Theorem C56_roundtrip : forall w h cs ub sep nsep, 1 <= w -> 1 <= h -> separators_ok sep nsep -> cs <> [] ->
  (forall p, In p cs -> cell w h p) ->
  exists t l, nencode cs w h ub sep nsep = Ok t /\ ndecode t w h sep nsep = Ok l /\
    sorted_coords l /\ forall p, In p l <-> In p cs.
Proof. exact notation_roundtrip. Qed.
Print Assumptions C56_roundtrip.

Lemma comma_seps : separators_ok (lit ",") [].
Proof. exact comma_ok. Qed.
Example C56_ex : separators_ok (lit "; ") (lit "/") /\ (forall p, In p [(4, 0); (0, 1); (0, 3)] -> cell 3 2 p) /\
  nencode [(4, 0); (0, 1); (0, 3)] 3 2 (Some false) (lit ",") [] = Ok (lit "r1c24,r5c1") /\
  nencode [(4, 0); (0, 1); (0, 3)] 3 2 (Some true) (lit ",") [] = Ok (lit "b1p2,b25p1") /\
  nencode [(9, 0); (0, 11)] 4 3 (Some false) (lit "; ") [] = Ok (lit "r1c12; r10c1").
Proof.
  splits; try (vm_compute; reflexivity).
  - split; [discriminate|]. intros c Hc; cbn in Hc; unfold letter, digit; lia.
  - intros p [<-|[<-|[<-|[]]]]; unfold cell; cbn; lia.
Qed.

(** C56: the empty collection is written as the empty string ... *)
Theorem C56_empty_encode : forall w h ub sep nsep, 1 <= w -> 1 <= h -> nencode [] w h ub sep nsep = Ok [].
Proof. exact nencode_nil. Qed.
Print Assumptions C56_empty_encode.

(** C56: ... which decode rejects. *)
Theorem C56_empty_decode : forall w h sep nsep, ndecode [] w h sep nsep = Err ValueError.
Proof. exact ndecode_nil. Qed.
Print Assumptions C56_empty_decode.

(** C57: the text depends only on the set of coordinates. *)
Theorem C57_canonical : forall cs cs' w h ub sep nsep, (forall p, In p cs <-> In p cs') ->
  nencode cs w h ub sep nsep = nencode cs' w h ub sep nsep.
Proof. exact nencode_canonical. Qed.
Print Assumptions C57_canonical.

Example C57_ex : nencode [(1, 2); (0, 2); (1, 2)] 3 3 None (lit ",") [] = nencode [(0, 2); (1, 2)] 3 3 None (lit ",") [] /\
  nencode [(0, 2); (1, 2)] 3 3 None (lit ",") [] = Ok (lit "r12c3").
Proof. split; vm_compute; reflexivity. Qed.

(** C58: when encode raises ValueError, and that it returns otherwise. *)
Theorem C58_value_error : forall cs w h ub sep nsep,
  (nencode cs w h ub sep nsep = Err ValueError <-> w < 1 \/ h < 1 \/ exists p, In p cs /\ ~ cell w h p) /\
  ((exists t, nencode cs w h ub sep nsep = Ok t) <-> 1 <= w /\ 1 <= h /\ forall p, In p cs -> cell w h p).
Proof. exact nencode_value_error. Qed.
Print Assumptions C58_value_error.

Example C58_ex : ~ cell 2 2 (4, 0) /\ nencode [(0, 0); (4, 0)] 2 2 None (lit ",") [] = Err ValueError.
Proof. split; [unfold cell; cbn; lia|vm_compute; reflexivity]. Qed.

(** C59: groups joined by the separator are decoded to the union of the groups; a group
    is the intersection of its parts. *)
Theorem C59_groups : forall w h sep nsep, 1 <= w -> 1 <= h -> separators_ok sep nsep ->
  let ns := number_separator nsep (w * h) in
  forall gs, gs <> [] -> (forall g, In g gs -> group_shape ns g /\ group_range (w * h) g) ->
  exists l, ndecode (join sep (map (group_text ns) gs)) w h sep nsep = Ok l /\ sorted_coords l /\
    forall p, In p l <-> exists g, In g gs /\ in_group w h g p.
Proof. exact ndecode_groups. Qed.
Print Assumptions C59_groups.

(** C59: a number outside 1..N makes decode raise ValueError. *)
Theorem C59_out_of_range : forall w h sep nsep, 1 <= w -> 1 <= h -> separators_ok sep nsep ->
  let ns := number_separator nsep (w * h) in
  forall gs, (forall g, In g gs -> group_shape ns g) ->
  (exists g q l k, In g gs /\ In (q, l) g /\ In k l /\ ~ 1 <= k <= w * h) ->
  ndecode (join sep (map (group_text ns) gs)) w h sep nsep = Err ValueError.
Proof. exact ndecode_groups_bad. Qed.
Print Assumptions C59_out_of_range.

(** C59: whatever decode returns are fields of the grid in increasing order. *)
Theorem C59_cells : forall s w h sep nsep l, ndecode s w h sep nsep = Ok l ->
  1 <= w /\ 1 <= h /\ sorted_coords l /\ forall p, In p l -> cell w h p.
Proof. exact ndecode_cells. Qed.
Print Assumptions C59_cells.

(** The group r12c3b1p36: the letters r, c, b, p are 114, 99, 98, 112. *)
Definition grp_ex : group := [(114, [1; 2]); (99, [3]); (98, [1]); (112, [3; 6])].
Example C59_ex : group_shape [] grp_ex /\ group_range 9 grp_ex /\ group_text [] grp_ex = lit "r12c3b1p36" /\
  ndecode (lit "r12c3b1p36") 3 3 (lit ",") [] = Ok [(0, 2); (1, 2)].
Proof.
  splits; try (vm_compute; reflexivity).
  - split; [discriminate|]. split; [repeat constructor; cbn; lia|].
    intros q l H; cbn in H; repeat destruct H as [H|H]; try (injection H as <- <-); try contradiction;
      unfold letter; (split; [lia|split; [discriminate|]]); intros k Hk; cbn in Hk; lia.
  - intros q l k H Hk; cbn in H; repeat destruct H as [H|H]; try (injection H as <- <-); try contradiction;
      cbn in Hk; lia.
Qed.

(** C60: a letter that is repeated after another letter is rejected (one group: the separator is nowhere followed by a letter).  Missing: the immediate repetition, where it is false. *)
Theorem C60_repeated_partial : forall s w h sep nsep q q' a b c d, letter q -> letter q' -> q <> q' ->
  s = a ++ q :: b ++ q' :: c ++ q :: d ->
  (forall x, letter x -> ~ occurs (sep ++ [x]) s) -> ~ occurs WHITESPACE s ->
  ndecode s w h sep nsep = Err ValueError.
Proof. exact repeated_rejected. Qed.
Print Assumptions C60_repeated_partial.

(** C60: an immediate repetition silently discards the first list of numbers. *)
Theorem C60_adjacent_overwrites : forall w h sep q l1 l2 g, 1 <= w -> 1 <= h -> w * h <= 9 ->
  separators_ok sep [] -> group_shape [] ((q, l2) :: g) -> l1 <> [] -> (forall k, In k l1 -> 0 <= k <= 9) ->
  ndecode (group_text [] ((q, l1) :: (q, l2) :: g)) w h sep [] = ndecode (group_text [] ((q, l2) :: g)) w h sep [].
Proof. exact adjacent_overwrites. Qed.
Print Assumptions C60_adjacent_overwrites.

(** C60: r1r2c3 is accepted. *)
Theorem C60_repeated_refuted : exists s l, s = lit "r1r2c3" /\ ndecode s 3 3 (lit ",") [] = Ok l /\ l = [(1, 2)].
Proof. eexists. eexists. splits; [> vm_compute; reflexivity ..]. Qed.
Print Assumptions C60_repeated_refuted.
Example C60_ex : ndecode (lit "r1c2r3") 3 3 (lit ",") [] = Err ValueError.
Proof. vm_compute; reflexivity. Qed.
Example C60_ex2 : lit "r1c2r3" = [] ++ 114 :: [49] ++ 99 :: [50] ++ 114 :: [51] /\
  (forall x, letter x -> ~ occurs (lit "," ++ [x]) (lit "r1c2r3")) /\ ~ occurs WHITESPACE (lit "r1c2r3").
Proof.
  splits; [reflexivity| |].
  - intros x _. apply (not_occurs_char _ _ 44); [left; auto|]. cbn. lia.
  - apply (not_occurs_char _ _ 32); [left; auto|]. cbn. lia.
Qed.

(** C61: the only whitespace that is ignored is the sequence blank, tab, newline, return, vertical tab, form feed.  Missing: all other whitespace, where it is false. *)
Theorem C61_exact_run_partial : forall a b w h sep nsep, ~ In 32 a ->
  (forall c, In c WHITESPACE -> ~ In c sep /\ ~ In c (number_separator nsep (w * h))) ->
  ndecode (a ++ WHITESPACE ++ b) w h sep nsep = ndecode (a ++ b) w h sep nsep.
Proof. exact exact_run_ignored. Qed.
Print Assumptions C61_exact_run_partial.

(** C61: any other character that is no letter, no digit and in no separator makes decode fail. *)
Theorem C61_illegal_rejected : forall s w h sep nsep c, ~ letter c -> ~ digit c -> ~ In c sep ->
  ~ In c (number_separator nsep (w * h)) -> In c s -> ~ occurs WHITESPACE s ->
  ndecode s w h sep nsep = Err ValueError \/ ndecode s w h sep nsep = Err TypeError.
Proof. exact illegal_rejected. Qed.
Print Assumptions C61_illegal_rejected.

(** C61: a single blank is not ignored. *)
Theorem C61_whitespace_refuted : exists l, ndecode (lit "r1c1") 3 3 (lit ",") [] = Ok l /\
  ndecode (lit "r1 c1") 3 3 (lit ",") [] = Err ValueError.
Proof. eexists. split; [> vm_compute; reflexivity ..]. Qed.
Print Assumptions C61_whitespace_refuted.
Example C61_ex : ~ In 32 (lit "r1") /\
  (forall c, In c WHITESPACE -> ~ In c (lit ",") /\ ~ In c (number_separator [] (3 * 3))) /\
  ndecode (lit "r1" ++ WHITESPACE ++ lit "c1") 3 3 (lit ",") [] = Ok [(0, 0)].
Proof.
  splits; [cbn; lia| |vm_compute; reflexivity].
  intros c Hc. cbn in Hc. cbn. split; [lia|auto].
Qed.

(** C62: the text of a set of fields followed by =n is the action that sets n there
    (blanks around the text are ignored). *)
Theorem C62_decode_set : forall w h, 1 <= w -> 1 <= h -> forall cs, cs <> [] -> (forall p, In p cs -> cell w h p) ->
  forall ub t, nencode cs w h ub (lit ",") [] = Ok t ->
  forall n b1 b2, (forall c, In c (b1 ++ b2) -> is_space c = true) ->
  exists l, decode_action (b1 ++ (t ++ lit "=" ++ str_of_int n) ++ b2) w h = Ok (SetNumber l (AInt n)) /\
    sorted_coords l /\ forall p, In p l <-> In p cs.
Proof. exact decode_set. Qed.
Print Assumptions C62_decode_set.

(** C62: ... followed by <>ds is the action that removes the digits ds. *)
Theorem C62_decode_remove : forall w h, 1 <= w -> 1 <= h -> forall cs, cs <> [] -> (forall p, In p cs -> cell w h p) ->
  forall ub t, nencode cs w h ub (lit ",") [] = Ok t ->
  forall ds b1 b2, (forall c, In c (b1 ++ b2) -> is_space c = true) -> (forall c, In c ds -> digit c) ->
  exists l, decode_action (b1 ++ (t ++ lit "<>" ++ ds) ++ b2) w h =
      Ok (RemoveCandidates l (map (fun c => AInt (c - 48)) ds)) /\
    sorted_coords l /\ forall p, In p l <-> In p cs.
Proof. exact decode_remove. Qed.
Print Assumptions C62_decode_remove.

(** C62: the effect of setting. *)
Theorem C62_apply_set : forall s l n, wf s -> (forall p, In p l -> field s p) ->
  exists s', apply_action (SetNumber l (AInt n)) s = Some (Ok s') /\ wf s' /\ box_size s' = box_size s /\
    forall p, field s p -> (In p l -> num s' p = n /\ cand s' p = [n]) /\
                           (~ In p l -> num s' p = num s p /\ cand s' p = cand s p).
Proof. exact apply_set. Qed.
Print Assumptions C62_apply_set.

(** C62: the effect of removing. *)
Theorem C62_apply_remove : forall s l ds, wf s -> (forall p, In p l -> field s p) ->
  exists s', apply_action (RemoveCandidates l (map AInt ds)) s = Some (Ok s') /\ wf s' /\ box_size s' = box_size s /\
    forall p, field s p -> num s' p = num s p /\
      (In p l -> forall v, In v (cand s' p) <-> In v (cand s p) /\ ~ In v ds) /\
      (~ In p l -> cand s' p = cand s p).
Proof. exact apply_remove. Qed.
Print Assumptions C62_apply_remove.

(** C62: strings starting with a minus sign are always rejected. *)
Theorem C62_minus_rejected : forall s w h u, strip s = 45 :: u ->
  decode_action s w h = Err ValueError \/ decode_action s w h = Err TypeError.
Proof. exact minus_rejected. Qed.
Print Assumptions C62_minus_rejected.

Example C62_ex : decode_action (lit " r12c3=7 ") 3 3 = Ok (SetNumber [(0, 2); (1, 2)] (AInt 7)) /\
  decode_action (lit "r12c3<>47") 3 3 = Ok (RemoveCandidates [(0, 2); (1, 2)] [AInt 4; AInt 7]) /\
  decode_action (lit "-47 r12c3") 3 3 = Err ValueError.
Proof. splits; vm_compute; reflexivity. Qed.
Example C62_ex2 : wf ex6 /\ (forall p, In p [(0, 2); (1, 2)] -> field ex6 p).
Proof.
  split; [apply ex6_wf|]. intros p [<-|[<-|[]]]; apply in_coords; vm_compute; tauto.
Qed.

(** C63: actions produced by decode_action cannot be written back: encode_action raises TypeError, or returns None if there is no candidate. *)
Theorem C63_encode_action : forall s w h a, decode_action s w h = Ok a ->
  encode_action a w h = Err TypeError \/
  ((exists cs, a = RemoveCandidates cs []) /\ encode_action a w h = Ok None).
Proof. exact encode_decoded. Qed.
Print Assumptions C63_encode_action.

(** C63: what encode_action does with any action: only a number given as a string is written. *)
Theorem C63_written : forall w h, 1 <= w -> 1 <= h -> forall cs, (forall p, In p cs -> cell w h p) ->
  exists u, nencode cs w h None (lit ",") [] = Ok u /\
    (forall t, encode_action (SetNumber cs (AStr t)) w h = Ok (Some (u ++ lit "=" ++ t))) /\
    (forall n, encode_action (SetNumber cs (AInt n)) w h = Err TypeError) /\
    (forall ts, encode_action (RemoveCandidates cs (map AStr ts)) w h = Ok None) /\
    (forall ds n, In (AInt n) ds -> encode_action (RemoveCandidates cs ds) w h = Err TypeError).
Proof.
  intros w h Hw Hh cs Hc.
  assert (E : exists u, nencode cs w h None (lit ",") [] = Ok u).
  { destruct cs as [|p cs]; [exists []; apply nencode_nil; auto|].
    destruct (C56_roundtrip w h (p :: cs) None (lit ",") [] Hw Hh comma_seps) as [t [l [E _]]]; [discriminate|auto|eauto]. }
  destruct E as [u E]. exists u. split; [exact E|]. unfold encode_action. rewrite E. cbn [rbind].
  split; [reflexivity|]. split; [reflexivity|]. split.
  - intros ts. replace (existsb _ (map AStr ts)) with false; [reflexivity|]. induction ts; auto.
  - intros ds n I. replace (existsb _ ds) with true; [reflexivity|]. symmetry. apply existsb_exists. exists (AInt n). auto.
Qed.
Print Assumptions C63_written.
(** C63: reading it again gives the same fields and the number. *)
Theorem C63_string_number : forall w h, 1 <= w -> 1 <= h -> forall cs, cs <> [] -> (forall p, In p cs -> cell w h p) -> forall n,
  exists t l, encode_action (SetNumber cs (AStr (str_of_int n))) w h = Ok (Some t) /\ decode_action t w h = Ok (SetNumber l (AInt n)) /\
    sorted_coords l /\ forall p, In p l <-> In p cs.
Proof.
  intros w h Hw Hh cs Hn Hc n. destruct (C63_written w h Hw Hh cs Hc) as [u [E [F _]]].
  destruct (C62_decode_set w h Hw Hh cs Hn Hc None u E n [] []) as [l [D L]]; [intros c []|].
  exists (u ++ lit "=" ++ str_of_int n), l. split; [apply F|]. split; [|exact L]. rewrite <- D. cbn [app]. rewrite app_nil_r. reflexivity.
Qed.
Print Assumptions C63_string_number.

Example C63_ex : exists a, decode_action (lit "r1c1=5") 3 3 = Ok a /\ encode_action a 3 3 = Err TypeError.
Proof. eexists. split; [> vm_compute; reflexivity ..]. Qed.
Example C63_ex3 : encode_action (SetNumber [(0, 2); (1, 2)] (AStr (lit "7"))) 3 3 = Ok (Some (lit "r12c3=7")).
Proof. vm_compute. reflexivity. Qed.
Example C63_ex2 : exists a, decode_action (lit "r1c1<>") 3 3 = Ok a /\ encode_action a 3 3 = Ok None.
Proof. eexists. split; [> vm_compute; reflexivity ..]. Qed.

(** C73: decode returns, raises ValueError, or raises TypeError. *)
Theorem C73_exceptions : forall s w h sep nsep e, ndecode s w h sep nsep = Err e -> e = ValueError \/ e = TypeError.
Proof.
  intros s w h sep nsep e E. destruct (ndecode_outcome s w h sep nsep) as [[[l X]|X]|X]; rewrite X in E; inversion E; auto.
Qed.
Print Assumptions C73_exceptions.

(** C73: TypeError escapes only if there is no number separator. *)
Theorem C73_type_error : forall s w h sep nsep, ndecode s w h sep nsep = Err TypeError ->
  nsep = [] /\ 1 <= w /\ 1 <= h /\ w * h <= 9.
Proof. exact ndecode_type_error. Qed.
Print Assumptions C73_type_error.

Example C73_ex : ndecode (lit "r") 3 3 (lit ",") [] = Err TypeError /\ ndecode (lit "r1r") 3 3 (lit ",") [] = Err TypeError /\
  ndecode (lit "r") 4 3 (lit ",") [] = Err ValueError.
Proof. splits; vm_compute; reflexivity. Qed.

(** C74: the exact text of encode: rows and columns, boxes and parts, or the shorter of the two (rows and columns if they have the same length). *)
Theorem C74_exact_text : forall w h cs sep nsep, 1 <= w -> 1 <= h -> (forall p, In p cs -> cell w h p) ->
  let ns := number_separator nsep (w * h) in
  exists rs bs, entries (map row_col cs) rs /\ entries (map (box_part w h) cs) bs /\
    let rt := entries_text 114 99 sep ns rs in
    let bt := entries_text 98 112 sep ns bs in
    nencode cs w h (Some false) sep nsep = Ok rt /\
    nencode cs w h (Some true) sep nsep = Ok bt /\
    nencode cs w h None sep nsep = Ok (if py_len bt <? py_len rt then bt else rt).
Proof. exact encode_exact. Qed.
Print Assumptions C74_exact_text.

(** C74: the entries, and so the text, are determined by their description. *)
Theorem C74_entries_unique : forall ps es es', entries ps es -> entries ps es' -> es = es'.
Proof. exact entries_unique. Qed.
Print Assumptions C74_entries_unique.

Example C74_ex : entries (map row_col [(0, 1); (2, 1); (1, 0)]) [([1; 3], [2]); ([2], [1])] /\
  entries_text 114 99 (lit ",") [] [([1; 3], [2]); ([2], [1])] = lit "r13c2,r2c1" /\
  nencode [(0, 1); (2, 1); (1, 0)] 3 3 (Some false) (lit ",") [] = Ok (lit "r13c2,r2c1").
Proof.
  splits; try (vm_compute; reflexivity). unfold entries. splits.
  - intros k v. cbn [map row_col fst snd In]. split.
    + intros [E|[E|[E|[]]]]; injection E as <- <-; [exists ([1; 3], [2])|exists ([1; 3], [2])|exists ([2], [1])]; cbn; auto 6.
    + intros [e [[<-|[<-|[]]] [H1 H2]]]; cbn in H1, H2; destruct H1 as [<-|H1], H2 as [<-|[]]; auto; try contradiction.
      destruct H1 as [<-|[]]; auto.
  - intros e [<-|[<-|[]]]; cbn [fst snd]; splits; try discriminate; repeat constructor; lia.
  - repeat constructor; cbn; lia.
  - repeat constructor; cbn; intros H; repeat destruct H as [H|H]; try discriminate; auto.
  - repeat constructor; cbn; lia.
Qed.
