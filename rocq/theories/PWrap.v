(** C137: coordinates that count from the end. *)
From Verif Require Import SpecWrap MAnalyze.
From Coq Require Import Lia.
From Verif Require LWrap LCheck.

(** C137: reading and writing with such coordinates is reading and writing the field they denote. *)
Theorem C137_access : forall s r c, wf s -> valid_pair s (r, c) ->
  let p := spot s (r, c) in
  field s p /\ getitem s r c = getitem s (fst p) (snd p) /\ get_candidates s r c = get_candidates s (fst p) (snd p) /\
  (forall v, setitem s r c v = setitem s (fst p) (snd p) v) /\
  (forall v, set_candidates s r c v = set_candidates s (fst p) (snd p) v) /\
  (forall v, remove_candidates s r c v = remove_candidates s (fst p) (snd p) v).
Proof.
  intros s r c W V p. split; [apply LWrap.spot_field; auto|]. destruct V as [Hr Hc].
  split; [apply LWrap.getitem_mod; auto|]. split; [apply LWrap.get_candidates_mod; auto|].
  split; [intros; apply LWrap.setitem_mod; auto|]. split; intros; [apply LWrap.set_candidates_mod|apply LWrap.remove_candidates_mod]; auto.
Qed.
Print Assumptions C137_access.

(** C137: calc_candidates gives the candidates of that field; IndexError exactly for the other coordinates. *)
Theorem C137_candidates : forall s r c, wf s ->
  (valid_pair s (r, c) -> calc_candidates s r c = calc_candidates s (fst (spot s (r, c))) (snd (spot s (r, c)))) /\
  (~ valid_pair s (r, c) -> calc_candidates s r c = Err IndexError).
Proof.
  intros s r c W. split; [intros [Hr Hc]; apply LWrap.calc_mod; auto|]. apply LWrap.calc_invalid; auto.
Qed.
Print Assumptions C137_candidates.

(** C137: the row, the column and the box are those of the field, in the same order; but a row or column without the
    field contains it nevertheless if its coordinate counts from the end. *)
Theorem C137_units : forall s r c, wf s -> valid_pair s (r, c) ->
  let p := spot s (r, c) in
  spots s (row_of s r c true) = row_of s (fst p) (snd p) true /\
  spots s (column_of s r c true) = column_of s (fst p) (snd p) true /\
  spots s (row_of s r c false) = row_of s (fst p) (snd p) (c <? 0) /\
  spots s (column_of s r c false) = column_of s (fst p) (snd p) (r <? 0) /\
  (forall b, exists l, box_of s r c b = Ok l /\ box_of s (fst p) (snd p) b = Ok (spots s l)).
Proof.
  intros s r c W [Hr Hc] p.
  split; [apply (LWrap.spots_row s r c true); auto|]. split; [apply (LWrap.spots_column s r c true); auto|].
  split; [apply (LWrap.spots_row s r c false); auto|]. split; [apply (LWrap.spots_column s r c false); auto|].
  intros [].
  - destruct (LWrap.spots_box_true s W r c Hr Hc) as [l [E1 [E2 _]]]. exists l. auto.
  - destruct (LWrap.spots_box_false s W r c Hr Hc) as [l [E1 E2]]. exists l. auto.
Qed.
Print Assumptions C137_units.

(** C137: the surrounding without the field contains it if a coordinate counts from the end ... *)
Theorem C137_surrounding : forall s r c, wf s -> valid_pair s (r, c) ->
  exists l, surrounding_of s r c false = Ok l /\ (forall q, In q l -> valid_pair s q) /\
    forall q, In q (spots s l) <->
      field s q /\ (peers (box_width s) (box_height s) (spot s (r, c)) q \/ (q = spot s (r, c) /\ from_end (r, c))).
Proof.
  intros s r c W V. eexists. split; [apply LWrap.surrounding_false_any|]. split.
  - intros q Hq. apply (LWrap.sur_valid s W r c false); [apply V|apply V|exact Hq].
  - intros q. apply LWrap.in_around; auto.
Qed.
Print Assumptions C137_surrounding.

(** C137: ... and the surrounding with the field raises ValueError if both count from the end. *)
Theorem C137_include : forall s r c, wf s -> valid_pair s (r, c) -> from_end (r, c) ->
  (r < 0 /\ c < 0 -> surrounding_of s r c true = Err ValueError) /\
  (~ (r < 0 /\ c < 0) -> exists l, surrounding_of s r c true = Ok l /\ (forall q, In q l -> valid_pair s q) /\
     forall q, In q (spots s l) <-> field s q /\ (q = spot s (r, c) \/ peers (box_width s) (box_height s) (spot s (r, c)) q)).
Proof.
  intros s r c W V D. split.
  - intros [Hr Hc]. apply LWrap.surrounding_both; auto.
  - intros N. apply LWrap.surrounding_one; auto. unfold from_end in D; cbn [fst snd] in D. lia.
Qed.
Print Assumptions C137_include.

(** C137: box_at counts back by the number of boxes for a row from the end, but by the number of boxes in a row for a
    column from the end. *)
Theorem C137_box_at : forall s r c, wf s -> valid_pair s (r, c) ->
  box_at s r c = box_at s (fst (spot s (r, c))) (snd (spot s (r, c)))
    - (if r <? 0 then box_width s * box_height s else 0) - (if c <? 0 then box_height s else 0).
Proof. intros s r c W [Hr Hc]. apply LWrap.box_at_mod; auto. Qed.
Print Assumptions C137_box_at.

(** C137: find_conflicts with such coordinates reports the conflicts of the fields, and for coordinates that count from
    the end also that the field conflicts with itself. *)
Theorem C137_conflicts : forall s cs, wf s -> cs <> [] -> (forall p, In p cs -> valid_pair s p) ->
  exists l, glist (find_conflicts s cs) s = Ok l /\ (forall p q v, In (p, q, v) l -> In p cs) /\
    forall p x v, In p cs ->
      ((exists q, spot s q = x /\ valid_pair s q /\ In (p, q, v) l) <->
       field s x /\ v <> 0 /\ num s (spot s p) = v /\ num s x = v /\
       (peers (box_width s) (box_height s) (spot s p) x \/ (x = spot s p /\ from_end p))).
Proof.
  intros s cs W N V. destruct (LWrap.conflicts_valid s W cs N V) as [E1 E2]. unfold glist. rewrite E1, E2. cbn [rbind].
  eexists. split; [reflexivity|]. split.
  - intros p q v H. apply in_flat_map in H. destruct H as [x [Hx H]]. apply LWrap.wconf_first in H. congruence.
  - intros p x v Hp. rewrite <- LWrap.in_wconf by auto. split; intros [q [E [Vq H]]]; exists q.
    + apply in_flat_map in H. destruct H as [y [Hy H]]. pose proof (LWrap.wconf_first _ _ _ _ _ H). subst. auto.
    + split; auto. split; auto. apply in_flat_map. eauto.
Qed.
Print Assumptions C137_conflicts.

(** C137: the conflicts of several coordinates are those of the first one, then those of the second one ...; without
    coordinates those of all fields in reading order. *)
Theorem C137_each : forall s cs, wf s -> cs <> [] -> (forall p, In p cs -> valid_pair s p) ->
  exists ls, Forall2 (fun p l => glist (find_conflicts s [p]) s = Ok l) cs ls /\ glist (find_conflicts s cs) s = Ok (concat ls).
Proof.
  intros s cs W N V. exists (map (LWrap.wconf s) cs). split.
  - clear N. induction cs as [|p cs IH]; constructor.
    + destruct (LWrap.conflicts_valid s W [p]) as [E1 E2]; [congruence|intros q [<-|[]]; apply V; left; auto|].
      unfold glist. rewrite E1, E2. cbn [rbind flat_map]. rewrite app_nil_r. reflexivity.
    + apply IH. intros; apply V; right; auto.
  - destruct (LWrap.conflicts_valid s W cs N V) as [E1 E2]. unfold glist. rewrite E1, E2, flat_map_concat_map. reflexivity.
Qed.
Print Assumptions C137_each.
Theorem C137_all : forall s, find_conflicts s [] = find_conflicts s (coords s).
Proof. intros s. unfold find_conflicts. destruct (coords s); reflexivity. Qed.
Print Assumptions C137_all.

(** C137: at the first coordinates that s[row, col] does not accept, find_conflicts raises IndexError, after the
    conflicts of those before. *)
Theorem C137_index_error : forall s l1 p l2, wf s -> (forall q, In q l1 -> valid_pair s q) -> ~ valid_pair s p ->
  gresult (find_conflicts s (l1 ++ p :: l2)) s = Err IndexError /\
  gyields (find_conflicts s (l1 ++ p :: l2)) s = match l1 with [] => [] | _ => gyields (find_conflicts s l1) s end.
Proof.
  intros s l1 p l2 W V I. destruct (LWrap.conflicts_invalid s W l1 p l2 V I) as [E1 E2]. split; auto. rewrite E2.
  destruct l1 as [|q l1]; auto. symmetry. apply LWrap.conflicts_valid; auto. congruence.
Qed.
Print Assumptions C137_index_error.

(** C137: so a solved sudoku has conflicts if one asks for a field by coordinates that count from the end. *)
Theorem C137_solved_refuted : forall s p, wf s -> complete s -> valid_pair s p -> from_end p ->
  exists x l, glist (find_conflicts s [p]) s = Ok (x :: l).
Proof.
  intros s p W C V D. destruct (C137_conflicts s [p] W) as [l [E [_ H]]]; [congruence|intros q [<-|[]]; auto|].
  assert (F : field s (spot s p)) by (apply LWrap.spot_field; auto).
  destruct (proj2 (H p (spot s p) (num s (spot s p)) (or_introl eq_refl))) as [q [_ [_ I]]].
  { split; auto. split; [apply C; auto|]. auto. }
  destruct l as [|x l]; [destruct I|]. eauto.
Qed.
Print Assumptions C137_solved_refuted.

Example C137_ex : wf LCheck.ex4sol /\ valid_pair LCheck.ex4sol (-1, 0) /\ spot LCheck.ex4sol (-1, 0) = (3, 0) /\
  is_solved LCheck.ex4sol = Ok true /\
  glist (find_conflicts LCheck.ex4sol [(3, 0)]) LCheck.ex4sol = Ok [] /\
  glist (find_conflicts LCheck.ex4sol [(-1, 0)]) LCheck.ex4sol = Ok [((-1, 0), (3, 0), num LCheck.ex4sol (3, 0))] /\
  gresult (find_conflicts LCheck.ex4sol [(-1, 0); (4, 0)]) LCheck.ex4sol = Err IndexError /\
  surrounding_of LCheck.ex4sol (-1) (-1) true = Err ValueError /\
  box_at LCheck.ex4sol 0 (-1) = -1 /\ box_at LCheck.ex4sol 0 3 = 1 /\
  calc_candidates LCheck.ex4 0 (-2) = Ok [3] /\ calc_candidates LCheck.ex4 0 2 = Ok [3].
Proof.
  split; [apply LCheck.wfb_ok; vm_compute; reflexivity|].
  split; [vm_compute; repeat split; discriminate|].
  repeat split; vm_compute; reflexivity.
Qed.
