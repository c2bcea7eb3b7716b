(** Lemmas for C116: a hidden tuple is the complement of a naked tuple. *)
From Verif Require Export SpecDual LFind6 LSteps LOrder.

Local Opaque MSudoku.surrounding_of.

(** * The fields of a unit *)
Section Unit.
Variables (s : sudoku) (k : kind) (q : coord) (f : grid).
Hypothesis W : wf s.
Hypothesis Fq : field s q.
Hypothesis Cf : consistent s f.
Hypothesis St : settled s k q.

Notation N := (box_width s * box_height s).
Notation U := (unit_at s k q).

Definition lsingle (p : coord) : bool := match cand s p with [_] => true | _ => false end.

Lemma unit_fields : exists l, NoDup l /\ (forall p, In p l <-> U p) /\ unit_list (box_width s) (box_height s) l.
Proof.
  destruct (kind_unit_true s W k q Fq) as [l [_ [Nd H]]]. exists l. split; [auto|]. split; [auto|].
  pose proof (wf_w s W) as Hw. pose proof (wf_h s W) as Hh. pose proof Fq as [F1 F2].
  destruct k.
  - apply (row_unit _ _ Hw Hh l (fst q)); auto.
  - apply (col_unit _ _ Hw Hh l (snd q)); auto.
  - apply (box_unit _ _ Hw Hh l q); auto.
Qed.

Lemma u_inj : forall p p', U p -> U p' -> f p = f p' -> p = p'.
Proof.
  intros p p' Hp Hp' E. destruct unit_fields as [l [_ [H UL]]].
  pose proof (wf_w s W). pose proof (wf_h s W).
  eapply unit_inj; eauto; try apply H; auto. apply Cf.
Qed.
Lemma u_all : forall v, 1 <= v <= N -> exists p, U p /\ f p = v.
Proof.
  intros v Hv. destruct unit_fields as [l [_ [H UL]]].
  destruct (ul_all _ _ _ UL f (proj1 (proj1 Cf)) v Hv) as [p [Hp E]]. exists p. rewrite <- H. auto.
Qed.
Lemma u_in : forall p, U p -> In (f p) (cand s p).
Proof. intros p [Fp _]. apply Cf; auto. Qed.
Lemma u_place : forall p v, U p -> In v (cand s p) -> exists p', U p' /\ f p' = v.
Proof. intros p v Hp Hv. apply u_all. eapply St; eauto. Qed.
Lemma u_nodup : forall p, U p -> NoDup (cand s p).
Proof. intros p [Fp _]. apply (sset_NoDup _ zcmp_good). apply cand_sset; auto. Qed.
Lemma u_single : forall p, U p -> lsingle p = true -> cand s p = [f p].
Proof.
  intros p Hp H. unfold lsingle in H. pose proof (u_in p Hp) as I. destruct (cand s p) as [|a [|b l]]; try discriminate.
  destruct I as [->|[]]; auto.
Qed.
Lemma u_two : forall p, U p -> lsingle p = false -> (2 <= length (cand s p))%nat.
Proof.
  intros p Hp H. unfold lsingle in H. pose proof (u_in p Hp) as I. destruct (cand s p) as [|a [|b l]]; try discriminate.
  - destruct I.
  - simpl; lia.
Qed.
Lemma two_single : forall p, (2 <= length (cand s p))%nat -> lsingle p = false.
Proof. intros p H. unfold lsingle. destruct (cand s p) as [|a [|b l]]; simpl in H; auto; lia. Qed.
(** A field with the candidate [f p'] is not [p'] itself or [p'] has other candidates. *)
Lemma u_other : forall p p', U p -> U p' -> In (f p') (cand s p) -> p <> p' -> lsingle p' = false.
Proof.
  intros p p' Hp Hp' I Ne. destruct (lsingle p') eqn:E; auto. exfalso.
  apply (proj2 St p' p (f p') Hp' Hp Ne (u_single p' Hp' E) I).
Qed.

Lemma u_count : forall a, NoDup a -> (forall p, In p a -> U p) -> (length a <= Z.to_nat N)%nat.
Proof.
  intros a Na Ha. rewrite <- (map_length f a).
  replace (Z.to_nat N) with (length (py_range2 1 (N + 1))) by (rewrite length_py_range2; lia).
  apply NoDup_incl_length.
  - apply NoDup_map_inj; auto. intros x y Hx Hy. apply u_inj; auto.
  - intros v Hv. apply in_map_iff in Hv. destruct Hv as [p [<- Hp]]. apply in_py_range2.
    pose proof (proj1 St p (f p) (Ha p Hp) (u_in p (Ha p Hp))). lia.
Qed.

(** The other fields with two or more candidates. *)
Lemma u_rest : forall a, exists b, lists b (fun p => U p /\ ~ In p a /\ lsingle p = false).
Proof.
  intros a. destruct unit_fields as [l [Nd [H _]]].
  exists (py_sorted coord_cmp (filter (fun p => negb (list_in coord_eqb p a) && negb (lsingle p)) l)).
  apply py_sorted_lists; [apply NoDup_filter; auto|]. intros p. rewrite filter_In, H, andb_true_iff, !negb_true_iff.
  split; [intros [A [B C]]|intros [A [B C]]]; splits; auto.
  - apply list_in_coord_not in B. auto.
  - apply list_in_coord_not. auto.
Qed.

(** The sorted values of fields. *)
Lemma u_vals : forall a, NoDup a -> (forall p, In p a -> U p) ->
  exists v, listsz v (fun x => exists p, In p a /\ f p = x) /\ length v = length a.
Proof.
  intros a Na Ha. exists (py_sorted zcmp (map f a)). split.
  - apply py_sorted_listsz.
    + apply NoDup_map_inj; auto. intros x y Hx Hy. apply u_inj; auto.
    + intros x. rewrite in_map_iff. split; intros [p [A B]]; exists p; auto.
  - rewrite py_sorted_length, map_length. auto.
Qed.

(** * From hidden to naked *)
Lemma hidden_naked : forall n places cl aff vals, hidden_tuple s n k q places cl aff vals ->
  exists m cl' vals', naked_tuple s m k q cl' aff vals' /\ (2 <= m)%nat /\ (n + m <= Z.to_nat N)%nat /\
    forall p x, In p aff -> In x (cand s p) -> (In x vals' <-> ~ In x vals).
Proof.
  intros n places cl aff vals [_ [Nq [Hcl [Sv [Lv [Hv [Hp [Lp [Ha Ne]]]]]]]]].
  pose proof (zssorted_nodup _ Sv) as Ndv. pose proof (lists_nodup _ _ Hp) as Ndp.
  destruct Hp as [Sp Hp]. destruct Ha as [Sa Ha].
  assert (Up : forall p, In p places -> U p) by (intros p X; apply Hp in X; tauto).
  assert (I1 : incl vals (map f places)).
  { intros v X. destruct (u_all v) as [p [Y E]]; [apply Hv; auto|]. apply in_map_iff. exists p. split; auto.
    apply Hp. split; auto. exists v. split; auto. rewrite <- E. apply u_in; auto. }
  assert (I2 : forall p, In p places -> In (f p) vals).
  { assert (X : incl (map f places) vals) by (apply NoDup_length_incl; auto; rewrite map_length; lia).
    intros p Y. apply X. apply in_map; auto. }
  assert (Ln : length places = n).
  { apply NoDup_incl_length in I1; auto. rewrite map_length in I1. lia. }
  assert (Ns : forall p, In p places -> lsingle p = false).
  { intros p X. destruct (lsingle p) eqn:E; auto. exfalso. pose proof (u_single p (Up p X) E) as Es.
    destruct (Hv (f p) (I2 p X)) as [_ [l [HL Ll]]]. pose proof (lists_nodup _ _ HL) as Nl. destruct HL as [_ Hl].
    assert (Y : forall p', In p' l -> p' = p).
    { intros p' Z. apply Hl in Z. destruct Z as [Z1 Z2]. destruct (coord_eq_dec p' p) as [|D]; auto.
      exfalso. apply (proj2 St p p' (f p) (Up p X) Z1 D Es Z2). }
    destruct l as [|a [|b l]]; simpl in Ll; try lia.
    inversion Nl as [|x y Q1 Q2]; subst. apply Q1. left. rewrite (Y a), (Y b); simpl; auto. }
  destruct (u_rest places) as [A HA]. pose proof (lists_nodup _ _ HA) as NdA. destruct HA as [SA HA].
  assert (UA : forall p, In p A -> U p) by (intros p X; apply HA in X; tauto).
  destruct (u_vals A NdA UA) as [vals' [[Sv' Hv'] Lv']].
  (** a candidate that is not in [vals] belongs to a field of [A] *)
  assert (K1 : forall p v, U p -> In v (cand s p) -> ~ In v vals -> lsingle p = false -> exists p', In p' A /\ f p' = v).
  { intros p v X Y Z L. destruct (u_place p v X Y) as [p' [X' E]]. exists p'. split; auto. apply HA. split; auto. split.
    - intros B. apply Z. rewrite <- E. auto.
    - destruct (coord_eq_dec p p') as [<-|D]; auto. apply (u_other p p'); auto. rewrite E; auto. }
  assert (K2 : forall p v, In p A -> In v (cand s p) -> ~ In v vals).
  { intros p v X Y Z. apply HA in X. destruct X as [X1 [X2 _]]. apply X2. apply Hp. eauto. }
  assert (K3 : forall v, In v vals' <-> exists p, In p A /\ In v (cand s p)).
  { intros v. rewrite Hv'. split.
    - intros [p [X E]]. exists p. split; auto. rewrite <- E. apply u_in; auto.
    - intros [p [X Y]]. apply (K1 p v); auto; [eapply K2; eauto|]. apply HA in X. tauto. }
  assert (K4 : forall v, In v vals' -> ~ In v vals).
  { intros v X. apply K3 in X. destruct X as [p [X Y]]. eapply K2; eauto. }
  exists (length A), A, vals'. split; [|split; [|split]].
  - unfold naked_tuple. split; [auto|]. split; [auto|]. split; [auto|]. split; [auto|]. split; [|split; [|split; [|split]]].
    + intros p X. split; auto. pose proof X as X'. apply HA in X'. destruct X' as [X1 [X2 X3]]. split; [apply u_two; auto|].
      rewrite <- Lv'. apply NoDup_incl_length; [apply u_nodup; auto|]. intros v Y. apply K3. eauto.
    + split; auto.
    + lia.
    + split; auto. intros p. rewrite Ha. split.
      * intros [X [v [Y Z]]]. split; auto. split; [intros B; apply HA in B; tauto|].
        destruct (K1 p v (Up p X) Y Z (Ns p X)) as [p' [B E]]. exists v. split; auto. apply Hv'. eauto.
      * intros [X [Y [v [Z1 Z2]]]]. pose proof Z1 as Z3. apply K3 in Z3. destruct Z3 as [p' [B1 B2]].
        assert (D : p <> p') by (intros ->; auto).
        assert (L : lsingle p = false).
        { destruct (lsingle p) eqn:E; auto. exfalso. pose proof (u_single p X E) as Es. rewrite Es in Z2.
          destruct Z2 as [Z2|[]]. rewrite Z2 in Es. apply (proj2 St p p' v X (UA p' B1)); auto. }
        split; [|exists v; split; auto; apply K4; auto].
        destruct (in_dec coord_eq_dec p places) as [|Q]; auto. exfalso. apply Y. apply HA. auto.
    + auto.
  - destruct aff as [|a aff]; [congruence|]. assert (X : In a (a :: aff)) by (left; auto). apply Ha in X.
    destruct X as [X [v [Y Z]]]. destruct (K1 a v (Up a X) Y Z (Ns a X)) as [p [B E]].
    pose proof B as B'. apply HA in B'. destruct B' as [B1 [B2 B3]]. pose proof (u_two p B1 B3).
    assert (length (cand s p) <= length vals')%nat; [|lia].
    apply NoDup_incl_length; [apply u_nodup; auto|]. intros x Hx. apply K3. eauto.
  - rewrite <- Ln, <- app_length. apply u_count.
    + apply NoDup_app_iff. split; auto. split; auto. intros p X Y. apply HA in Y. tauto.
    + intros p X. apply in_app_iff in X. destruct X; auto.
  - intros p x X Y. split; [apply K4|]. intros Z. apply Ha in X. destruct X as [X _].
    destruct (K1 p x (Up p X) Y Z (Ns p X)) as [p' [B E]]. apply Hv'. eauto.
Qed.

(** * From naked to hidden *)
Lemma naked_hidden : forall n cl aff vals, no_hidden s k q -> naked_tuple s n k q cl aff vals ->
  exists m places cl' vals', hidden_tuple s m k q places cl' aff vals' /\ (2 <= m)%nat /\ (n + m <= Z.to_nat N)%nat /\
    forall p x, In p aff -> In x (cand s p) -> (In x vals <-> ~ In x vals').
Proof.
  intros n cl aff vals NH [_ [Nq [Sc [Lc [Hc [[Sv Hv] [Lv [[Sa Ha] Ne]]]]]]]].
  pose proof (zssorted_nodup _ Sv) as Ndv. pose proof (ssorted_nodup _ Sc) as Ndc.
  assert (Uc : forall p, In p cl -> U p) by (intros p X; apply Hc; auto).
  assert (Nc : forall p, In p cl -> lsingle p = false) by (intros p X; apply two_single; apply Hc; auto).
  assert (I1 : forall p, In p cl -> In (f p) vals).
  { intros p X. apply Hv. exists p. split; auto. apply u_in; auto. }
  assert (I2 : forall v, In v vals -> exists p, In p cl /\ f p = v).
  { assert (X : incl vals (map f cl)).
    { apply NoDup_length_incl.
      - apply NoDup_map_inj; auto. intros x y Hx Hy. apply u_inj; auto.
      - rewrite map_length. lia.
      - intros v X. apply in_map_iff in X. destruct X as [p [<- X]]. auto. }
    intros v Y. apply X in Y. apply in_map_iff in Y. destruct Y as [p [E Y]]. eauto. }
  destruct (u_rest cl) as [A HA]. pose proof (lists_nodup _ _ HA) as NdA. destruct HA as [SA HA].
  assert (UA : forall p, In p A -> U p) by (intros p X; apply HA in X; tauto).
  destruct (u_vals A NdA UA) as [vals' [[Sv' Hv'] Lv']].
  assert (D1 : forall v, In v vals' -> ~ In v vals).
  { intros v X Y. apply Hv' in X. destruct X as [p [X E]]. destruct (I2 v Y) as [p' [X' E']].
    assert (p = p') by (apply u_inj; auto; congruence). subst p'. apply HA in X. tauto. }
  (** the places of the other values *)
  assert (K1 : forall p v, In v vals' -> U p -> In v (cand s p) -> In p A).
  { intros p v X Y Z. apply HA. split; auto. split.
    - intros B. apply (D1 v X). apply Hv. eauto.
    - destruct (lsingle p) eqn:E; auto. exfalso. apply Hv' in X. destruct X as [a [X Ea]].
      pose proof (u_single p Y E) as Es. rewrite Es in Z. destruct Z as [Z|[]].
      assert (a = p) by (apply u_inj; auto; congruence). subst a. apply HA in X. destruct X as [_ [_ X]]. congruence. }
  assert (K2 : forall p v, U p -> In v (cand s p) -> lsingle p = false -> ~ In v vals -> In v vals').
  { intros p v X Y L Z. destruct (u_place p v X Y) as [p' [X' E]]. apply Hv'. exists p'. split; auto. apply HA. split; auto. split.
    - intros B. apply Z. rewrite <- E. auto.
    - destruct (coord_eq_dec p p') as [<-|D]; auto. apply (u_other p p'); auto. rewrite E; auto. }
  assert (K3 : forall v, In v vals' -> exists l, lists l (fun p => U p /\ In v (cand s p)) /\ (2 <= length l <= length A)%nat).
  { intros v X. destruct unit_fields as [l [Nd [Hl _]]].
    set (m := filter (fun p => existsb (Z.eqb v) (cand s p)) l).
    assert (Hm : forall p, In p m <-> U p /\ In v (cand s p)).
    { intros p. unfold m. rewrite filter_In, Hl, existsb_exists. split; intros [B C]; split; auto.
      - destruct C as [x [C1 C2]]. b2p. subst; auto.
      - exists v. split; auto. apply Z.eqb_refl. }
    assert (Nm : NoDup m) by (apply NoDup_filter; auto).
    exists (py_sorted coord_cmp m). split; [apply py_sorted_lists; auto|]. rewrite py_sorted_length. split.
    - pose proof X as X'. apply Hv' in X'. destruct X' as [a [Y E]]. pose proof Y as Y'. apply HA in Y'. destruct Y' as [Y1 [Y2 Y3]].
      destruct m as [|x [|y m']] eqn:Em.
      + exfalso. apply (proj2 (Hm a)). split; auto. rewrite <- E. apply u_in; auto.
      + exfalso. apply (NH a v Y1 (u_two a Y1 Y3)). split.
        * rewrite <- E. apply (proj1 St a); auto. apply u_in; auto.
        * intros p B C G. assert (Up : U p) by (apply (unit_at_same s k a q); auto; apply Y1).
          assert (P1 : In p [x]) by (apply Hm; auto). assert (P2 : In a [x]) by (apply Hm; split; auto; rewrite <- E; apply u_in; auto).
          destruct P1 as [<-|[]]. destruct P2 as [<-|[]]. auto.
      + simpl; lia.
    - apply NoDup_incl_length; auto. intros p B. apply Hm in B. apply (K1 p v); tauto. }
  destruct unit_fields as [l [Nd [Hl _]]].
  assert (HP : lists A (fun p => U p /\ exists v, In v vals' /\ In v (cand s p))).
  { split; auto. intros p. split.
    - intros X. split; auto. exists (f p). split; [apply Hv'; eauto|apply u_in; auto].
    - intros [X [v [Y Z]]]. eapply K1; eauto. }
  exists (length A), A, (py_sorted coord_cmp l), vals'. split; [|split; [|split]].
  - unfold hidden_tuple. split; [auto|]. split; [auto|]. split; [apply py_sorted_lists; auto|]. split; [auto|]. split; [auto|].
    split; [|split; [auto|split; [lia|split; [|auto]]]].
    + intros v X. split; auto. pose proof X as X'. apply Hv' in X'. destruct X' as [a [Y E]].
      rewrite <- E. apply (proj1 St a); auto. apply u_in; auto.
    + split; auto. intros p. rewrite Ha. split.
      * intros [X [Y [v [Z1 Z2]]]].
        assert (L : lsingle p = false).
        { destruct (lsingle p) eqn:E; auto. exfalso. pose proof (u_single p X E) as Es. rewrite Es in Z2.
          destruct Z2 as [Z2|[]]. rewrite Z2 in Es. apply Hv in Z1. destruct Z1 as [c [Z3 Z4]].
          apply (proj2 St p c v X (Uc c Z3)); auto. intros ->. auto. }
        split; [apply HA; auto|]. exists v. split; auto. intros B. apply (D1 v); auto.
      * intros [X [v [Y Z]]]. pose proof X as X'. apply HA in X'. destruct X' as [X1 [X2 X3]]. split; auto. split; auto.
        exists v. split; auto. destruct (in_dec Z.eq_dec v vals) as [|B]; auto. exfalso. apply Z. eapply K2; eauto.
  - destruct aff as [|a aff]; [congruence|]. assert (X : In a (a :: aff)) by (left; auto). apply Ha in X.
    destruct X as [X [Y [v [Z1 Z2]]]].
    assert (L : lsingle a = false).
    { destruct (lsingle a) eqn:E; auto. exfalso. pose proof (u_single a X E) as Es. rewrite Es in Z2.
      destruct Z2 as [Z2|[]]. rewrite Z2 in Es. apply Hv in Z1. destruct Z1 as [c [Z3 Z4]].
      apply (proj2 St a c v X (Uc c Z3)); auto. intros ->. auto. }
    destruct (K3 (f a)) as [l' [_ L']]; [|lia]. apply Hv'. exists a. split; auto. apply HA; auto.
  - rewrite <- Lc, <- app_length. apply u_count.
    + apply NoDup_app_iff. split; auto. split; auto. intros p X Y. apply HA in Y. tauto.
    + intros p X. apply in_app_iff in X. destruct X; auto.
  - intros p x X Y. split; [intros B C; apply (D1 x); auto|]. intros Z. apply Ha in X. destruct X as [X [X1 [v [Z1 Z2]]]].
    destruct (in_dec Z.eq_dec x vals) as [|B]; auto. exfalso. apply Z. apply (K2 p x); auto.
    destruct (lsingle p) eqn:E; auto. exfalso. pose proof (u_single p X E) as Es. rewrite Es in Y, Z2.
    destruct Z2 as [Z2|[]]. destruct Y as [Y|[]]. congruence.
Qed.
End Unit.
