(** Lemmas for C117: a sudoku in which some classes find nothing more is not changed by the steps these classes find in
    a sudoku with more candidates. *)
From Verif Require Export LDual2 SpecLevel.
From Coq Require Import Decidable.

Local Opaque MSudoku.surrounding_of.

(** * Lists of the fields with a property *)
Lemma lists_of : forall s (P : coord -> Prop), (forall p, field s p -> decidable (P p)) ->
  exists l, lists l (fun p => field s p /\ P p).
Proof.
  intros s P D.
  assert (G : forall c, StronglySorted lex_lt c -> (forall p, In p c -> field s p) ->
     exists l, StronglySorted lex_lt l /\ forall p, In p l <-> In p c /\ P p).
  { induction c as [|a c IH]; intros S H.
    - exists []. split; [constructor|]. intros p. split; [intros []|tauto].
    - inv S. destruct (IH H2) as [l [Sl Hl]]; [intros; apply H; right; auto|].
      destruct (D a (H a (or_introl eq_refl))) as [Pa|Na].
      + exists (a :: l). split.
        * constructor; auto. rewrite Forall_forall in *. intros p Hp. apply H3. apply Hl; auto.
        * intros p. simpl. rewrite Hl. intuition (subst; auto).
      + exists l. split; auto. intros p. rewrite Hl. simpl. intuition (subst; auto; contradiction). }
  destruct (G (coords s) (coords_sorted s)) as [l [S H]].
  { intros p; apply in_coords. }
  exists l. split; auto. intros p. rewrite H, in_coords. tauto.
Qed.

Lemma dec_in : forall {A} (e : forall x y : A, {x = y} + {x <> y}) (a : A) (l : list A), decidable (In a l).
Proof. intros A e a l. destruct (in_dec e a l); [left|right]; auto. Qed.
Lemma dec_z : forall a b : Z, decidable (a = b).
Proof. intros a b. destruct (Z.eq_dec a b); [left|right]; auto. Qed.
Lemma dec_ex : forall {A} (l : list A) (P : A -> Prop), (forall x, decidable (P x)) -> decidable (exists x, In x l /\ P x).
Proof.
  intros A l P D; induction l as [|a l IH].
  - right. intros [x [[] _]].
  - destruct (D a) as [Y|N]; [left; exists a; split; [left; auto|auto]|].
    destruct IH as [[x [H1 H2]]|N']; [left; exists x; split; [right; auto|auto]|].
    right. intros [x [[<-|H1] H2]]; auto. apply N'. eauto.
Qed.
Lemma dec_together : forall s k p q, decidable (together s k p q).
Proof.
  intros s [] p q; simpl; unfold same_row, same_col, same_box; try apply dec_z.
  apply dec_and; apply dec_z.
Qed.
Lemma dec_field : forall s p, decidable (field s p).
Proof.
  intros s p. unfold field, cell. repeat (apply dec_and || apply Z.le_decidable || apply Z.lt_decidable).
Qed.

Lemma two_in : forall {A} (l : list A), NoDup l -> (2 <= length l)%nat -> exists a b, a <> b /\ In a l /\ In b l.
Proof.
  intros A [|a [|b l]] N L; simpl in L; try lia. exists a, b. inv N. split; [|simpl; auto].
  intros ->. apply H1. left; auto.
Qed.
Lemma some_in : forall {A} (l : list A) n, length l = S n -> exists a, In a l.
Proof. intros A [|a l] n L; [discriminate|]. exists a. left; auto. Qed.
Lemma short_eq : forall {A} (l : list A) a b, (length l <= 1)%nat -> In a l -> In b l -> a = b.
Proof. intros A [|x [|y l]] a b L; simpl in *; intros; try lia; intuition congruence. Qed.

(** * The sudoku *)
Section Closed.
Variables (T : sudoku) (g : grid).
Hypothesis W : wf T.
Hypothesis Cg : consistent T g.
Hypothesis Td : forall p x, field T p -> num T p <> 0 -> In x (cand T p) -> x = num T p.
Hypothesis Cm : forall p q x, field T p -> field T q -> peers (box_width T) (box_height T) p q -> num T p <> 0 ->
  In x (cand T q) -> x <> num T p.
Hypothesis Cr : forall p x, field T p -> In x (cand T p) -> 1 <= x <= box_width T * box_height T.
(** NakedSingle and HiddenSingle find nothing. *)
Hypothesis S1 : forall p v, field T p -> cand T p = [v] -> num T p <> 0.
Hypothesis S2 : forall p k v, field T p -> hidden_value T k p v -> num T p <> 0.

Notation N := (box_width T * box_height T).

Lemma cand_nodup : forall p, field T p -> NoDup (cand T p).
Proof. intros p Fp. apply (sset_NoDup _ zcmp_good). apply cand_sset; auto. Qed.
Lemma cand_ne : forall p, field T p -> cand T p <> [].
Proof. intros p Fp E. pose proof (proj2 Cg p Fp) as X. rewrite E in X. destruct X. Qed.
Lemma filled_cand : forall p, field T p -> num T p <> 0 -> cand T p = [num T p].
Proof.
  intros p Fp Np. pose proof (cand_nodup p Fp) as Nd. pose proof (cand_ne p Fp) as Ne.
  destruct (cand T p) as [|a [|b l]] eqn:E; [congruence| |].
  - f_equal. apply Td; auto. rewrite E; left; auto.
  - exfalso. inv Nd. apply H1. left. transitivity (num T p); [|symmetry]; apply Td; auto; rewrite E; simpl; auto.
Qed.
Lemma two_empty : forall p, field T p -> (2 <= length (cand T p))%nat -> num T p = 0.
Proof.
  intros p Fp L. destruct (Z.eq_dec (num T p) 0) as [|D]; auto. rewrite (filled_cand p Fp D) in L. simpl in L. lia.
Qed.
Lemma kind_peers : forall k p q, together T k p q -> p <> q -> peers (box_width T) (box_height T) p q.
Proof. intros k p q H D. split; auto. destruct k; simpl in H; auto. Qed.

(** The only candidate of a field is no candidate of a peer. *)
Lemma single_peer : forall p q v, field T p -> field T q -> cand T p = [v] -> peers (box_width T) (box_height T) p q ->
  ~ In v (cand T q).
Proof.
  intros p q v Fp Fq E P I. pose proof (S1 p v Fp E) as Np. apply (Cm p q v Fp Fq P Np I).
  apply Td; auto. rewrite E; left; auto.
Qed.
Lemma stl : forall k q, settled T k q.
Proof.
  intros k q. split.
  - intros p v [Fp _]. apply Cr; auto.
  - intros p p' v [Fp Tp] [Fp' Tp'] D E. apply (single_peer p p' v); auto. apply (kind_peers k); auto.
    eapply together_trans; eauto. apply together_sym; auto.
Qed.
(** A field that is the only place of a number has no other candidate. *)
Lemma place_single : forall p k v, field T p -> 1 <= v <= N ->
  (forall q, unit_at T k p q -> q <> p -> ~ In v (cand T q)) -> cand T p = [v].
Proof.
  intros p k v Fp Hv H. assert (Np : num T p <> 0) by (apply (S2 p k v Fp); split; auto).
  destruct (u_all T k p g W Fp Cg (stl k p) v Hv) as [p' [U' E]].
  assert (p' = p).
  { destruct (coord_eq_dec p' p) as [|D]; auto. exfalso. apply (H p' U' D). rewrite <- E. apply Cg. apply U'. }
  subst p'. rewrite (filled_cand p Fp Np). f_equal. symmetry. rewrite <- E. apply Td; auto. apply Cg; auto.
Qed.

(** * Naked tuples *)
Lemma keep_naked : forall n, (forall m, (2 <= m <= n)%nat -> forall k q cl aff vals, ~ naked_tuple T m k q cl aff vals) ->
  forall m k q0 (fields : list coord) (vals : list Z), length fields = m -> (m <= n)%nat -> field T q0 -> NoDup fields ->
  (forall p, In p fields -> unit_at T k q0 p) -> (length vals <= m)%nat ->
  (forall p x, In p fields -> In x (cand T p) -> In x vals) ->
  forall q v, unit_at T k q0 q -> ~ In q fields -> In v vals -> ~ In v (cand T q).
Proof.
  intros n Cl m; induction m as [|m IH]; intros k q0 fields vals Lf Ln F0 Nf Uf Lv Hv q v Uq Nq Iv Ic.
  { destruct vals; [destruct Iv|simpl in Lv; lia]. }
  destruct (dec_ex fields (fun p => exists a, In a (cand T p) /\ cand T p = [a])) as [[p [Hp [a [_ Ea]]]]|Ns].
  { intros p. apply dec_ex. intros a. destruct (list_eq_dec Z.eq_dec (cand T p) [a]); [left|right]; auto. }
  - (** a field with one candidate *)
    pose proof (Uf p Hp) as Up.
    assert (Pe : forall x, unit_at T k q0 x -> x <> p -> ~ In a (cand T x)).
    { intros x Ux D. apply (single_peer p x a); auto; [apply Up|apply Ux|].
      apply (kind_peers k); auto. eapply together_trans; [apply Up|]. apply together_sym. apply Ux. }
    destruct (Z.eq_dec v a) as [->|D].
    { apply (Pe q); auto. intros ->; auto. }
    destruct (in_split _ _ Hp) as [l1 [l2 El]].
    assert (Nf' : NoDup (l1 ++ l2) /\ ~ In p (l1 ++ l2)) by (rewrite El in Nf; apply NoDup_remove; auto).
    assert (Sub : forall x, In x (l1 ++ l2) -> In x fields /\ x <> p).
    { intros x Hx. split; [rewrite El; apply in_app_iff in Hx; apply in_app_iff; simpl; tauto|]. intros ->. tauto. }
    assert (Iva : In a vals) by (apply (Hv p); auto; rewrite Ea; left; auto).
    apply (IH k q0 (l1 ++ l2) (remove Z.eq_dec a vals)) with (q := q) (v := v); auto; try lia.
    + rewrite El in Lf. rewrite app_length in *. simpl in Lf. lia.
    + tauto.
    + intros x Hx. apply Uf. apply Sub; auto.
    + pose proof (remove_length_lt Z.eq_dec vals a Iva). lia.
    + intros x y Hx Hy. destruct (Sub x Hx) as [X1 X2]. apply in_in_remove; [|apply (Hv x); auto].
      intros ->. apply (Pe x); auto.
    + intros Hx. apply Nq. apply Sub; auto.
    + apply in_in_remove; auto.
  - (** two or more candidates everywhere *)
    assert (Two : forall p, In p fields -> (2 <= length (cand T p))%nat).
    { intros p Hp. pose proof (cand_ne p (proj1 (Uf p Hp))) as Ne. destruct (cand T p) as [|a [|b l]] eqn:E; simpl; try lia; try congruence.
      exfalso. apply Ns. exists p. split; auto. exists a. rewrite E. split; auto. left; auto. }
    set (vs := py_sorted zcmp (nodup Z.eq_dec (concat (map (cand T) fields)))).
    assert (Hvs : listsz vs (fun x => exists p, In p fields /\ In x (cand T p))).
    { apply py_sorted_listsz; [apply NoDup_nodup|]. intros x. rewrite nodup_In. apply in_concat_map. }
    pose proof (zssorted_nodup _ (proj1 Hvs)) as Nvs. destruct Hvs as [Svs Hvs].
    assert (I1 : incl vs vals) by (intros x Hx; apply Hvs in Hx; destruct Hx as [p [X Y]]; apply (Hv p); auto).
    assert (L1 : (length vs <= S m)%nat) by (apply NoDup_incl_length in I1; auto; lia).
    assert (L2 : (S m <= length vs)%nat).
    { rewrite <- Lf, <- (map_length g fields). apply NoDup_incl_length.
      - apply NoDup_map_inj; auto. intros x y Hx Hy E. apply (u_inj T k q0 g W F0 Cg (stl k q0)); auto.
      - intros x Hx. apply in_map_iff in Hx. destruct Hx as [p [<- Hp]]. apply Hvs. exists p. split; auto. apply Cg. apply Uf; auto. }
    assert (I2 : In v vs) by (apply (NoDup_length_incl Nvs (l' := vals)); auto; lia).
    assert (M2 : (2 <= S m)%nat).
    { destruct (some_in fields m Lf) as [p Ip]. specialize (Two p Ip).
      assert (incl (cand T p) vs) by (intros x Hx; apply Hvs; exists p; split; auto).
      apply NoDup_incl_length in H; [lia|]. apply cand_nodup. apply (Uf p). auto. }
    set (cl := py_sorted coord_cmp fields).
    assert (Hcl : lists cl (fun p => In p fields)) by (apply py_sorted_lists; auto; tauto).
    destruct (some_in fields m Lf) as [p0 I0].
    destruct (lists_of T (fun p => together T k p p0 /\ ~ In p cl /\ exists v, In v vs /\ In v (cand T p))) as [aff Ha].
    { intros p _. apply dec_and; [apply dec_together|]. apply dec_and; [apply dec_not, dec_in, coord_eq_dec|].
      apply dec_ex. intros x. apply dec_in, Z.eq_dec. }
    assert (T0 : together T k p0 q0) by apply (Uf p0 I0).
    apply (Cl (S m) ltac:(lia) k p0 cl aff vs). unfold naked_tuple.
    split; [apply (Uf p0 I0)|]. split; [apply two_empty; auto; apply (Uf p0 I0)|].
    split; [apply Hcl|]. split; [unfold cl; rewrite py_sorted_length; auto|].
    split; [|split; [|split; [|split]]].
    + intros p Hp. apply Hcl in Hp. split; [apply (unit_at_same T k p0 q0); auto|]. split; auto.
      assert (incl (cand T p) vs) by (intros x Hx; apply Hvs; exists p; auto).
      apply NoDup_incl_length in H; [lia|]. apply cand_nodup. apply (Uf p); auto.
    + split; auto. intros x. rewrite Hvs. split; intros [p [X Y]]; exists p; split; auto; apply Hcl; auto.
    + lia.
    + eapply lists_ext; [|exact Ha]. intros p. unfold unit_at. tauto.
    + intros E. assert (In q aff); [|rewrite E in *; auto]. apply Ha. split; [apply Uq|]. split.
      * apply (unit_at_same T k p0 q0) in Uq; auto. apply Uq.
      * split; [|exists v; auto]. intros X. apply Hcl in X. auto.
Qed.

(** * Hidden tuples *)
Lemma keep_hidden : forall n, (forall m, (2 <= m <= n)%nat -> forall k q pl cl aff vals, ~ hidden_tuple T m k q pl cl aff vals) ->
  forall m k q0 (nums : list Z) (fields : list coord), length nums = m -> (m <= n)%nat -> field T q0 -> NoDup nums ->
  (forall v, In v nums -> 1 <= v <= N) -> (length fields <= m)%nat ->
  (forall p v, unit_at T k q0 p -> In v nums -> In v (cand T p) -> In p fields) ->
  forall q x, unit_at T k q0 q -> In q fields -> In x (cand T q) -> In x nums.
Proof.
  intros n Cl m; induction m as [|m IH]; intros k q0 nums fields Ln Lm F0 Nn Rn Lf Hf q x Uq Iq Ix.
  { destruct fields; [destruct Iq|simpl in Lf; lia]. }
  assert (Pl : forall v, exists l, lists l (fun p => unit_at T k q0 p /\ In v (cand T p))).
  { intros v. destruct (lists_of T (fun p => together T k p q0 /\ In v (cand T p))) as [l Hl].
    - intros p _. apply dec_and; [apply dec_together|apply dec_in, Z.eq_dec].
    - exists l. eapply lists_ext; [|exact Hl]. intros p. unfold unit_at. tauto. }
  assert (Some1 : forall v, In v nums -> exists p, unit_at T k q0 p /\ g p = v /\ In v (cand T p)).
  { intros v Hv. destruct (u_all T k q0 g W F0 Cg (stl k q0) v (Rn v Hv)) as [p [U E]]. exists p. split; auto. split; auto.
    rewrite <- E. apply Cg. apply U. }
  destruct (dec_ex nums (fun v => exists p, In p fields /\ (unit_at T k q0 p /\ forall p', In p' fields -> p' <> p -> ~ (unit_at T k q0 p' /\ In v (cand T p')))))
    as [[v [Iv [p [Ip [Up Hp]]]]]|Ns].
  { intros v. apply dec_ex. intros p. apply dec_and; [unfold unit_at; apply dec_and; [apply dec_field|apply dec_together]|].
    assert (D : decidable (exists p', In p' fields /\ (p' <> p /\ (unit_at T k q0 p' /\ In v (cand T p'))))).
    { apply dec_ex. intros p'. apply dec_and.
      - destruct (coord_eq_dec p' p); [right|left]; auto.
      - unfold unit_at. apply dec_and; [apply dec_and; [apply dec_field|apply dec_together]|apply dec_in, Z.eq_dec]. }
    destruct D as [[p' [A [B C]]]|D]; [right|left].
    - intros H. apply (H p'); auto.
    - intros p' A B C. apply D. eauto. }
  - (** a number with one place *)
    assert (Ec : cand T p = [v]).
    { apply (place_single p k v); auto; [apply Up|]. intros p' U' D I'.
      assert (U2 : unit_at T k q0 p') by (apply (unit_at_same T k p q0); auto; apply Up).
      apply (Hp p'); auto. apply (Hf p' v); auto. }
    destruct (coord_eq_dec q p) as [->|D].
    { rewrite Ec in Ix. destruct Ix as [<-|[]]; auto. }
    destruct (in_split _ _ Iv) as [l1 [l2 El]].
    assert (Nn' : NoDup (l1 ++ l2) /\ ~ In v (l1 ++ l2)) by (rewrite El in Nn; apply NoDup_remove; auto).
    assert (Sub : forall y, In y (l1 ++ l2) -> In y nums /\ y <> v).
    { intros y Hy. split; [rewrite El; apply in_app_iff in Hy; apply in_app_iff; simpl; tauto|]. intros ->. tauto. }
    apply Sub. apply (IH k q0 (l1 ++ l2) (remove coord_eq_dec p fields)) with (q := q); auto; try lia.
    + rewrite El in Ln. rewrite app_length in *. simpl in Ln. lia.
    + tauto.
    + intros y Hy. apply Rn, Sub; auto.
    + pose proof (remove_length_lt coord_eq_dec fields p Ip). lia.
    + intros p' y U' Hy Hc. apply in_in_remove; [|apply (Hf p' y); auto; apply Sub; auto].
      intros ->. rewrite Ec in Hc. destruct Hc as [<-|[]]. apply (Sub v); auto.
    + apply in_in_remove; auto.
  - (** two or more places for every number *)
    assert (Two : forall v l, In v nums -> lists l (fun p => unit_at T k q0 p /\ In v (cand T p)) -> (2 <= length l <= S m)%nat).
    { intros v l Iv HL. pose proof (lists_nodup _ _ HL) as Nl. destruct HL as [_ Hl].
      assert (incl l fields) by (intros p Hp; apply Hl in Hp; apply (Hf p v); tauto).
      split; [|apply NoDup_incl_length in H; auto; lia].
      destruct (Some1 v Iv) as [p [U [_ I]]].
      assert (Ipl : In p l) by (apply Hl; auto).
      destruct l as [|a [|b l]]; simpl; try lia; [destruct Ipl|]. exfalso. apply Ns. exists v. split; auto.
      exists p. split; [apply H; auto|]. split; auto. intros p' _ D X. apply Hl in X. apply D.
      apply (short_eq [a] p' p); auto. }
    destruct (lists_of T (fun p => together T k p q0 /\ exists v, In v nums /\ In v (cand T p))) as [pl Hpl].
    { intros p _. apply dec_and; [apply dec_together|]. apply dec_ex. intros y. apply dec_in, Z.eq_dec. }
    pose proof (lists_nodup _ _ Hpl) as Npl.
    assert (Upl : forall p, In p pl <-> unit_at T k q0 p /\ exists v, In v nums /\ In v (cand T p)).
    { intros p. rewrite (proj2 Hpl). unfold unit_at. tauto. }
    assert (I1 : incl pl fields).
    { intros p Hp. apply Upl in Hp. destruct Hp as [U [v [A B]]]. apply (Hf p v); auto. }
    assert (L1 : (S m <= length pl)%nat).
    { rewrite <- Ln, <- (map_length g pl). apply NoDup_incl_length; auto. intros v Hv.
      destruct (Some1 v Hv) as [p [U [E I]]]. apply in_map_iff. exists p. split; auto. apply Upl. split; auto. eauto. }
    assert (I2 : In q pl) by (apply (NoDup_length_incl Npl (l' := fields)); auto; lia).
    set (vs := py_sorted zcmp nums).
    assert (Hvs : listsz vs (fun v => In v nums)) by (apply py_sorted_listsz; auto; tauto).
    assert (M2 : (2 <= S m)%nat).
    { destruct (some_in nums m Ln) as [v Iv]. destruct (Pl v) as [l Hl]. pose proof (Two v l Iv Hl). lia. }
    (** an empty field *)
    assert (Emp : exists p1, unit_at T k q0 p1 /\ num T p1 = 0).
    { destruct (some_in nums m Ln) as [v Iv].
      destruct (Pl v) as [l Hl]. destruct (Two v l Iv Hl) as [L2 _]. pose proof (lists_nodup _ _ Hl) as Nl.
      destruct (two_in l Nl L2) as [a [b [D [A B]]]]. apply Hl in A. apply Hl in B.
      exists a. split; [tauto|]. destruct (Z.eq_dec (num T a) 0) as [|Na]; auto. exfalso.
      apply (Cm a b v); try tauto; [apply A|apply B| |].
      - apply (kind_peers k); auto. eapply together_trans; [apply A|]. apply together_sym. apply B.
      - apply Td; try tauto. apply A. }
    destruct Emp as [p1 [U1 E1]].
    destruct (lists_of T (fun p => together T k p p1)) as [cl Hcl]; [intros; apply dec_together|].
    destruct (lists_of T (fun p => In p pl /\ exists y, In y (cand T p) /\ ~ In y vs)) as [aff Ha].
    { intros p _. apply dec_and; [apply dec_in, coord_eq_dec|]. apply dec_ex. intros y. apply dec_not, dec_in, Z.eq_dec. }
    assert (Us : forall p, unit_at T k p1 p <-> unit_at T k q0 p).
    { intros p. apply unit_at_same; auto. apply U1. }
    destruct (in_dec Z.eq_dec x nums) as [|Nx]; auto. exfalso.
    apply (Cl (S m) ltac:(lia) k p1 pl cl aff vs). unfold hidden_tuple.
    split; [apply U1|]. split; auto. split; [exact Hcl|].
    split; [apply Hvs|]. split; [unfold vs; rewrite py_sorted_length; auto|].
    split; [|split; [|split; [|split]]].
    + intros v Hv. apply Hvs in Hv. split; auto. destruct (Pl v) as [l Hl]. exists l. split; [|apply (Two v); auto].
      eapply lists_ext; [|exact Hl]. intros p. cbv beta. rewrite Us. tauto.
    + split; [apply Hpl|]. intros p. rewrite Upl, Us. split; intros [A [v [B C]]]; split; auto; exists v; split; auto; apply Hvs; auto.
    + apply NoDup_incl_length in I1; auto. lia.
    + eapply lists_ext; [|exact Ha]. intros p. cbv beta. split; [tauto|]. intros [A B]. split; auto. apply Upl in A. apply A.
    + intros E. assert (In q aff); [|rewrite E in *; auto]. apply Ha. split; [apply Uq|]. split; auto.
      exists x. split; auto. intros X. apply Hvs in X. auto.
Qed.

(** * Pointing tuples *)
Lemma keep_pointing : forall n, (forall m, (2 <= m <= n)%nat -> forall k k2 q v cl aff, pointing_kinds m k k2 -> ~ pointing T m k k2 q v cl aff) ->
  forall k k2 q0 q2 c (clues : list coord), (k = KBox /\ k2 = KRow \/ k = KBox /\ k2 = KCol \/ k = KRow /\ k2 = KBox \/ k = KCol /\ k2 = KBox) ->
  field T q0 -> 1 <= c <= N -> (length clues <= n)%nat ->
  (forall p, unit_at T k q0 p -> In c (cand T p) -> In p clues) ->
  (forall p, In p clues -> together T k2 p q2) ->
  forall q, unit_at T k2 q2 q -> ~ In q clues -> ~ In c (cand T q).
Proof.
  intros n Cl k k2 q0 q2 c clues K F0 Hc Ln Hcl H2 q Uq Nq Ic.
  destruct (lists_of T (fun p => together T k p q0 /\ In c (cand T p))) as [pl Hpl].
  { intros p _. apply dec_and; [apply dec_together|apply dec_in, Z.eq_dec]. }
  pose proof (lists_nodup _ _ Hpl) as Npl.
  assert (Upl : forall p, In p pl <-> unit_at T k q0 p /\ In c (cand T p)).
  { intros p. rewrite (proj2 Hpl). unfold unit_at. tauto. }
  assert (I1 : incl pl clues) by (intros p Hp; apply Upl in Hp; apply Hcl; tauto).
  assert (L1 : (length pl <= n)%nat) by (apply NoDup_incl_length in I1; auto; lia).
  destruct (u_all T k q0 g W F0 Cg (stl k q0) c Hc) as [p [U E]].
  assert (Ip : In p pl) by (apply Upl; split; auto; rewrite <- E; apply Cg, U).
  assert (Tp : together T k2 p q2) by (apply H2, I1; auto).
  assert (Dq : p <> q) by (intros <-; apply Nq, I1; auto).
  assert (Tpq : together T k2 q p) by (eapply together_trans; [apply Uq|apply together_sym; auto]).
  destruct (le_lt_dec (length pl) 1) as [L|L].
  - assert (Ec : cand T p = [c]).
    { apply (place_single p k c); auto; [apply U|]. intros p' U' D I'. apply D. apply (short_eq pl); auto.
      apply Upl. split; auto. apply (unit_at_same T k p q0); auto. apply U. }
    apply (single_peer p q c); auto; [apply U|apply Uq|]. apply (kind_peers k2); auto. apply together_sym; auto.
  - destruct (lists_of T (fun x => together T k2 x p /\ ~ In x pl /\ In c (cand T x))) as [aff Ha].
    { intros x _. apply dec_and; [apply dec_together|]. apply dec_and; [apply dec_not, dec_in, coord_eq_dec|apply dec_in, Z.eq_dec]. }
    apply (Cl (length pl) ltac:(lia) k k2 p c pl aff).
    + unfold pointing_kinds. assert (length pl <> 1%nat) by lia. tauto.
    + unfold pointing. split; auto. split; auto. split; [|split; [auto|split; [|split]]].
      * eapply lists_ext; [|exact Hpl]. intros x. cbv beta. rewrite (unit_at_same T k p q0) by apply U. unfold unit_at. tauto.
      * intros x Hx. eapply together_trans; [apply H2, I1; auto|apply together_sym; auto].
      * eapply lists_ext; [|exact Ha]. intros x. unfold unit_at. tauto.
      * intros E2. assert (In q aff); [|rewrite E2 in *; auto]. apply Ha. split; [apply Uq|]. split; auto.
Qed.

(** * Fish *)
Section Fish.
Variables (line other : coord -> Z) (kl ko : kind).
Hypothesis HK : (line = fst /\ other = snd /\ kl = KRow /\ ko = KCol) \/ (line = snd /\ other = fst /\ kl = KCol /\ ko = KRow).
Variable c : Z.
Hypothesis Hc : 1 <= c <= N.

Lemma tog_line : forall p q, together T kl p q <-> line p = line q.
Proof. intros p q. destruct HK as [[-> [-> [-> ->]]]|[-> [-> [-> ->]]]]; simpl; unfold same_row, same_col; tauto. Qed.
Lemma tog_other : forall p q, together T ko p q <-> other p = other q.
Proof. intros p q. destruct HK as [[-> [-> [-> ->]]]|[-> [-> [-> ->]]]]; simpl; unfold same_row, same_col; tauto. Qed.
Lemma line_other : forall p q, line p = line q -> other p = other q -> p = q.
Proof.
  intros [a b] [a' b']. destruct HK as [[-> [-> _]]|[-> [-> _]]]; simpl; congruence.
Qed.
Lemma line_field : forall i, 0 <= i < N -> exists p, field T p /\ line p = i.
Proof.
  intros i Hi. exists (i, i). unfold field, cell. destruct HK as [[-> [-> _]]|[-> [-> _]]]; simpl; auto.
Qed.

Lemma keep_fish : forall n, (forall m, (2 <= m <= n)%nat -> forall lines cov cl aff, ~ fish T m line other c lines cov cl aff) ->
  forall m (lines keys : list Z), length lines = m -> (m <= n)%nat -> NoDup lines -> (forall i, In i lines -> 0 <= i < N) ->
  (length keys <= m)%nat ->
  (forall p, field T p -> In (line p) lines -> In c (cand T p) -> In (other p) keys) ->
  forall q, field T q -> In (other q) keys -> ~ In (line q) lines -> ~ In c (cand T q).
Proof.
  intros n Cl m; induction m as [|m IH]; intros lines keys Ll Ln Nl Rl Lk Hk q Fq Kq Nq Ic.
  { destruct keys; [destruct Kq|simpl in Lk; lia]. }
  assert (Pl : forall i, exists l, lists l (fun p => field T p /\ line p = i /\ In c (cand T p))).
  { intros i. apply lists_of. intros p _. apply dec_and; [apply dec_z|apply dec_in, Z.eq_dec]. }
  assert (Some1 : forall i, In i lines -> exists p, field T p /\ line p = i /\ In c (cand T p)).
  { intros i Hi. destruct (line_field i (Rl i Hi)) as [q0 [F0 E0]].
    destruct (u_all T kl q0 g W F0 Cg (stl kl q0) c Hc) as [p [[Fp Tp] E]]. exists p. split; auto. split.
    - apply tog_line in Tp. congruence.
    - rewrite <- E. apply Cg; auto. }
  (** dropping a line and a crossing line *)
  assert (Drop : forall i j, In i lines -> In j keys ->
     (forall p, field T p -> In (line p) lines -> line p <> i -> In c (cand T p) -> other p <> j) ->
     forall p, field T p -> In (other p) keys -> other p <> j -> (line p = i \/ ~ In (line p) lines) -> ~ In c (cand T p)).
  { intros i j Ii Ij Hj p Fp Kp Dp Lp. destruct (in_split _ _ Ii) as [l1 [l2 El]].
    assert (Nl' : NoDup (l1 ++ l2) /\ ~ In i (l1 ++ l2)) by (rewrite El in Nl; apply NoDup_remove; auto).
    assert (Sub : forall y, In y (l1 ++ l2) -> In y lines /\ y <> i).
    { intros y Hy. split; [rewrite El; apply in_app_iff in Hy; apply in_app_iff; simpl; tauto|]. intros ->. tauto. }
    apply (IH (l1 ++ l2) (remove Z.eq_dec j keys)); auto; try lia.
    - rewrite El in Ll. rewrite app_length in *. simpl in Ll. lia.
    - tauto.
    - intros y Hy. apply Rl, Sub; auto.
    - pose proof (remove_length_lt Z.eq_dec keys j Ij). lia.
    - intros p' Fp' Hp' Hc'. destruct (Sub _ Hp') as [X1 X2]. apply in_in_remove; [|apply Hk; auto]. apply Hj; auto.
    - apply in_in_remove; auto.
    - intros X. destruct (Sub _ X) as [X1 X2]. tauto. }
  assert (Uniq : decidable (exists i, In i lines /\ exists p, In p (coords T) /\ (line p = i /\ In c (cand T p) /\
       ~ exists p', In p' (coords T) /\ (line p' = i /\ In c (cand T p') /\ p' <> p)))).
  { apply dec_ex. intros i. apply dec_ex. intros p. apply dec_and; [apply dec_z|]. apply dec_and; [apply dec_in, Z.eq_dec|].
    apply dec_not. apply dec_ex. intros p'. apply dec_and; [apply dec_z|]. apply dec_and; [apply dec_in, Z.eq_dec|].
    destruct (coord_eq_dec p' p); [right|left]; auto. }
  destruct Uniq as [[i [Ii [p [Fp [Ep [Ip Hp]]]]]]|Ns].
  - (** a line with one place *)
    apply in_coords in Fp.
    assert (Only : forall p', field T p' -> line p' = i -> In c (cand T p') -> p' = p).
    { intros p' F' E' I'. destruct (coord_eq_dec p' p) as [|D]; auto. exfalso. apply Hp. exists p'. rewrite in_coords. auto. }
    assert (Ec : cand T p = [c]).
    { apply (place_single p kl c); auto. intros p' [F' T'] D I'. apply D. apply Only; auto. apply tog_line in T'. congruence. }
    assert (Off : forall p', field T p' -> other p' = other p -> p' <> p -> ~ In c (cand T p')).
    { intros p' F' E' D. apply (single_peer p p' c); auto. apply (kind_peers ko); auto. apply tog_other; auto. }
    destruct (Z.eq_dec (other q) (other p)) as [E|D].
    { apply (Off q); auto. intros ->. apply Nq. rewrite Ep; auto. }
    apply (Drop i (other p)) with (p := q); auto.
    + apply Hk; auto. rewrite Ep; auto.
    + intros p' F' L' D' I' E'. apply (Off p'); auto. intros ->. auto.
  - (** two or more places in every line *)
    assert (Two : forall i l, In i lines -> lists l (fun p => field T p /\ line p = i /\ In c (cand T p)) -> (2 <= length l)%nat).
    { intros i l Ii HL. destruct (Some1 i Ii) as [p [Fp [Ep Ip]]]. assert (Ipl : In p l) by (apply HL; auto).
      destruct l as [|a [|b l]]; simpl; try lia; [destruct Ipl|]. exfalso. apply Ns. exists i. split; auto.
      exists p. rewrite in_coords. split; auto. split; auto. split; auto. intros [p' [F' [E' [I' D']]]]. apply D'.
      apply (short_eq [a]); auto. apply HL. rewrite in_coords in F'. auto. }
    assert (Cross : decidable (exists j, In j keys /\ ~ exists p, In p (coords T) /\ (In (line p) lines /\ In c (cand T p) /\ other p = j /\
        exists p', In p' (coords T) /\ (In (line p') lines /\ In c (cand T p') /\ other p' = j /\ p' <> p)))).
    { apply dec_ex. intros j. apply dec_not. apply dec_ex. intros p. apply dec_and; [apply dec_in, Z.eq_dec|].
      apply dec_and; [apply dec_in, Z.eq_dec|]. apply dec_and; [apply dec_z|].
      apply dec_ex. intros p'. apply dec_and; [apply dec_in, Z.eq_dec|].
      apply dec_and; [apply dec_in, Z.eq_dec|]. apply dec_and; [apply dec_z|]. destruct (coord_eq_dec p' p); [right|left]; auto. }
    destruct Cross as [[j [Ij Hj]]|Full].
    + (** a crossing line with at most one place *)
      assert (Some2 : exists i, In i lines /\ forall p, field T p -> In (line p) lines -> line p <> i -> In c (cand T p) -> other p <> j).
      { assert (D : decidable (exists p, In p (coords T) /\ (In (line p) lines /\ In c (cand T p) /\ other p = j))).
        { apply dec_ex. intros p. apply dec_and; [apply dec_in, Z.eq_dec|]. apply dec_and; [apply dec_in, Z.eq_dec|apply dec_z]. }
        destruct D as [[p [Fp [Lp [Ip Ep]]]]|D].
        - exists (line p). split; auto. intros p' F' L' D' I' E'. apply Hj. exists p. split; auto. split; auto. split; auto. split; auto.
          exists p'. rewrite in_coords. split; auto. split; auto. split; auto. split; auto. intros ->. auto.
        - destruct (some_in lines m Ll) as [i Ii]. exists i. split; auto. intros p Fp Lp _ Ip Ep. apply D.
          exists p. rewrite in_coords. auto. }
      destruct Some2 as [i [Ii Hi]].
      destruct (Pl i) as [l Hl]. pose proof (lists_nodup _ _ Hl) as Nll. pose proof (Two i l Ii Hl) as L2.
      destruct (two_in l Nll L2) as [a [b [D [A B]]]]. apply Hl in A. apply Hl in B.
      destruct A as [Fa [La Ia]]. destruct B as [Fb [Lb Ib]].
      assert (X : forall p, field T p -> line p = i -> In c (cand T p) -> other p = j).
      { intros p Fp Lp Ip. destruct (Z.eq_dec (other p) j) as [|Dj]; auto. exfalso.
        apply (Drop i j Ii Ij Hi p); auto. apply Hk; auto. rewrite Lp; auto. }
      apply D. apply line_other; [congruence|]. rewrite (X a), (X b); auto.
    + (** a fish *)
      assert (Inj : forall i l, lists l (fun p => field T p /\ line p = i /\ In c (cand T p)) -> In i lines -> (length l <= length keys)%nat).
      { intros i l HL Ii. pose proof (lists_nodup _ _ HL) as Nll. rewrite <- (map_length other l). apply NoDup_incl_length.
        - apply NoDup_map_inj; auto. intros x y Hx Hy E. apply HL in Hx. apply HL in Hy. apply line_other; auto. destruct Hx as [_ [-> _]], Hy as [_ [-> _]]. auto.
        - intros y Hy. apply in_map_iff in Hy. destruct Hy as [p [<- Hp]]. apply HL in Hp. destruct Hp as [A [B D]]. apply Hk; auto. rewrite B; auto. }
      assert (M2 : (2 <= S m)%nat).
      { destruct (some_in lines m Ll) as [i Ii].
        destruct (Pl i) as [l Hl]. pose proof (Two i l Ii Hl). pose proof (Inj i l Hl Ii). lia. }
      set (ls := py_sorted zcmp lines).
      assert (Hls : listsz ls (fun i => In i lines)) by (apply py_sorted_listsz; auto; tauto).
      destruct (lists_of T (fun p => In (line p) ls /\ In c (cand T p))) as [cl Hcl].
      { intros p _. apply dec_and; apply dec_in, Z.eq_dec. }
      assert (Icl : forall p, In p cl <-> field T p /\ In (line p) lines /\ In c (cand T p)).
      { intros p. rewrite (proj2 Hcl), (proj2 Hls). tauto. }
      set (cov := py_sorted zcmp (nodup Z.eq_dec keys)).
      assert (Hcov : listsz cov (fun j => In j keys)) by (apply py_sorted_listsz; [apply NoDup_nodup|intros; apply nodup_In]).
      assert (Two2 : forall j, In j keys -> exists p p', In p cl /\ In p' cl /\ p <> p' /\ other p = j /\ other p' = j).
      { intros j Ij.
        assert (D : decidable (exists p, In p (coords T) /\ (In (line p) lines /\ In c (cand T p) /\ other p = j /\
          exists p', In p' (coords T) /\ (In (line p') lines /\ In c (cand T p') /\ other p' = j /\ p' <> p)))).
        { apply dec_ex. intros p. apply dec_and; [apply dec_in, Z.eq_dec|].
          apply dec_and; [apply dec_in, Z.eq_dec|]. apply dec_and; [apply dec_z|].
          apply dec_ex. intros p'. apply dec_and; [apply dec_in, Z.eq_dec|].
          apply dec_and; [apply dec_in, Z.eq_dec|]. apply dec_and; [apply dec_z|]. destruct (coord_eq_dec p' p); [right|left]; auto. }
        destruct D as [[p [A1 [A2 [A3 [A4 [p' [B1 [B2 [B3 [B4 B5]]]]]]]]]]|D]; [|exfalso; apply Full; eauto].
        rewrite in_coords in A1, B1. exists p, p'. rewrite !Icl. splits; auto. }
      destruct (lists_of T (fun p => In (other p) cov /\ ~ In p cl /\ In c (cand T p))) as [aff Ha].
      { intros p _. apply dec_and; [apply dec_in, Z.eq_dec|]. apply dec_and; [apply dec_not, dec_in, coord_eq_dec|apply dec_in, Z.eq_dec]. }
      apply (Cl (S m) ltac:(lia) ls cov cl aff). unfold fish. split; auto. split; [apply Hls|].
      split; [unfold ls; rewrite py_sorted_length; auto|]. split; [|split; [|split; [|split; [|split; [|split]]]]].
      * intros i Hi. apply Hls in Hi. destruct (Pl i) as [l Hl]. exists l. split; auto. pose proof (Two i l Hi Hl). pose proof (Inj i l Hl Hi). lia.
      * exact Hcl.
      * split; [apply Hcov|]. intros j. rewrite (proj2 Hcov). split.
        -- intros Ij. destruct (Two2 j Ij) as [p [_ [A [_ [_ [B _]]]]]]. eauto.
        -- intros [p [A <-]]. apply Icl in A. apply Hk; tauto.
      * unfold cov. rewrite py_sorted_length. eapply Nat.le_trans; [|exact Lk]. apply NoDup_incl_length; [apply NoDup_nodup|]. intros x Hx. apply nodup_In in Hx; auto.
      * intros j Hj. apply Hcov in Hj. auto.
      * exact Ha.
      * intros E. assert (In q aff); [|rewrite E in *; auto]. apply Ha. split; auto. split; [apply Hcov; auto|]. split; auto.
        intros X. apply Icl in X. tauto.
Qed.
End Fish.
End Closed.

(** * The same without an order *)
Definition keeps_single (T : sudoku) : Prop :=
  (forall p q v, field T p -> field T q -> cand T p = [v] -> peers (box_width T) (box_height T) p q -> ~ In v (cand T q)) /\
  (forall p k v, field T p -> 1 <= v <= box_width T * box_height T ->
     (forall q, unit_at T k p q -> q <> p -> ~ In v (cand T q)) -> cand T p = [v]).
Definition keeps_naked (T : sudoku) (n : nat) : Prop :=
  forall k q0 (fields : list coord) (vals : list Z), (length fields <= n)%nat -> field T q0 -> NoDup fields ->
  (forall p, In p fields -> unit_at T k q0 p) -> (length vals <= length fields)%nat ->
  (forall p x, In p fields -> In x (cand T p) -> In x vals) ->
  forall q v, unit_at T k q0 q -> ~ In q fields -> In v vals -> ~ In v (cand T q).
Definition keeps_hidden (T : sudoku) (n : nat) : Prop :=
  forall k q0 (nums : list Z) (fields : list coord), (length nums <= n)%nat -> field T q0 -> NoDup nums ->
  (forall v, In v nums -> 1 <= v <= box_width T * box_height T) -> (length fields <= length nums)%nat ->
  (forall p v, unit_at T k q0 p -> In v nums -> In v (cand T p) -> In p fields) ->
  forall q x, unit_at T k q0 q -> In q fields -> In x (cand T q) -> In x nums.
Definition crossing (k k2 : kind) : Prop :=
  k = KBox /\ k2 = KRow \/ k = KBox /\ k2 = KCol \/ k = KRow /\ k2 = KBox \/ k = KCol /\ k2 = KBox.
Definition keeps_pointing (T : sudoku) (n : nat) : Prop :=
  forall k k2 q0 q2 c (clues : list coord), crossing k k2 -> field T q0 -> 1 <= c <= box_width T * box_height T -> (length clues <= n)%nat ->
  (forall p, unit_at T k q0 p -> In c (cand T p) -> In p clues) ->
  (forall p, In p clues -> together T k2 p q2) ->
  forall q, unit_at T k2 q2 q -> ~ In q clues -> ~ In c (cand T q).
Definition crosses (line other : coord -> Z) : Prop := (line = fst /\ other = snd) \/ (line = snd /\ other = fst).
Definition keeps_fish (T : sudoku) (n : nat) : Prop :=
  forall line other c (lines keys : list Z), crosses line other -> 1 <= c <= box_width T * box_height T -> (length lines <= n)%nat ->
  NoDup lines -> (forall i, In i lines -> 0 <= i < box_width T * box_height T) -> (length keys <= length lines)%nat ->
  (forall p, field T p -> In (line p) lines -> In c (cand T p) -> In (other p) keys) ->
  forall q, field T q -> In (other q) keys -> ~ In (line q) lines -> ~ In c (cand T q).
