(** Proof tools for solvers.py: generators run under interference; units;
    counting arguments. *)
From Verif Require Export SpecSolvers LSudoku LSudoku2 LCoord LSolve.

(** * Generators under interference *)
Section Safe.
Context {A : Type}.
Variable I : sudoku -> Prop.

(** [gsafe Q P g cur]: [g], running while the sudoku is [cur], never raises,
    whenever it yields [a] at sudoku [t] then [Q t a], and it returns [r] at
    sudoku [t] only with [P t r]; the consumer may change the sudoku to
    anything satisfying [I]. *)
Fixpoint gsafe {R} (Q : sudoku -> A -> Prop) (P : sudoku -> R -> Prop)
    (g : gen sudoku A R) (cur : sudoku) : Prop :=
  match g with
  | Ret r => P cur r
  | Raise _ => False
  | Yield a k => Q cur a /\ forall s', I s' -> gsafe Q P (k s') s'
  end.

Lemma gsafe_bind : forall {R R'} Q (P1 : sudoku -> R -> Prop) (P2 : sudoku -> R' -> Prop)
    (g : gen sudoku A R) f cur,
  gsafe Q P1 g cur ->
  (forall t r, P1 t r -> gsafe Q P2 (f r) t) ->
  gsafe Q P2 (gbind g f) cur.
Proof.
  intros R R' Q P1 P2 g f; induction g as [r|a k IH|e]; intros cur H Hf; simpl in *; auto.
  destruct H as [H1 H2]; split; auto.
Qed.

Lemma gsafe_lift : forall {R R'} Q (P : sudoku -> R' -> Prop) (m : res R) r
    (f : R -> gen sudoku A R') cur,
  m = Ok r -> gsafe Q P (f r) cur -> gsafe Q P (gbind (lift m) f) cur.
Proof. intros; subst; auto. Qed.

Lemma gsafe_yield : forall (Q : sudoku -> A -> Prop) a cur, Q cur a ->
  gsafe Q (fun t s => s = t /\ I t) (yield a) cur.
Proof. intros; simpl; split; auto. Qed.

Lemma gsafe_weaken : forall {R} (Q Q' : sudoku -> A -> Prop) (P P' : sudoku -> R -> Prop) g cur,
  gsafe Q P g cur -> (forall t a, Q t a -> Q' t a) -> (forall t r, P t r -> P' t r) ->
  gsafe Q' P' g cur.
Proof.
  intros R Q Q' P P' g; induction g as [r|a k IH|e]; intros cur H HQ HP; simpl in *; auto.
  destruct H; split; auto.
Qed.

Lemma gsafe_gfor : forall {S B} Q (J : S -> sudoku -> Prop) (f : S -> B -> gen sudoku A S) l acc cur,
  (forall x acc cur, In x l -> J acc cur ->
     gsafe Q (fun t acc' => J acc' t) (f acc x) cur) ->
  J acc cur -> gsafe Q (fun t acc' => J acc' t) (gfor f l acc) cur.
Proof.
  intros S B Q J f l; induction l as [|x l IH]; intros acc cur H HJ; simpl; auto.
  eapply gsafe_bind; [apply H; [left; auto|auto]|].
  intros t r Hr; apply IH; auto. intros; apply H; auto. right; auto.
Qed.
End Safe.

Lemma gsafe_gforgen : forall {A B R S} I (Q : sudoku -> A -> Prop) (Qi : sudoku -> B -> Prop)
    (Pi : sudoku -> R -> Prop) (J : sudoku * S -> Prop)
    (body : (sudoku * S) -> B -> gen sudoku A (sudoku * S)) (inner : gen sudoku B R) st,
  gsafe I Qi Pi inner (fst st) ->
  (forall st b, J st -> Qi (fst st) b ->
     gsafe I Q (fun t st' => fst st' = t /\ I t /\ J st') (body st b) (fst st)) ->
  I (fst st) -> J st ->
  gsafe I Q (fun t st' => fst st' = t /\ I t /\ J st') (gforgen body inner st) (fst st).
Proof.
  intros A B R S I Q Qi Pi J body inner.
  induction inner as [r|b k IH|e]; intros st Hi Hb HI HJ; simpl in *; auto.
  destruct Hi as [H1 H2]. eapply gsafe_bind; [apply Hb; auto|].
  intros t st' [E [H3 H4]]; subst t. apply IH; auto.
Qed.

(** What [gsafe] says about the runs of SpecSolvers. *)
Lemma gsafe_yields : forall {R} I Q (P : sudoku -> R -> Prop) (g : gen sudoku step R) s t st,
  gsafe I Q P g s -> yields_when I g s t st -> Q t st.
Proof.
  intros R I Q P g s t st H Y; revert H; induction Y; simpl; intros [H1 H2]; auto.
Qed.

Lemma gsafe_no_raise : forall {R} I Q (P : sudoku -> R -> Prop) (g : gen sudoku step R) s e,
  gsafe I Q P g s -> ~ raises_when I g s e.
Proof.
  intros R I Q P g s e H Y; revert H; induction Y; simpl; auto.
  intros [H1 H2]; auto.
Qed.

(** Without interference. *)
Lemma gsafe_run : forall {A R} (I : sudoku -> Prop) Q (P : sudoku -> R -> Prop) (g : gen sudoku A R) s,
  I s -> gsafe I Q P g s ->
  (exists r, gresult g s = Ok r /\ P s r) /\ forall a, In a (gyields g s) -> Q s a.
Proof.
  intros A R I Q P g s HI; induction g as [r|a k IH|e]; simpl; intros H.
  - split; [exists r; auto | intros a []].
  - destruct H as [H1 H2]. destruct (IH s (H2 s HI)) as [H3 H4]. split; auto.
    intros b [<-|Hb]; auto.
  - destruct H.
Qed.

(** * Units: rows, columns, boxes as lists of fields *)
Section Dims.
Variables w h : Z.
Hypothesis Hw : 1 <= w.
Hypothesis Hh : 1 <= h.

(** A list of pairwise different fields, pairwise peers, where every number
    occurs in every solution. *)
Record unit_list (l : list coord) : Prop := {
  ul_cell : forall p, In p l -> cell w h p;
  ul_nodup : NoDup l;
  ul_peers : forall p q, In p l -> In q l -> p <> q -> peers w h p q;
  ul_all : forall g, valid_grid w h g -> forall v, 1 <= v <= w * h -> exists p, In p l /\ g p = v
}.

Lemma row_unit : forall l r, 0 <= r < w * h -> NoDup l ->
  (forall p, In p l <-> cell w h p /\ fst p = r) -> unit_list l.
Proof.
  intros l r Hr Hn Hl. constructor; auto.
  - intros p Hp; apply Hl in Hp; tauto.
  - intros p q Hp Hq N. apply Hl in Hp; apply Hl in Hq. split; auto.
    left. unfold same_row; destruct Hp, Hq; congruence.
  - intros g V v Hv. apply valid_iff_latin in V; auto. destruct V as [V _].
    destruct (V r Hr v Hv) as [p [H1 [H2 _]]]. exists p; split; auto. apply Hl; auto.
Qed.

Lemma col_unit : forall l c, 0 <= c < w * h -> NoDup l ->
  (forall p, In p l <-> cell w h p /\ snd p = c) -> unit_list l.
Proof.
  intros l r Hr Hn Hl. constructor; auto.
  - intros p Hp; apply Hl in Hp; tauto.
  - intros p q Hp Hq N. apply Hl in Hp; apply Hl in Hq. split; auto.
    right; left. unfold same_col; destruct Hp, Hq; congruence.
  - intros g V v Hv. apply valid_iff_latin in V; auto. destruct V as [_ [V _]].
    destruct (V r Hr v Hv) as [p [H1 [H2 _]]]. exists p; split; auto. apply Hl; auto.
Qed.

Lemma box_unit : forall l q0, cell w h q0 -> NoDup l ->
  (forall p, In p l <-> cell w h p /\ same_box w h p q0) -> unit_list l.
Proof.
  intros l q0 Hq0 Hn Hl. constructor; auto.
  - intros p Hp; apply Hl in Hp; tauto.
  - intros p q Hp Hq N. apply Hl in Hp; apply Hl in Hq. split; auto.
    right; right. unfold same_box in *; destruct Hp as [_ [? ?]], Hq as [_ [? ?]]; split; congruence.
  - intros g V v Hv. apply valid_iff_latin in V; auto. destruct V as [_ [_ V]].
    destruct Hq0 as [B1 B2].
    pose proof (div_bound (fst q0) w h ltac:(lia) B1) as D1.
    rewrite Z.mul_comm in B2. pose proof (div_bound (snd q0) h w ltac:(lia) B2) as D2.
    destruct (V _ _ D1 D2 v Hv) as [p [H1 [H2 _]]]. exists p; split; auto. apply Hl.
    unfold same_box; tauto.
Qed.

(** In a unit with distinct values at distinct fields. *)
Lemma unit_inj : forall l g p q, unit_list l -> valid_grid w h g -> In p l -> In q l ->
  g p = g q -> p = q.
Proof.
  intros l g p q U [_ V] Hp Hq E. destruct (coord_eq_dec p q) as [|N]; auto.
  exfalso. eapply V; eauto; try (eapply ul_cell; eauto). eapply ul_peers; eauto.
Qed.

(** Naked tuples: n fields of a unit with values in a set of at most n. *)
Lemma naked_count : forall l g (fields : list coord) (vals : list Z), unit_list l -> valid_grid w h g ->
  incl fields l -> NoDup fields -> (forall p, In p fields -> In (g p) vals) ->
  (length vals <= length fields)%nat ->
  forall q v, In q l -> ~ In q fields -> In v vals -> g q <> v.
Proof.
  intros l g fields vals U V Hi Hn Hv Hlen q v Hq Hnq Hin E.
  assert (Hincl : incl vals (map g fields)).
  { apply NoDup_length_incl.
    - apply NoDup_map_inj; auto. intros; eapply unit_inj; eauto.
    - rewrite map_length; auto.
    - intros x Hx. apply in_map_iff in Hx; destruct Hx as [p [<- Hp]]; auto. }
  apply Hincl in Hin. apply in_map_iff in Hin; destruct Hin as [p [E' Hp]].
  apply Hnq. replace q with p; auto. eapply unit_inj; eauto. congruence.
Qed.

(** Hidden tuples: n numbers whose fields in the unit lie in a set of at most n
    fields. *)
Lemma hidden_count : forall l g (nums : list Z) (fields : list coord), unit_list l -> valid_grid w h g ->
  incl nums (py_range2 1 (w * h + 1)) -> NoDup nums ->
  (forall p, In p l -> In (g p) nums -> In p fields) ->
  (length fields <= length nums)%nat ->
  forall q, In q fields -> In (g q) nums.
Proof.
  intros l g nums fields U V Hr Hn Hf Hlen q Hq.
  set (pos := fun v => match List.find (fun p => g p =? v) l with Some p => p | None => (0, 0) end).
  assert (Hpos : forall v, In v nums -> In (pos v) l /\ g (pos v) = v).
  { intros v Hv. pose proof (Hr v Hv) as B. apply in_py_range2 in B.
    destruct (ul_all _ U g V v) as [p [Hp E]]; [lia|].
    unfold pos. destruct (List.find (fun p => g p =? v) l) as [p'|] eqn:F.
    - apply find_some in F. destruct F as [F1 F2]; b2p. auto.
    - exfalso. pose proof (find_none _ _ F p Hp) as X; simpl in X; b2p. contradiction. }
  assert (Hincl : incl fields (map pos nums)).
  { apply NoDup_length_incl.
    - apply NoDup_map_inj; auto. intros x y Hx Hy E.
      rewrite <- (proj2 (Hpos x Hx)), <- (proj2 (Hpos y Hy)), E; auto.
    - rewrite map_length; auto.
    - intros x Hx. apply in_map_iff in Hx; destruct Hx as [v [<- Hv]].
      destruct (Hpos v Hv) as [P1 P2]. apply Hf; auto. rewrite P2; auto. }
  apply Hincl in Hq. apply in_map_iff in Hq; destruct Hq as [v [<- Hv]].
  rewrite (proj2 (Hpos v Hv)); auto.
Qed.

(** Fish: [lines] are different base lines; every base line contains a field
    with value [c] within [base]; [keys] are at most as many cover lines as
    there are base lines and contain all fields of [base]. *)
Lemma fish_count : forall g c (line other : coord -> Z) (lines keys : list Z) (base : list coord),
  valid_grid w h g ->
  (forall p q, cell w h p -> cell w h q -> p <> q -> other p = other q -> peers w h p q) ->
  (forall p, In p base -> cell w h p) ->
  NoDup lines ->
  (forall i, In i lines -> exists p, In p base /\ line p = i /\ g p = c) ->
  (forall p, In p base -> In (other p) keys) ->
  (length keys <= length lines)%nat ->
  forall q, cell w h q -> In (other q) keys -> ~ In q base -> g q <> c.
Proof.
  intros g c line other lines keys base V Ho Hb Hn Hl Hk Hlen q Cq Kq Nq E.
  set (pos := fun i => match List.find (fun p => (line p =? i) && (g p =? c)) base with
                       | Some p => p | None => (0, 0) end).
  assert (Hpos : forall i, In i lines -> In (pos i) base /\ line (pos i) = i /\ g (pos i) = c).
  { intros i Hi. destruct (Hl i Hi) as [p [P1 [P2 P3]]].
    unfold pos. destruct (List.find (fun p => (line p =? i) && (g p =? c)) base) as [p'|] eqn:F.
    - apply find_some in F. destruct F as [F1 F2]; b2p. auto.
    - exfalso. pose proof (find_none _ _ F p P1) as X; simpl in X.
      rewrite P2, P3, !Z.eqb_refl in X. discriminate. }
  assert (Hincl : incl keys (map (fun i => other (pos i)) lines)).
  { apply NoDup_length_incl.
    - apply NoDup_map_inj; auto. intros x y Hx Hy E'.
      destruct (Hpos x Hx) as [P1 [P2 P3]], (Hpos y Hy) as [Q1 [Q2 Q3]].
      destruct (coord_eq_dec (pos x) (pos y)) as [D|D]; [congruence|].
      exfalso. apply (proj2 V (pos x) (pos y)); auto. congruence.
    - rewrite map_length; auto.
    - intros x Hx. apply in_map_iff in Hx; destruct Hx as [i [<- Hi]].
      apply Hk. apply Hpos; auto. }
  apply Hincl in Kq. apply in_map_iff in Kq; destruct Kq as [i [E' Hi]].
  destruct (Hpos i Hi) as [P1 [P2 P3]].
  assert (D : pos i <> q) by (intros D; rewrite <- D in Nq; auto).
  apply (proj2 V (pos i) q); auto. congruence.
Qed.

(** Pointing: all fields of unit [l] with value [c] possible are in [clues]. *)
Lemma pointing_count : forall l g c (clues : list coord) q, unit_list l -> valid_grid w h g ->
  1 <= c <= w * h ->
  (forall p, In p l -> g p = c -> In p clues) ->
  cell w h q -> ~ In q clues ->
  (forall p, In p clues -> p <> q -> peers w h p q) ->
  g q <> c.
Proof.
  intros l g c clues q U V Hc Hcl Cq Nq Hp E.
  destruct (ul_all _ U g V c Hc) as [p [P1 P2]].
  assert (In p clues) by auto.
  assert (D : p <> q) by (intros D; subst; auto).
  apply (proj2 V p q); auto; [eapply ul_cell; eauto|congruence].
Qed.
End Dims.

(** * The unit functions on a well-formed sudoku *)
Definition unit_rel (s : sudoku) (u : coord -> coord -> Prop) (f : unit_func) : Prop :=
  (f = f_row /\ u = same_row) \/ (f = f_col /\ u = same_col) \/
  (f = f_box /\ u = same_box (box_width s) (box_height s)).

Lemma unit_func_spec : forall s f u r c i, wf s -> unit_rel s u f -> field s (r, c) ->
  exists l, f s r c i = Ok l /\ NoDup l /\
  forall p, In p l <-> field s p /\ u p (r, c) /\ (i = true \/ p <> (r, c)).
Proof.
  intros s f u r c i W H F. destruct W as [w1 w2 _ _ _ _ _].
  destruct H as [[-> ->]|[[-> ->]|[-> ->]]].
  - exists (row_of s r c i). split; [reflexivity|]. rewrite method_row_of.
    destruct (row_of_spec _ _ w1 w2 r c i F) as [H1 [H2 _]]. auto.
  - exists (column_of s r c i). split; [reflexivity|]. rewrite method_column_of.
    destruct (column_of_spec _ _ w1 w2 r c i F) as [H1 [H2 _]]. auto.
  - unfold f_box. rewrite method_box_of.
    destruct (box_of_spec _ _ w1 w2 r c i F) as [l [H0 [H1 [H2 _]]]]. exists l; auto.
Qed.

Lemma unit_func_list : forall s f u r c, wf s -> unit_rel s u f -> field s (r, c) ->
  exists l, f s r c true = Ok l /\ unit_list (box_width s) (box_height s) l /\
  forall p, In p l <-> field s p /\ u p (r, c).
Proof.
  intros s f u r c W H F. destruct (unit_func_spec s f u r c true W H F) as [l [E [N L]]].
  assert (L' : forall p, In p l <-> field s p /\ u p (r, c)) by (intros p; rewrite L; tauto).
  exists l; split; auto. split; auto. clear L.
  pose proof (wf_w _ W); pose proof (wf_h _ W). unfold field in *.
  destruct H as [[-> ->]|[[-> ->]|[-> ->]]].
  - apply row_unit with (r := r); auto. apply F.
  - apply col_unit with (c := c); auto. apply F.
  - apply box_unit with (q0 := (r, c)); auto.
Qed.
