(** dlx enumerates the solutions (C22-C25, C27). *)
From Verif Require Export LDlx.

(** * Grids and exact covers *)
Section Grids.
Variables R C : Z.
Hypothesis R1 : 1 <= R.
Hypothesis C1 : 1 <= C.
Notation n := (R * C).
Notation K := (keys_of R C).

Definition gl (l : list xrow) (p : coord) : Z :=
  match find (fun i => coord_eqb (fst i) p) l with Some i => snd i | None => 0 end.

Lemma cellRC : forall p, cell C R p <-> 0 <= fst p < n /\ 0 <= snd p < n.
Proof. intros p; unfold cell; rewrite (Z.mul_comm C R); tauto. Qed.

Lemma vrow_iff : forall p m, vrow R C (p, m) <-> cell C R p /\ 1 <= m <= n.
Proof. intros [r c] m. rewrite in_all_rows, cellRC; simpl; tauto. Qed.

Lemma Exact_disj : forall cov l i i', Exact R C cov l -> In i l -> In i' l -> i <> i' ->
  disj (K i) (K i').
Proof.
  intros cov l i i' [_ [E _]] Hi Hi' Hne.
  induction E as [|x l Hx E IH]; [destruct Hi|].
  rewrite Forall_forall in Hx. destruct Hi as [<-|Hi], Hi' as [<-|Hi']; auto; [congruence|].
  apply disj_sym; auto.
Qed.

Lemma Exact_NoDup : forall cov l, Exact R C cov l -> NoDup l.
Proof.
  intros cov l [_ [E _]]. induction E as [|x l Hx E IH]; constructor; auto.
  intros Hin. rewrite Forall_forall in Hx. specialize (Hx x Hin).
  destruct x as [[r c] m]. apply (Hx (RC r c)); simpl; auto.
Qed.

Lemma gl_spec : forall l, Exact R C [] l -> forall p m, In (p, m) l <-> cell C R p /\ m = gl l p.
Proof.
  intros l E p m. unfold gl.
  destruct (find (fun i => coord_eqb (fst i) p) l) as [[p' m']|] eqn:F.
  - apply find_some in F. destruct F as [Hin Ep]; simpl in Ep. apply coord_eqb_eq in Ep; subst p'.
    simpl. split.
    + intros H. split; [destruct E as [E _]; destruct (E _ H) as [V _]; apply vrow_iff in V; tauto|].
      destruct (Z.eq_dec m m'); auto. exfalso. destruct p as [r c].
      apply (Exact_disj [] l (r, c, m) (r, c, m') E H Hin) with (k := RC r c); simpl; auto. congruence.
    + intros [_ ->]; auto.
  - split.
    + intros H. exfalso. pose proof (find_none _ _ F _ H) as F'. simpl in F'.
      rewrite coord_eqb_refl in F'; discriminate.
    + intros [Hc _]. exfalso. destruct p as [r c].
      destruct E as [E1 [E2 E3]]. destruct (E3 (RC r c)) as [[[r' c'] m'] [Hin Hk]].
      * apply in_all_keys; auto. apply cellRC in Hc; auto.
      * auto.
      * simpl in Hk. destruct Hk as [Hk|[Hk|[Hk|[Hk|[]]]]]; try discriminate. inv Hk.
        pose proof (find_none _ _ F _ Hin) as F'. simpl in F'. rewrite coord_eqb_refl in F'; discriminate.
Qed.

Lemma gl_valid : forall l, Exact R C [] l -> valid_grid C R (gl l).
Proof.
  intros l E. pose proof (gl_spec l E) as H. split.
  - intros p Hc. assert (Hin : In (p, gl l p) l) by (apply H; auto).
    destruct E as [E _]. apply E in Hin. destruct Hin as [V _]. apply vrow_iff in V. lia.
  - intros p q Hp Hq [Hne P] Heq.
    assert (Hip : In (p, gl l p) l) by (apply H; auto).
    assert (Hiq : In (q, gl l p) l) by (apply H; auto).
    assert (D : disj (K (p, gl l p)) (K (q, gl l p))).
    { apply (Exact_disj [] l); auto. congruence. }
    destruct p as [r c], q as [r' c']. unfold same_row, same_col, same_box in P; simpl in P.
    destruct P as [P|[P|[P1 P2]]].
    + subst r'. apply (D (RN r (gl l (r, c)))); simpl; auto.
    + subst c'. apply (D (CN c (gl l (r, c)))); simpl; auto.
    + apply (D (BN (r / R * R + c / C) (gl l (r, c)))); simpl; auto.
      rewrite P1, P2; auto 6.
Qed.

Definition grows (f : grid) (l : list coord) : list xrow := map (fun p => (p, f p)) l.

Lemma box_no_inj : forall r c r' c', 0 <= r < n -> 0 <= c < n -> 0 <= r' < n -> 0 <= c' < n ->
  r / R * R + c / C = r' / R * R + c' / C -> r / R = r' / R /\ c / C = c' / C.
Proof.
  intros r c r' c' Hr Hc Hr' Hc' E.
  destruct (box_no R C R1 C1 r c Hr Hc) as [B1 [B2 _]].
  destruct (box_no R C R1 C1 r' c' Hr' Hc') as [B1' [B2' _]]. apply (Z.div_mod_unique R); lia.
Qed.

Lemma grid_Exact : forall f l, valid_grid C R f -> NoDup l -> (forall p, In p l <-> cell C R p) ->
  Exact R C [] (grows f l).
Proof.
  intros f l V Hn Hl. pose proof V as [V1 V2]. unfold Exact; splits.
  - intros [p m] Hi. apply in_map_iff in Hi; destruct Hi as [x [Ex Hx]]; inv Ex.
    apply Hl in Hx. split; [apply vrow_iff; split; auto; rewrite (Z.mul_comm R C); auto|].
    intros k _ [].
  - assert (G : forall l, NoDup l -> (forall p, In p l -> cell C R p) ->
       ForallOrdPairs (fun a b => disj (K a) (K b)) (grows f l)).
    { clear l Hn Hl. induction l as [|p l IH]; intros Hn Hl; [constructor|]. inv Hn.
      constructor; [|apply IH; auto; intros; apply Hl; right; auto].
      apply Forall_forall. intros [q m] Hq. apply in_map_iff in Hq; destruct Hq as [x [Ex Hx]]; inv Ex.
      assert (Hcp : cell C R p) by (apply Hl; left; auto).
      assert (Hcq : cell C R q) by (apply Hl; right; auto).
      assert (Hne : p <> q) by (intros ->; auto).
      destruct p as [r c], q as [r' c'].
      assert (HP : peers C R (r, c) (r', c') -> f (r, c) <> f (r', c')) by (intros; apply V2; auto).
      unfold peers, same_row, same_col, same_box in HP; simpl in HP.
      intros k Hk Hk'. simpl in Hk, Hk'.
      apply cellRC in Hcp; apply cellRC in Hcq; simpl in *.
      destruct Hk as [<-|[<-|[<-|[<-|[]]]]];
        destruct Hk' as [E|[E|[E|[E|[]]]]]; inversion E as [[Ea Eb]];
        [congruence| | |]; (apply HP; [split; [assumption|] | congruence]).
      - left; congruence.
      - right; left; congruence.
      - destruct (box_no_inj r c r' c') as [B1 B2]; try lia; auto. }
    apply G; auto. intros; apply Hl; auto.
  - intros j Vj _. pose proof (proj1 (valid_iff_latin C R f C1 R1) V) as [L1 [L2 L3]].
    assert (In1 : forall p, cell C R p -> In (p, f p) (grows f l)).
    { intros p Hp. apply in_map_iff. exists p; split; auto. apply Hl; auto. }
    apply in_all_keys in Vj; auto. rewrite (Z.mul_comm R C) in Vj.
    destruct j as [r c|r m|c m|b m].
    + exists ((r, c), f (r, c)); split; [|simpl; auto]. apply In1; unfold cell; simpl; lia.
    + destruct (L1 r) with (v := m) as [[r' c] [[Hc Er] [Ev _]]]; try lia. simpl in Er; subst r'.
      exists ((r, c), f (r, c)); split; [|rewrite Ev; simpl; auto]. apply In1; auto.
    + destruct (L2 c) with (v := m) as [[r c'] [[Hc Er] [Ev _]]]; try lia. simpl in Er; subst c'.
      exists ((r, c), f (r, c)); split; [|rewrite Ev; simpl; auto]. apply In1; auto.
    + destruct Vj as [Vb Vm].
      assert (B : 0 <= b / R < C) by (apply div_bound; lia).
      assert (B' : 0 <= b mod R < R) by (apply Z.mod_pos_bound; lia).
      destruct (L3 (b / R) (b mod R) B B') with (v := m) as [[r c] [[Hc [E1 E2]] [Ev _]]]; try lia.
      simpl in E1, E2.
      exists ((r, c), f (r, c)); split; [apply In1; auto|]. rewrite Ev; simpl.
      right; right; right; left. f_equal. rewrite E1, E2.
      pose proof (Z.div_mod b R ltac:(lia)). lia.
Qed.
End Grids.

(** * The givens *)
Definition givens (s : sudoku) (l : list coord) : list xrow :=
  grows (num s) (filter (fun p => negb (num s p =? 0)) l).

Lemma select_givens_ok : forall s l cov X, wf s -> (forall p, In p l -> field s p) ->
  XI (box_height s) (box_width s) cov X ->
  exists o, select_givens s (build_Y (box_height s) (box_width s)) l X = Ok o /\
  match o with
  | Some X' => exists cov', XI (box_height s) (box_width s) cov' X' /\
      (length X' <= length X)%nat /\
      forall l0, Exact (box_height s) (box_width s) cov' l0 <->
                 Exact (box_height s) (box_width s) cov (givens s l ++ l0)
  | None => forall l0, ~ Exact (box_height s) (box_width s) cov (givens s l ++ l0)
  end.
Proof.
  intros s l; induction l as [|[r c] l IH]; intros cov X W Hl HX.
  - simpl. exists (Some X); split; auto. exists cov; splits; auto. intros; simpl; tauto.
  - cbn [select_givens]. rewrite getitem_ok by (auto; apply Hl; left; auto). cbn [rbind fst snd].
    unfold givens; cbn [filter]. destruct (num s (r, c) =? 0) eqn:E; cbn [negb].
    + apply IH; auto. intros; apply Hl; right; auto.
    + change (grows (num s) ((r, c) :: filter (fun p => negb (num s p =? 0)) l)) with
        ((r, c, num s (r, c)) :: givens s l).
      assert (Dec : (vrow (box_height s) (box_width s) (r, c, num s (r, c)) /\
                     disj (keys_of (box_height s) (box_width s) (r, c, num s (r, c))) cov) \/
                   ~ (vrow (box_height s) (box_width s) (r, c, num s (r, c)) /\
                     disj (keys_of (box_height s) (box_width s) (r, c, num s (r, c))) cov)).
      { destruct (select X (build_Y (box_height s) (box_width s)) (r, c, num s (r, c))) eqn:Es.
        - left. destruct (in_dec xrow_eq_dec (r, c, num s (r, c)) (all_rows (box_height s * box_width s))) as [V|V].
          + split; auto. intros k Hk Hc.
            rewrite (select_err _ _ (wf_h _ W) (wf_w _ W) cov X) in Es; auto; [discriminate|].
            intros [_ D]; apply (D k); auto.
          + rewrite (select_err _ _ (wf_h _ W) (wf_w _ W) cov X) in Es; auto; [discriminate|].
            intros [D _]; apply V; auto.
        - right. intros [V D].
          destruct (select_ok _ _ (wf_h _ W) (wf_w _ W) cov X _ HX V D) as [cols [X' [E' _]]].
          congruence. }
      destruct Dec as [[V D]|D].
      * destruct (select_ok _ _ (wf_h _ W) (wf_w _ W) cov X _ HX V D) as [cols [X' [E' [_ [HX' L]]]]].
        rewrite E'. cbn [fst snd]. pose proof (fun Hl' => IH _ X' W Hl' HX') as [o [Eo Ho]].
        { intros; apply Hl; right; auto. }
        exists o; split; auto. destruct o as [X2|].
        -- destruct Ho as [cov' [HX2 [L2 H2]]]. exists cov'; splits; auto; [lia|].
           intros l0. rewrite H2. simpl app. rewrite Exact_cons. tauto.
        -- intros l0 Ex. simpl app in Ex. apply Exact_cons in Ex. apply (Ho l0); tauto.
      * rewrite (select_err _ _ (wf_h _ W) (wf_w _ W) cov X) by auto.
        exists None; split; auto. intros l0 Ex. simpl app in Ex. apply Exact_cons in Ex. tauto.
Qed.

(** * Writing a solution *)
Lemma givens_in : forall s p m, wf s ->
  (In (p, m) (givens s (coords s)) <-> field s p /\ num s p <> 0 /\ m = num s p).
Proof.
  intros s p m W. unfold givens, grows. rewrite in_map_iff. split.
  - intros [x [E H]]; inv E. apply filter_In in H; destruct H as [H1 H2].
    apply in_coords in H1; b2p; auto.
  - intros [F [H ->]]. exists p; split; auto. apply filter_In; split; [apply in_coords; auto|].
    apply negb_true_iff, Z.eqb_neq; auto.
Qed.

Definition same_filled (s t : sudoku) : Prop :=
  wf t /\ box_width t = box_width s /\ box_height t = box_height s /\
  (forall p, field s p -> num s p <> 0 -> num t p = num s p).

Lemma write_rows_ok : forall s t l, wf s -> same_filled s t ->
  Exact (box_height s) (box_width s) [] (givens s (coords s) ++ l) ->
  exists t', write_rows t l = Ok t' /\ same_filled s t' /\
    forall p, field s p -> num t' p = gl (givens s (coords s) ++ l) p.
Proof.
  intros s t l W [Wt [Ew [Eh Hf]]] Ex.
  pose proof (gl_spec _ _ _ Ex) as Hg.
  assert (Ft : forall p, field t p <-> field s p) by (unfold field; rewrite Ew, Eh; tauto).
  assert (Hpos : forall i, In i l -> field s (fst i) /\ snd i = gl (givens s (coords s) ++ l) (fst i)).
  { intros [p m] Hi. apply Hg. apply in_or_app; auto. }
  destruct (foldM_setitem l (fun i : xrow => fst i) (fun i : xrow => snd i) t Wt) as
    [t' [E [Wt' [Ew' [Eh' [_ [H1 H2]]]]]]].
  { intros i Hi. apply Ft, Hpos; auto. }
  exists t'. split.
  { unfold write_rows. rewrite <- E. apply foldM_ext. intros acc [[r c] m] _; reflexivity. }
  assert (Hnum : forall p, field s p -> num t' p = gl (givens s (coords s) ++ l) p).
  { intros p Fp.
    assert (Hin : In (p, gl (givens s (coords s) ++ l) p) (givens s (coords s) ++ l)) by (apply Hg; auto).
    destruct (in_dec coord_eq_dec p (map (fun i : xrow => fst i) l)) as [D|D].
    - destruct (H2 p) as [i [Hi [Ep Ev]]]; auto. { apply Ft; auto. }
      rewrite Ev. destruct (Hpos i Hi) as [_ Es]. rewrite Es, Ep; auto.
    - rewrite H1; auto; [|apply Ft; auto]. apply in_app_or in Hin. destruct Hin as [Hin|Hin].
      + apply givens_in in Hin; auto. destruct Hin as [_ [Hne ->]]. apply Hf; auto.
      + exfalso; apply D. apply in_map_iff. eexists; split; [|apply Hin]; auto. }
  split; auto. splits; auto; try congruence.
  unfold same_filled; splits; auto; try congruence.
  intros p Fp Hne. rewrite Hnum by auto. symmetry. apply Hg. apply in_or_app; left.
  apply givens_in; auto.
Qed.

Lemma cover_solution : forall s l, wf s ->
  Exact (box_height s) (box_width s) [] (givens s (coords s) ++ l) ->
  solution s (gl (givens s (coords s) ++ l)).
Proof.
  intros s l W Ex. split; [apply gl_valid; auto; apply W|].
  intros p Fp. destruct (Z.eq_dec (num s p) 0); auto. right.
  apply (gl_spec _ _ _ Ex). apply in_or_app; left.
  apply givens_in; auto.
Qed.

Lemma filter_partition : forall {A} (f : A -> bool) l,
  Permutation l (filter f l ++ filter (fun x => negb (f x)) l).
Proof.
  intros A f l; induction l as [|x l IH]; simpl; auto.
  destruct (f x); simpl.
  - constructor; auto.
  - eapply Permutation_trans; [apply perm_skip, IH|]. apply Permutation_middle.
Qed.

Lemma solution_cover : forall s f, wf s -> solution s f ->
  Exact (box_height s) (box_width s) []
    (givens s (coords s) ++ grows f (filter (fun p => negb (negb (num s p =? 0))) (coords s))).
Proof.
  intros s f W [V X]. eapply Exact_perm.
  2: { apply (grid_Exact _ _ (wf_h _ W) (wf_w _ W) f (coords s)); auto.
       - apply NoDup_coords.
       - intros p; apply in_coords. }
  eapply Permutation_trans.
  { unfold grows. apply Permutation_map. apply (filter_partition (fun p => negb (num s p =? 0))). }
  rewrite map_app. unfold givens, grows.
  apply Permutation_app_tail. apply Permutation_refl'. apply map_ext_in.
  intros p Hp. apply filter_In in Hp; destruct Hp as [H1 H2]. apply in_coords in H1; b2p.
  destruct (X p H1); congruence.
Qed.

(** * do_dlx and dlx *)
Section Dlx.
Variable ord : list xrow -> list xrow -> list xrow.
Hypothesis ord_perm : forall p s, Permutation (ord p s) s.

Lemma enumerates_nil : forall s P, (forall f, ~ P f) -> enumerates s P [].
Proof.
  intros s P H; unfold enumerates; splits.
  - intros y [].
  - intros f Hf; exfalso; eapply H; eauto.
  - constructor.
Qed.

Lemma Forall2_In_l : forall {A B} (F : A -> B -> Prop) l m x, Forall2 F l m -> In x l ->
  exists y, In y m /\ F x y.
Proof.
  intros A B F l m x H; induction H as [|a b l m Hab H IH]; intros Hx; [destruct Hx|].
  destruct Hx as [<-|Hx]; [exists b; simpl; auto|]. destruct (IH Hx) as [y [H1 H2]]. exists y; simpl; auto.
Qed.
Lemma Forall2_In_r : forall {A B} (F : A -> B -> Prop) l m y, Forall2 F l m -> In y m ->
  exists x, In x l /\ F x y.
Proof.
  intros A B F l m y H; induction H as [|a b l m Hab H IH]; intros Hx; [destruct Hx|].
  destruct Hx as [<-|Hx]; [exists a; simpl; auto|]. destruct (IH Hx) as [x [H1 H2]]. exists x; simpl; auto.
Qed.
Lemma Forall2_FOP : forall {A B} (F : A -> B -> Prop) (Q : A -> A -> Prop) (Q' : B -> B -> Prop) l m,
  Forall2 F l m -> ForallOrdPairs Q l ->
  (forall a a' b b', In a l -> In a' l -> F a b -> F a' b' -> Q a a' -> Q' b b') ->
  ForallOrdPairs Q' m.
Proof.
  intros A B F Q Q' l m H; induction H as [|a b l m Hab H IH]; intros HQ Hi; [constructor|].
  inv HQ. constructor.
  - apply Forall_forall. intros b' Hb'. destruct (Forall2_In_r _ _ _ _ H Hb') as [a' [Ha' F']].
    rewrite Forall_forall in H2. eapply Hi; eauto; simpl; auto.
  - apply IH; auto. intros; eapply Hi; eauto; simpl; auto.
Qed.
Lemma Forall2_trans' : forall {A B D} (F : A -> B -> Prop) (G : B -> D -> Prop) (H : A -> D -> Prop) l m k,
  (forall a b d, F a b -> G b d -> H a d) ->
  Forall2 F l m -> Forall2 G m k -> Forall2 H l k.
Proof.
  intros A B D F G H l m k Hc HF; revert k; induction HF; intros k HG; inv HG; constructor; eauto.
Qed.

Lemma all_keys_length : forall n, 0 <= n -> length (all_keys n) = (4 * (Z.to_nat n * Z.to_nat n))%nat.
Proof.
  intros n Hn; unfold all_keys. rewrite !app_length, !map_length, !length_list_prod,
    !length_py_range, !length_py_range2. lia.
Qed.

Lemma differ_field : forall s (f g : grid), ~ (forall p, field s p -> f p = g p) ->
  exists p, field s p /\ f p <> g p.
Proof.
  intros s f g H. destruct (existsb (fun p => negb (f p =? g p)) (coords s)) eqn:E.
  - apply existsb_exists in E. destruct E as [p [Hp E]]. apply in_coords in Hp. b2p. eauto.
  - exfalso; apply H. intros p Fp. rewrite existsb_false_iff in E.
    specialize (E p (proj2 (in_coords s p) Fp)). b2p. auto.
Qed.

Definition rel_rows (s : sudoku) (l : list xrow) (y : sudoku) : Prop :=
  wf y /\ box_width y = box_width s /\ box_height y = box_height s /\
  forall p, field s p -> num y p = gl (givens s (coords s) ++ l) p.

(** Both stages yield sudokus related to the exact covers of the remainder. *)
Lemma do_dlx_ok : forall s, wf s ->
  gresult (do_dlx ord s) tt = Ok tt /\
  ((gyields (do_dlx ord s) tt = [] /\ forall f, ~ solution s f) \/
   exists cov ls, Lists (box_height s) (box_width s) cov ls /\
    (forall l0, Exact (box_height s) (box_width s) cov l0 <->
                Exact (box_height s) (box_width s) [] (givens s (coords s) ++ l0)) /\
    Forall2 (rel_rows s) ls (gyields (do_dlx ord s) tt)).
Proof.
  intros s W. unfold do_dlx. cbv zeta.
  destruct (exact_cover_ok _ _ (wf_h _ W) (wf_w _ W)) as [X [E [HX LX]]].
  rewrite E. cbn [lift gbind].
  destruct (select_givens_ok s (coords s) [] X W) as [o [Eo Ho]]; auto.
  { intros; apply in_coords; auto. }
  rewrite Eo. cbn [lift gbind]. destruct o as [X'|].
  - destruct Ho as [cov [HX' [LX' Hcov]]].
    destruct (xsolve_ok _ _ (wf_h _ W) (wf_w _ W) ord ord_perm (S (length (coords s))) cov [] X' HX')
      as [ls [X2 [E2 [HX2 [Y2 HL]]]]].
    { rewrite all_keys_length in LX by (pose proof (NN_pos s W); lia).
      rewrite length_coords, (Z.mul_comm (box_width s)). lia. }
    { lia. }
    assert (Y2' : gyields (xsolve (S (length (coords s))) ord (build_Y (box_height s) (box_width s)) X' []) tt = ls).
    { etransitivity; [exact Y2|]. rewrite <- (map_id ls) at 2. apply map_ext; auto. }
    destruct (gforgen_rel (fun '(tt, s) solution =>
                          do* s := lift (write_rows s solution) in
                          do* _ := yield s in
                          Ret (tt, s))
       (xsolve (S (length (coords s))) ord (build_Y (box_height s) (box_width s)) X' [])
       (rel_rows s) (fun l => Exact (box_height s) (box_width s) [] (givens s (coords s) ++ l))
       (same_filled s) s X2) as [HF [st [Est _]]]; auto.
    + intros [[] t] l Ht Hl. simpl in Ht.
      destruct (write_rows_ok s t l W Ht Hl) as [t' [Et [Ht' Hn]]].
      rewrite Et. cbn. exists (tt, t'), t'. splits; auto.
      unfold rel_rows; splits; auto; apply Ht'.
    + unfold same_filled; auto.
    + rewrite Y2'. intros l Hl. apply Hcov. apply HL; auto.
    + rewrite Y2' in HF. rewrite gresult_gbind, gyields_gbind, Est. cbn. rewrite app_nil_r.
      split; auto. right. exists cov, ls; splits; auto.
  - cbn. split; auto. left; split; auto. intros f Sf.
    apply (Ho _ (solution_cover s f W Sf)).
Qed.

Lemma lists_enumerate : forall s cov ls ys, wf s ->
  Lists (box_height s) (box_width s) cov ls ->
  (forall l0, Exact (box_height s) (box_width s) cov l0 <->
              Exact (box_height s) (box_width s) [] (givens s (coords s) ++ l0)) ->
  Forall2 (rel_rows s) ls ys -> enumerates s (solution s) ys.
Proof.
  intros s cov ls ys W [L1 [L2 L3]] Hcov HF. unfold enumerates; splits.
  - intros y Hy. destruct (Forall2_In_r _ _ _ _ HF Hy) as [l [Hl [Wy [Ew [Eh Hn]]]]].
    splits; auto; [unfold box_size; congruence|].
    assert (Sg : solution s (gl (givens s (coords s) ++ l))).
    { apply cover_solution; auto. apply Hcov, L1; auto. }
    destruct Sg as [[V1 V2] X]. split; [split|].
    + intros p Hp. rewrite Hn by auto; auto.
    + intros p q Hp Hq P. rewrite !Hn by auto; auto.
    + intros p Hp. rewrite Hn by auto. apply X; auto.
  - intros f Sf. pose proof (solution_cover s f W Sf) as Ex. apply Hcov in Ex.
    destruct (L2 _ Ex) as [l [Hl Pl]].
    destruct (Forall2_In_l _ _ _ _ HF Hl) as [y [Hy [Wy [Ew [Eh Hn]]]]].
    exists y; split; auto. intros p Fp. assert (Fs : field s p) by (unfold field in *; rewrite <- Ew, <- Eh; auto).
    rewrite Hn by auto. symmetry.
    apply (gl_spec (box_height s) (box_width s) (givens s (coords s) ++ l)); [apply Hcov, L1; auto|].
    destruct (Z.eq_dec (num s p) 0) as [E0|E0].
    + apply in_or_app; right. eapply Permutation_in; [apply Pl|].
      apply in_map_iff. exists p; split; auto. apply filter_In; split; [apply in_coords; auto|].
      rewrite E0; auto.
    + apply in_or_app; left. apply givens_in; auto. splits; auto.
      destruct Sf as [_ X]. destruct (X p Fs); congruence.
  - eapply Forall2_FOP; [apply HF | apply L3 |].
    intros l l' y y' Hl Hl' [Wy [Ew [Eh Hn]]] [Wy' [Ew' [Eh' Hn']]] NP.
    apply differ_field. intros Heq. apply NP.
    apply (Permutation_app_inv_l (givens s (coords s))).
    assert (Ex : Exact (box_height s) (box_width s) [] (givens s (coords s) ++ l)) by (apply Hcov, L1; auto).
    assert (Ex' : Exact (box_height s) (box_width s) [] (givens s (coords s) ++ l')) by (apply Hcov, L1; auto).
    apply NoDup_Permutation; [eapply Exact_NoDup; eauto | eapply Exact_NoDup; eauto|].
    intros [p m]. rewrite (gl_spec _ _ _ Ex), (gl_spec _ _ _ Ex').
    split; intros [Hc ->]; split; auto; rewrite <- Hn, <- Hn' by auto; [|symmetry]; apply Heq; auto.
Qed.

Lemma dlx_ok : forall s, wf s ->
  gresult (dlx ord s) tt = Ok tt /\
  enumerates s (solution s) (gyields (dlx ord s) tt) /\
  (forall y, In y (gyields (dlx ord s) tt) -> forall p, field s p -> cand y p = []).
Proof.
  intros s W. unfold dlx.
  destruct (copy_ok s false W) as [t [E [Wt [Ew [Eh [Hn Hc]]]]]].
  rewrite E. cbn [lift gbind].
  assert (Ft : forall p, field t p <-> field s p) by (unfold field; rewrite Ew, Eh; tauto).
  destruct (do_dlx_ok t Wt) as [Er HD].
  assert (Hwf : forall y, In y (gyields (do_dlx ord t) tt) -> wf y /\ box_width y = box_width t /\ box_height y = box_height t).
  { intros y Hy. destruct HD as [[Hnil _]|[cov [ls [HL [Hcov HF]]]]]; [rewrite Hnil in Hy; destruct Hy|].
    destruct (Forall2_In_r _ _ _ _ HF Hy) as [l [Hl [Wy [Ew' [Eh' _]]]]]; auto. }
  set (F := fun y z : sudoku => wf z /\ box_width z = box_width t /\ box_height z = box_height t /\
      (forall p, field s p -> num z p = num y p) /\ (forall p, field s p -> cand z p = [])).
  destruct (gforgen_rel (fun (st : unit * unit) solution =>
                      do* c := lift (copy solution false) in
                      do* _ := yield c in
                      Ret st) (do_dlx ord t) F
     (fun y => wf y /\ box_width y = box_width t /\ box_height y = box_height t)
     (fun _ => True) tt tt) as [HF [st [Est _]]]; auto.
  - intros st y _ [Wy [Ewy Ehy]].
    destruct (copy_ok y false Wy) as [z [Ez [Wz [Ewz [Ehz [Hnz Hcz]]]]]].
    rewrite Ez. cbn. exists st, z; splits; auto. unfold F; splits; auto; try congruence.
    + intros p Fp. apply Hnz. unfold field in *. rewrite Ewy, Ehy, Ew, Eh; auto.
    + intros p Fp. apply Hcz. unfold field in *. rewrite Ewy, Ehy, Ew, Eh; auto.
  - rewrite gresult_gbind, gyields_gbind, Est. cbn. rewrite app_nil_r. split; auto.
    assert (Hsol : forall f, solution t f <-> solution s f).
    { intros f; unfold solution, extends. rewrite Ew, Eh.
      split; intros [V X]; split; auto; intros p Fp.
      - rewrite <- Hn by auto. apply X; apply Ft; auto.
      - rewrite Hn by (apply Ft; auto). apply X; apply Ft; auto. }
    split.
    + destruct HD as [[Hnil Hno]|[cov [ls [HL [Hcov HF']]]]].
      * rewrite Hnil in HF. inv HF. apply enumerates_nil. intros f Sf. apply (Hno f). apply Hsol; auto.
      * destruct (lists_enumerate t cov ls (gyields (gforgen (fun (st : unit * unit) solution =>
                      do* c := lift (copy solution false) in
                      do* _ := yield c in
                      Ret st) (do_dlx ord t) (tt, tt)) tt) Wt HL Hcov) as [H1 [H2 H3]].
        { eapply Forall2_trans'; [|apply HF'|apply HF].
          intros l y z [Wy [Ewy [Ehy Hny]]] [Wz [Ewz [Ehz [Hnz Hcz]]]].
          unfold rel_rows; splits; auto. intros p Fp. rewrite Hnz by (apply Ft; auto). auto. }
        unfold enumerates; splits.
        -- intros y Hy. destruct (H1 y Hy) as [Wy [By Sy]]. splits; auto; [|apply Hsol; auto].
           rewrite By. unfold box_size; congruence.
        -- intros f Sf. apply H2. apply Hsol; auto.
        -- eapply FOP_impl; [|apply H3]. intros a b _ _ [p [Fp Hne]]. exists p; split; auto. apply Ft; auto.
    + intros y Hy. destruct (Forall2_In_r _ _ _ _ HF Hy) as [x [_ [_ [_ [_ [_ Hcz]]]]]]. auto.
Qed.
End Dlx.
