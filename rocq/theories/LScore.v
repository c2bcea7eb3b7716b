(** Lemmas for C124: solve() fills every empty field exactly once, and what follows for score(). *)
From Verif Require Export LSizes SpecScore LSolvers6.

Local Opaque MSudoku.surrounding_of.

Definition sets (l : list step) : list coord := flat_map affected (filter (fun st => LSolvers3.writes (st_class st)) l).
Lemma sets_app : forall a b, sets (a ++ b) = sets a ++ sets b.
Proof. intros a b. unfold sets. rewrite filter_app, flat_map_app. reflexivity. Qed.
Lemma in_sets : forall l p, In p (sets l) <-> exists st, In st l /\ LSolvers3.writes (st_class st) = true /\ In p (affected st).
Proof.
  intros l p. unfold sets. rewrite in_flat_map. split; intros [st H]; exists st; rewrite filter_In in *; tauto.
Qed.
Lemma writes_filling : forall cls, LSolvers3.writes cls = true <-> filling cls.
Proof. intros []; unfold filling; simpl; split; intros H; try discriminate; auto; destruct H as [H|[H|H]]; discriminate. Qed.

Section Once.
Variables w h : Z.
Hypothesis Hw : 1 <= w.
Hypothesis Hh : 1 <= h.

Definition fills (s : sudoku) (l : list step) (t : sudoku) : Prop :=
  NoDup (sets l) /\
  (forall p, In p (sets l) -> cell w h p /\ num s p = 0 /\ num t p <> 0) /\
  (forall p, cell w h p -> ~ In p (sets l) -> num t p = num s p) /\
  (forall st, In st l -> LSolvers3.writes (st_class st) = true -> exists p, affected st = [p] /\ values st = [num t p]).

Lemma fills_refl : forall s t, (forall p, cell w h p -> num t p = num s p) -> fills s [] t.
Proof. intros s t H. split; [constructor|]. split; [intros p []|]. split; auto. intros st []. Qed.
Lemma fills_trans : forall s l t l' u, fills s l t -> fills t l' u -> fills s (l ++ l') u.
Proof.
  intros s l t l' u [A1 [A2 [A3 A4]]] [B1 [B2 [B3 B4]]].
  assert (D : forall p, In p (sets l) -> ~ In p (sets l')).
  { intros p H1 H2. destruct (A2 p H1) as [_ [_ X]]. destruct (B2 p H2) as [_ [Y _]]. congruence. }
  assert (Same : forall p, In p (sets l) -> num u p = num t p) by (intros p H; apply B3; [apply A2|apply D]; auto).
  unfold fills. rewrite sets_app. split; [|split; [|split]].
  - apply NoDup_app_iff. splits; auto.
  - intros p H. apply in_app_iff in H. destruct H as [H|H].
    + rewrite (Same p H). apply A2; auto.
    + destruct (B2 p H) as [Cp [Z0 N0]]. splits; auto. rewrite <- (A3 p Cp); auto. intros X. exact (D p X H).
  - intros p Cp H. rewrite in_app_iff in H. rewrite B3, A3; auto.
  - intros st H Wr. apply in_app_iff in H. destruct H as [H|H]; [|apply B4; auto].
    destruct (A4 st H Wr) as [p [E1 E2]]. exists p. split; auto. rewrite Same; auto. apply in_sets. exists st. rewrite E1. simpl; auto.
Qed.

Lemma link_fills : forall (F : grid -> Prop) cls g s st t, F g -> valid_grid w h g -> link w h F cls s st t -> fills s [st] t.
Proof.
  intros F cls g s st t Hg V L. pose proof L as [Wi [_ [L1 [_ [La [Le [[_ [_ [_ L3]]] [L4 _]]]]]]]].
  destruct (LSolvers3.writes (st_class st)) eqn:Wr.
  - specialize (L4 g Hg). unfold sound in L4.
    assert (X : exists p v, affected st = [p] /\ values st = [v] /\ num s p = 0 /\ v = g p /\ (forall q, cell w h q -> num t q = if coord_eqb q p then v else num s q)).
    { unfold effective in Le. destruct (st_class st); try discriminate;
        destruct L3 as [p [v [A1 [A2 [A3 _]]]]]; destruct L4 as [p' [B1 B2]]; destruct Le as [p'' [v'' [C1 [C2 [C3 C4]]]]];
        assert (p' = p) by congruence; assert (p'' = p) by congruence; assert (v'' = v) by congruence; subst p' p'' v''; exists p, v;
        assert (Gv : v = g p) by congruence; splits; auto; try tauto.
      destruct (wi_num _ _ _ _ Wi g p Hg) as [|E]; [apply La; rewrite A1; left; auto|auto|congruence]. }
    destruct X as [p [v [E1 [E2 [Z0 [Ev Num]]]]]].
    assert (Cp : cell w h p) by (apply La; rewrite E1; left; auto). pose proof (proj1 V p Cp) as Rp.
    assert (Tp : num t p = v) by (rewrite Num, coord_eqb_refl; auto).
    assert (Es : sets [st] = [p]) by (unfold sets; simpl; rewrite Wr; simpl; rewrite E1; reflexivity).
    unfold fills. rewrite Es. split; [constructor; auto; constructor|]. split; [|split].
    + intros q [<-|[]]. splits; auto. lia.
    + intros q Cq N. rewrite Num by auto. destruct (coord_eqb q p) eqn:E; auto. apply coord_eqb_eq in E. subst. destruct N; left; auto.
    + intros x [<-|[]] _. exists p. rewrite Tp. auto.
  - assert (Es : sets [st] = []) by (unfold sets; simpl; rewrite Wr; reflexivity).
    unfold fills. rewrite Es. split; [constructor|]. split; [intros p []|]. split.
    + intros p Cp _. apply (link_num_eq w h F cls s st t); auto. rewrite <- L1; auto.
    + intros x [<-|[]]. congruence.
Qed.
Lemma chain_fills : forall (F : grid -> Prop) cls g s l t, F g -> valid_grid w h g -> chain (link w h F cls) s l t -> fills s l t.
Proof.
  intros F cls g s l t Hg V C; induction C as [s|s st t l u L C IH]; [apply fills_refl; auto|].
  apply (fills_trans s [st] t l u); auto. apply (link_fills F cls g); auto.
Qed.

Lemma round_fills : forall o s steps u, oracle_ok o -> Good w h s -> solve_round o SOLVERS s = Ok (steps, u) -> Good w h u /\ fills s steps u.
Proof.
  intros o s steps u Ho G E. pose proof G as [SI [g Hg]]. pose proof (SInv_ok _ _ _ _ SI) as O.
  assert (FV : forall g, solution s g -> valid_grid w h g) by (intros; eapply gd_valid; eauto).
  destruct (round_ok w h Hw Hh o Ho (solution s) FV s (SInv_WInv _ _ _ _ SI)) as [st [v [E' R]]].
  rewrite E in E'. injection E' as <- <-.
  inversion R as [st' u' Ns Su C Hn' Hc Hx | cls st' u' Hin Ns Hc St Su C
                     | f st' u' Ns Hc St Sol Ou Hn' Hb C | Hc St Hd]; subst.
  - exfalso. apply Hx. intros p Cp. apply (gd_ne w h); auto.
  - destruct (DED_deductive cls Hin) as [N1 [N2 _]]. destruct (good_ded w h cls s steps u G N2 Su C) as [Gu _].
    split; auto. apply (chain_fills (solution s) cls g); auto.
  - destruct C as [Su C]. { intros p Cp. apply (si_cand _ _ _ _ SI); auto. }
    destruct (good_brute w h f s u Su O Sol Hn') as [Gu _]. split; auto. apply (chain_fills (eq f) Bruteforce f); auto.
  - split; auto. apply fills_refl; auto.
Qed.
Lemma loop_fills : forall o, oracle_ok o -> forall fuel s l t, Good w h s -> solve_loop fuel o s = Ok (l, t) -> fills s l t.
Proof.
  intros o Ho fuel; induction fuel as [|fuel IH]; intros s l t K E; [discriminate|].
  cbn [solve_loop] in E. destruct (solve_round o SOLVERS s) as [[steps u]|] eqn:R; [|discriminate]. cbn [rbind] in E.
  destruct (round_fills o s steps u Ho K R) as [Gu Fu].
  destruct steps as [|x steps]; [injection E as <- <-; exact Fu|].
  destruct (solve_loop fuel o u) as [[l' t']|] eqn:E'; [|discriminate]. cbn [rbind] in E. injection E as <- <-.
  change (fills s ((x :: steps) ++ l') t'). eapply fills_trans; eauto.
Qed.

Lemma solve_fills : forall o fuel s l t f, oracle_ok o -> ok_sudoku w h s -> solution s f -> solve fuel o s = Ok (l, t) -> fills s l t.
Proof.
  intros o fuel s l t f0 Ho O Hf0 H. pose proof O as [W [Ew Eh]].
  destruct (solve_start w h o s O) as [s0 [[A0 E0] [O0 [N0 [C0 W0]]]]]. rewrite E0 in H.
  pose proof (solutions_eq w h s s0 O O0 N0) as Sol0.
  assert (FV : forall g, solution s g -> valid_grid w h g) by (intros g Hg; exact (gd_valid w h Hw Hh s g O Hg)).
  destruct (calculate_drive w h (solution s) FV s0 W0) as [st [s1 [E [S1 [C [Hn [Hc Hemp]]]]]]].
  pose proof (SInv_ok _ _ _ _ S1) as O1.
  assert (Sol1 : forall f, solution s1 f <-> solution s f).
  { intros f. rewrite <- Sol0. apply solutions_eq with (w := w) (h := h); auto. }
  assert (G1 : Good w h s1).
  { constructor; [|exists f0; apply Sol1; auto]. eapply SInv_anti; [|exact S1]; intros g Hg; apply Sol1; auto. }
  assert (F0 : fills s [] s0) by (apply fills_refl; auto).
  assert (F1 : fills s0 st s1) by (apply (chain_fills (solution s) CalculateCandidates f0); auto).
  destruct st as [|a st].
  - inv C. change (fills s ([] ++ l) t). eapply fills_trans; eauto. eapply loop_fills; eauto.
  - destruct fuel as [|fuel]; [discriminate|]. cbn [solve_loop] in H. rewrite SOLVERS_eq in H. cbn [solve_round] in H.
    change (MSolvers.find o CalculateCandidates s0) with (calculate_find s0) in H. rewrite E in H. cbn [rbind] in H.
    destruct (solve_loop fuel o s1) as [[l' t']|] eqn:E'; [|discriminate]. cbn [rbind] in H. injection H as <- <-.
    change (fills s ([] ++ (a :: st) ++ l') t'). eapply fills_trans; [exact F0|]. eapply fills_trans; eauto. eapply loop_fills; eauto.
Qed.
End Once.

Lemma loop_more : forall o n k t r, solve_loop n o t = Ok r -> solve_loop (k + n) o t = Ok r.
Proof.
  intros o n; induction n as [|n IH]; intros k t r H; [discriminate|]. rewrite Nat.add_succ_r. cbn [solve_loop] in *.
  destruct (solve_round o SOLVERS t) as [[steps u]|]; [|discriminate]. cbn [rbind] in *. destruct steps as [|x steps]; auto.
  destruct (solve_loop n o u) as [[l v]|] eqn:E; [|discriminate]. rewrite (IH k u (l, v) E). exact H.
Qed.
Lemma solve_agree : forall o s n m r r', wf s -> solve n o s = Ok r -> solve m o s = Ok r' -> r = r'.
Proof.
  intros o s n m r r' W H H'. assert (O : ok_sudoku (box_width s) (box_height s) s) by (split; auto).
  destruct (solve_start _ _ o s O) as [s0 [[_ E0] _]]. rewrite E0 in H, H'.
  pose proof (loop_more o n m s0 r H) as X. pose proof (loop_more o m n s0 r' H') as Y. rewrite Nat.add_comm in Y. congruence.
Qed.

Lemma solve_complete : forall o s f fuel l u, oracle_ok o -> wf s -> solution s f -> solve fuel o s = Ok (l, u) ->
  complete u /\ box_size u = box_size s /\ exists lc l', l = lc ++ l' /\ (forall st, In st lc -> st_class st = CalculateCandidates) /\
    (length l' <= Z.to_nat (box_width s * box_height s) * empties s)%nat.
Proof.
  intros o s f fuel l u Ho W Hf H. assert (O : ok_sudoku (box_width s) (box_height s) s) by (split; auto).
  destruct (solve_ok _ _ (wf_w _ W) (wf_h _ W) o Ho s O (ex_intro _ f Hf)) as [lc [l' [u' [E1 [Ou [E2 [E3 [E4 [E5 _]]]]]]]]].
  pose proof (solve_agree o s _ _ _ _ W (E1 _ (Nat.le_refl _)) H) as X. injection X as <- <-. pose proof Ou as [_ [Ew Eh]].
  split; [|split; [unfold box_size; congruence|]].
  - intros p Fp Z0. unfold field in Fp. rewrite Ew, Eh in Fp. pose proof (proj1 (proj1 E2) p Fp). lia.
  - exists lc, l'. splits; auto.
Qed.

Lemma C124_once_proof : forall o fuel s f l u, oracle_ok o -> wf s -> solution s f -> solve fuel o s = Ok (l, u) ->
  (forall p, field s p -> num s p = 0 -> filled_once l p (num u p)) /\
  (forall st, In st l -> filling (st_class st) -> exists p, field s p /\ num s p = 0 /\ affected st = [p] /\ values st = [num u p]).
Proof.
  intros o fuel s f l u Ho W Hf H. assert (O : ok_sudoku (box_width s) (box_height s) s) by (split; auto).
  pose proof (solve_fills _ _ (wf_w _ W) (wf_h _ W) o fuel s l u f Ho O Hf H) as [A1 [A2 [A3 A4]]].
  destruct (solve_complete o s f fuel l u Ho W Hf H) as [C [Bs _]]. unfold box_size in Bs. injection Bs as Ew Eh.
  split.
  - intros p Fp Z0. destruct (in_dec coord_eq_dec p (sets l)) as [I|N].
    + pose proof I as I'. apply in_sets in I'. destruct I' as [st [Ist [Wr Ip]]]. destruct (A4 st Ist Wr) as [p' [E1 E2]].
      rewrite E1 in Ip. destruct Ip as [->|[]]. apply in_split in Ist. destruct Ist as [l1 [l2 ->]].
      exists l1, st, l2. split; auto. split; [apply writes_filling; auto|]. split; auto. split; auto.
      intros st' Hst Fi Ip. apply writes_filling in Fi.
      assert (I2 : In p (sets (l1 ++ l2))) by (apply in_sets; exists st'; auto).
      change (l1 ++ st :: l2) with (l1 ++ [st] ++ l2) in A1. rewrite !sets_app in A1. rewrite sets_app in I2.
      assert (Es : sets [st] = [p]) by (unfold sets; simpl; rewrite Wr; simpl; rewrite E1; reflexivity). rewrite Es in A1.
      simpl in A1. apply NoDup_remove_2 in A1. auto.
    + exfalso. pose proof (A3 p Fp N) as X. apply (C p); [unfold field; rewrite Ew, Eh; auto|congruence].
  - intros st Ist Fi. apply writes_filling in Fi. destruct (A4 st Ist Fi) as [p [E1 E2]]. exists p.
    destruct (A2 p) as [Cp [Z0 _]]; [apply in_sets; exists st; rewrite E1; simpl; auto|]. splits; auto.
Qed.

Definition cnt (f : step -> bool) (l : list step) : Z := Z.of_nat (length (filter f l)).
Definition wr (st : step) : bool := LSolvers3.writes (st_class st).
Definition el (st : step) : bool := negb (wr st) && negb (match st_class st with CalculateCandidates => true | _ => false end).

Lemma rated_wr : forall k st, rated k (st_class st) ->
  (wr st = true /\ el st = false /\ (k = 1 \/ k = 10)) \/ (wr st = false /\ el st = true /\ 2 <= k <= 7) \/ (wr st = false /\ el st = false /\ k = 0).
Proof.
  intros k st. unfold el, wr. generalize (st_class st). intros cls H. destruct H; cbn [LSolvers3.writes negb andb];
    first [left; split; [reflexivity|split; [reflexivity|lia]]|right; left; split; [reflexivity|split; [reflexivity|lia]]|right; right; auto].
Qed.
Lemma cnt_cons : forall f st l, cnt f (st :: l) = (if f st then 1 else 0) + cnt f l.
Proof. intros f st l. unfold cnt. cbn [filter]. destruct (f st); cbn [length]; lia. Qed.

Lemma sum_bounds : forall r l ks, Forall2 (fun st k => rated k (st_class st)) l ks -> (forall st k, In st l -> rated k (st_class st) -> k <= r) ->
  cnt wr l <= fold_right Z.add 0 ks <= r * cnt wr l + Z.min r 7 * cnt el l /\
  (r <= 1 -> fold_right Z.add 0 ks = cnt wr l) /\
  (forall st, In st l -> rated r (st_class st) -> cnt wr l + r - 1 <= fold_right Z.add 0 ks).
Proof.
  intros r l ks F; induction F as [|st k l ks R F IH]; intros B.
  - unfold cnt; simpl. split; [lia|]. split; [lia|]. intros st [].
  - destruct IH as [I1 [I2 I3]]; [intros; apply (B st0); simpl; auto|]. rewrite !cnt_cons. cbn [fold_right].
    pose proof (B st k (or_introl eq_refl) R) as Bk.
    assert (Hr : forall st0, In st0 l -> rated r (st_class st0) -> cnt wr l + r - 1 <= fold_right Z.add 0 ks) by auto.
    destruct (rated_wr k st R) as [[X [Y Z0]]|[[X [Y Z0]]|[X [Y Z0]]]]; rewrite X, Y.
    + split; [split; [lia|nia]|]. split; [intros; specialize (I2 H); lia|]. intros st0 [<-|Hin] Rr.
      * assert (k = r) by (apply rated_iff in R; apply rated_iff in Rr; congruence). lia.
      * specialize (I3 st0 Hin Rr). lia.
    + split; [split; [lia|nia]|]. split; [lia|]. intros st0 [<-|Hin] Rr.
      * assert (k = r) by (apply rated_iff in R; apply rated_iff in Rr; congruence). lia.
      * specialize (I3 st0 Hin Rr). lia.
    + split; [split; [lia|nia]|]. split; [intros; specialize (I2 H); lia|]. intros st0 [<-|Hin] Rr.
      * assert (k = r) by (apply rated_iff in R; apply rated_iff in Rr; congruence). lia.
      * specialize (I3 st0 Hin Rr). lia.
Qed.

Lemma sets_length : forall l, (forall st, In st l -> wr st = true -> exists p, affected st = [p]) -> Z.of_nat (length (sets l)) = cnt wr l.
Proof.
  induction l as [|st l IH]; intros H; [reflexivity|]. rewrite cnt_cons, <- IH by (intros; apply H; simpl; auto).
  change (st :: l) with ([st] ++ l). rewrite sets_app, app_length. destruct (wr st) eqn:E.
  - destruct (H st (or_introl eq_refl) E) as [p Ep]. assert (Es : sets [st] = [p]) by (unfold sets; simpl; unfold wr in E; rewrite E; simpl; rewrite Ep; reflexivity).
    rewrite Es. simpl length. lia.
  - assert (Es : sets [st] = []) by (unfold sets; simpl; unfold wr in E; rewrite E; reflexivity). rewrite Es. simpl length. lia.
Qed.
Lemma el_length : forall l, cnt wr l + cnt el l <= Z.of_nat (length l).
Proof.
  induction l as [|st l IH]; [unfold cnt; simpl; lia|]. rewrite !cnt_cons. cbn [length].
  assert (E : wr st = true -> el st = false) by (unfold el; intros ->; reflexivity).
  destruct (wr st); [rewrite E by auto; lia|]. destruct (el st); lia.
Qed.
Lemma calc_none : forall l, (forall st, In st l -> st_class st = CalculateCandidates) -> cnt wr l = 0 /\ cnt el l = 0.
Proof.
  induction l as [|st l IH]; intros H; [split; reflexivity|]. destruct IH as [A B]; [intros; apply H; simpl; auto|]. rewrite !cnt_cons, A, B.
  unfold el, wr. rewrite (H st (or_introl eq_refl)). simpl. auto.
Qed.
Lemma cnt_app : forall f a b, cnt f (a ++ b) = cnt f a + cnt f b.
Proof. intros f a b. unfold cnt. rewrite filter_app, app_length. lia. Qed.

Lemma C124_score_proof : forall o s f fuel fuel' r c e, oracle_ok o -> wf s -> solution s f -> rate fuel o s = Ok r -> score fuel' o s = Ok c ->
  NoDup e -> (forall p, In p e <-> field s p /\ num s p = 0) ->
  let n := Z.of_nat (length e) in
  n <= c <= (r + Z.min r 7 * (box_width s * box_height s - 1)) * n /\ (r <= 1 -> c = n) /\ (e <> [] -> n + r - 1 <= c).
Proof.
  intros o s f fuel fuel' r c e Ho W Hf Hr Hc Nd He n. assert (O : ok_sudoku (box_width s) (box_height s) s) by (split; auto).
  destruct (rate_max fuel o s r Hr) as [l [u [E [M1 M2]]]]. destruct (score_sum fuel' o s c Hc) as [l2 [u2 [ks [E' [F ->]]]]].
  pose proof (solve_agree o s _ _ _ _ W E E') as X. injection X as <- <-.
  destruct (solve_complete o s f fuel l u Ho W Hf E) as [C [Bs [lc [l' [El [Hlc Len]]]]]]. unfold box_size in Bs. injection Bs as Ew Eh.
  pose proof (solve_fills _ _ (wf_w _ W) (wf_h _ W) o fuel s l u f Ho O Hf E) as [A1 [A2 [A3 A4]]].
  assert (Ln : cnt wr l = n).
  { rewrite <- sets_length by (intros st H1 H2; destruct (A4 st H1 H2) as [p [X _]]; eauto).
    unfold n. f_equal. apply Permutation_length. apply NoDup_Permutation; auto. intros p. rewrite He. split.
    - intros H. destruct (A2 p H) as [X [Y _]]. auto.
    - intros [Fp Z0]. destruct (in_dec coord_eq_dec p (sets l)) as [|N]; auto. exfalso. pose proof (A3 p Fp N) as X.
      apply (C p); [unfold field; rewrite Ew, Eh; auto|congruence]. }
  rewrite (empties_spec s e W Nd He) in Len. pose proof (wf_w _ W) as Hw. pose proof (wf_h _ W) as Hh. set (N := box_width s * box_height s) in *.
  assert (HN : 1 <= N) by (unfold N; nia).
  assert (Le : cnt el l <= (N - 1) * n).
  { subst l. destruct (calc_none lc Hlc) as [X Y]. rewrite cnt_app in *. rewrite X in Ln. rewrite Y. pose proof (el_length l') as Z0.
    assert (L2 : Z.of_nat (length l') <= N * n) by (unfold n; nia). lia. }
  assert (Bd : forall st k, In st l -> rated k (st_class st) -> k <= r).
  { intros st k Hin R. destruct (M1 st Hin) as [k' [R' Lk]]. apply rated_iff in R. apply rated_iff in R'. assert (k' = k) by congruence. lia. }
  assert (R0 : 0 <= r).
  { destruct M2 as [[_ ->]|[st [_ R]]]; [lia|]. destruct R; lia. }
  destruct (sum_bounds r l ks F Bd) as [S1 [S2 S3]]. rewrite Ln in *. split; [split; [lia|]|].
  - assert (Z.min r 7 * cnt el l <= Z.min r 7 * ((N - 1) * n)) by (apply Z.mul_le_mono_nonneg_l; lia). nia.
  - split; auto. intros Ne. destruct M2 as [[El0 _]|[st [Hin R]]]; [|exact (S3 st Hin R)].
    exfalso. assert (n = 0) by (rewrite <- Ln, El0; reflexivity). unfold n in *. destruct e; [congruence|simpl in *; lia].
Qed.
