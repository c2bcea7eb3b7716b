(** Lemmas for C121: the sizes of the steps that solve() can use. *)
From Verif Require Export SpecSizes LLevel4.

Local Opaque MSudoku.surrounding_of.

(** * Numbers outside of a list *)
Definition zline (N : Z) : list Z := map Z.of_nat (seq 0 (Z.to_nat N)).
Definition outside (N : Z) (l : list Z) : list Z := filter (fun i => if in_dec Z.eq_dec i l then false else true) (zline N).
Lemma in_zline : forall N i, In i (zline N) <-> 0 <= i < N.
Proof.
  intros N i. unfold zline. rewrite in_map_iff. split.
  - intros [n [<- Hn]]. apply in_seq in Hn. lia.
  - intros Hi. exists (Z.to_nat i). rewrite in_seq. lia.
Qed.
Lemma zline_nodup : forall N, NoDup (zline N).
Proof. intros N. apply FinFun.Injective_map_NoDup; [intros a b H; lia|apply seq_NoDup]. Qed.
Lemma in_outside : forall N l i, In i (outside N l) <-> 0 <= i < N /\ ~ In i l.
Proof. intros N l i. unfold outside. rewrite filter_In, in_zline. destruct (in_dec Z.eq_dec i l); split; intros [? ?]; split; auto; try discriminate; tauto. Qed.
Lemma outside_length : forall N l, NoDup l -> (forall i, In i l -> 0 <= i < N) -> (length (outside N l) + length l = Z.to_nat N)%nat.
Proof.
  intros N l Nl Rl.
  assert (NoDup (outside N l ++ l)).
  { apply NoDup_app_iff. split; [apply NoDup_filter, zline_nodup|]. split; auto. intros x H1 H2. apply in_outside in H1. tauto. }
  assert (E : length (outside N l ++ l) = length (zline N)).
  { apply Nat.le_antisymm; apply NoDup_incl_length; auto; try apply zline_nodup.
    - intros x Hx. apply in_zline. apply in_app_iff in Hx. destruct Hx as [Hx|Hx]; auto. apply in_outside in Hx. tauto.
    - intros x Hx. apply in_zline in Hx. apply in_app_iff. destruct (in_dec Z.eq_dec x l); auto. left. apply in_outside. auto. }
  rewrite app_length in E. unfold zline in E. rewrite map_length, seq_length in E. auto.
Qed.

Section Sizes.
Variables w h : Z.
Hypothesis Hw : 1 <= w.
Hypothesis Hh : 1 <= h.
Local Notation kept := (kept w h).

(** * Fish *)
Lemma fish_keeps : forall o n s, oracle_ok o -> kept s -> all_steps o NakedSingle s [] -> all_steps o HiddenSingle s [] ->
  (forall m, (2 <= m <= n)%nat -> all_steps o (BasicFish m) s []) -> keeps_fish s n.
Proof.
  intros o n s Ho K N1 N2 Hn. pose proof K as [G [Td [C1 C2]]]. pose proof (kept_ok w h s K) as [W [Ew Eh]].
  destruct (kept_consistent w h s K) as [g Cg].
  assert (Fc : forall p, field s p <-> cell w h p) by (intros p; unfold field; rewrite Ew, Eh; reflexivity).
  assert (B1 : forall p x, field s p -> num s p <> 0 -> In x (cand s p) -> x = num s p) by (intros p x Fp; apply Td, Fc; auto).
  assert (B2 : forall p q x, field s p -> field s q -> peers (box_width s) (box_height s) p q -> num s p <> 0 -> In x (cand s q) -> x <> num s p).
  { rewrite Ew, Eh. intros p q x Fp Fq. apply C1; apply Fc; auto. }
  assert (B3 : forall p x, field s p -> In x (cand s p) -> 1 <= x <= box_width s * box_height s).
  { rewrite Ew, Eh. intros p x Fp. apply C2, Fc; auto. }
  assert (B4 : forall p v, field s p -> cand s p = [v] -> num s p <> 0).
  { intros p v Fp E.
    rewrite (kept_single w h o s K N1 p v) by (auto; apply Fc; auto). pose proof (B3 p v Fp). rewrite E in H. specialize (H (or_introl eq_refl)). lia. }
  assert (B5 : forall p k v, field s p -> hidden_value s k p v -> num s p <> 0).
  { intros p k0 v Fp H Z0.
    destruct (hidden_single_all o s Ho W) as [fs [ys [A [[_ B] D]]]]. unfold all_steps in *. rewrite N2 in A. injection A as <-.
    inversion D; subst. apply (proj2 (B p)). split; auto. split; auto. exists k0, v; auto. }
  intros line other c lines keys X Hc L Nl Rl Lk2 Hk2.
  assert (Fi : forall m, (2 <= m <= n)%nat -> forall lines cov cl aff, ~ fish s m line other c lines cov cl aff).
  { intros m Hm lines' cov cl aff P.
    destruct (fish_all o m s W) as [ys [A [_ B]]]; [lia|]. pose proof (Hn m Hm) as Z. unfold all_steps in *. rewrite Z in A. injection A as <-.
    refine (proj2 (B (mkStep (BasicFish m) cl aff [c] [])) _). exists line, other, c, lines', cov, cl, aff.
    split; [exact X|]. split; [exact P|]. repeat split. }
  destruct X as [[X1 X2]|[X1 X2]].
  - apply (keep_fish s g W Cg B1 B2 B3 B4 B5 line other KRow KCol) with (n := n) (m := length lines) (lines := lines); auto.
  - apply (keep_fish s g W Cg B1 B2 B3 B4 B5 line other KCol KRow) with (n := n) (m := length lines) (lines := lines); auto.
Qed.

(** The places of a number in some lines lie in as many crossing lines. *)
Lemma cross_count : forall s g line other v lines, wf s -> consistent s g -> (forall k q, settled s k q) ->
  crosses line other -> 1 <= v <= box_width s * box_height s ->
  NoDup lines -> (forall i, In i lines -> 0 <= i < box_width s * box_height s) ->
  exists js, length js = length lines /\ NoDup js /\
    forall j, In j js -> exists p, field s p /\ In (line p) lines /\ other p = j /\ g p = v.
Proof.
  intros s g line other v lines W Cg St X Hv. induction lines as [|i lines IH]; intros Nl Rl.
  - exists []. split; auto. split; [constructor|]. intros j [].
  - inversion Nl as [|x y Ni Nl']; subst. destruct IH as [js [L [Nj Hj]]]; auto. { intros; apply Rl; right; auto. }
    assert (Ri : 0 <= i < box_width s * box_height s) by (apply Rl; left; auto).
    assert (Fi : field s (i, i)) by (split; auto).
    assert (P : exists p, field s p /\ line p = i /\ g p = v).
    { destruct X as [[-> ->]|[-> ->]].
      - destruct (u_all s KRow (i, i) g W Fi Cg (St _ _) v Hv) as [p [[Fp Tp] E]]. exists p. auto.
      - destruct (u_all s KCol (i, i) g W Fi Cg (St _ _) v Hv) as [p [[Fp Tp] E]]. exists p. auto. }
    destruct P as [p [Fp [Lp Gp]]]. exists (other p :: js). split; [simpl; congruence|]. split.
    + constructor; auto. intros Hin. destruct (Hj _ Hin) as [p' [Fp' [Lp' [Op' Gp']]]].
      assert (D : p' <> p) by (intros ->; apply Ni; congruence).
      assert (g p' <> g p); [|congruence]. apply (proj2 (proj1 (proj1 Cg))); auto. split; auto.
      destruct X as [[-> ->]|[-> ->]]; [right; left|left]; auto.
    + intros j [<-|Hin]; [exists p; split; auto; split; auto; left; auto|].
      destruct (Hj j Hin) as [p' [Q1 [Q2 [Q3 Q4]]]]. exists p'. split; auto. split; auto. right; auto.
Qed.

Lemma sorted_lt_nodup : forall l, StronglySorted Z.lt l -> NoDup l.
Proof.
  induction 1 as [|a l S IH F]; constructor; auto. intros Hin. rewrite Forall_forall in F. specialize (F a Hin). lia.
Qed.

(** The crossing lines and lines that do not belong to a fish are a fish, too. *)
Lemma fish_bound : forall o s n line other v lines cov cl aff, oracle_ok o -> kept s ->
  all_steps o NakedSingle s [] -> all_steps o HiddenSingle s [] ->
  (forall m, (2 <= m < n)%nat -> all_steps o (BasicFish m) s []) ->
  crosses line other -> fish s n line other v lines cov cl aff -> (2 * n <= Z.to_nat (w * h))%nat.
Proof.
  intros o s n line other v lines cov cl aff Ho K N1 N2 Hn X F.
  destruct (le_lt_dec (2 * n) (Z.to_nat (w * h))) as [|Lt]; auto. exfalso.
  pose proof (kept_ok w h s K) as [W [Ew Eh]]. destruct (kept_consistent w h s K) as [g Cg].
  destruct F as [Hv [Sl [Ll [Hl [Hcl [Hcov [Lc [_ [Haff Ne]]]]]]]]].
  assert (Nl : NoDup lines) by (apply sorted_lt_nodup; auto).
  assert (Nc : NoDup cov) by (apply sorted_lt_nodup; apply Hcov).
  assert (Rg : forall p, field s p -> 0 <= line p < w * h /\ 0 <= other p < w * h).
  { intros p Fp. unfold field, cell in Fp. rewrite Ew, Eh in Fp. destruct X as [[-> ->]|[-> ->]]; tauto. }
  assert (Rl : forall i, In i lines -> 0 <= i < w * h).
  { intros i Hi. destruct (Hl i Hi) as [l [HL L]]. destruct l as [|p l]; [simpl in L; lia|].
    destruct (proj1 (proj2 HL p) (or_introl eq_refl)) as [Fp [<- _]]. apply Rg; auto. }
  assert (Rc : forall j, In j cov -> 0 <= j < w * h).
  { intros j Hj. destruct (proj1 (proj2 Hcov j) Hj) as [p [Hp <-]]. apply (proj2 Hcl) in Hp. apply Rg; tauto. }
  assert (Ecov : length cov = n).
  { destruct (cross_count s g line other v lines W Cg) as [js [L [Nj Hj]]]; auto.
    - intros k q. apply (kept_settled w h) with (o := o); auto.
    - rewrite Ew, Eh. auto.
    - assert (incl js cov).
      { intros j Ij. destruct (Hj j Ij) as [p [Fp [Lp [Op Gp]]]]. apply Hcov. exists p. split; auto. apply Hcl. split; auto. split; auto.
        rewrite <- Gp. apply Cg; auto. }
      apply NoDup_incl_length in H; auto. lia. }
  pose proof (outside_length _ _ Nl Rl) as L1. pose proof (outside_length _ _ Nc Rc) as L2.
  destruct aff as [|q aff]; [congruence|]. destruct (proj1 (proj2 Haff q) (or_introl eq_refl)) as [Fq [Oq [Nq Vq]]].
  assert (Kf : keeps_fish s (Z.to_nat (w * h) - n)).
  { apply (fish_keeps o); auto. intros m Hm. apply Hn. lia. }
  apply (Kf other line v (outside (w * h) cov) (outside (w * h) lines)) with (q := q); auto.
  - destruct X as [[-> ->]|[-> ->]]; [right|left]; auto.
  - lia.
  - apply NoDup_filter, zline_nodup.
  - intros i Hi. apply in_outside in Hi. rewrite Ew, Eh. tauto.
  - lia.
  - intros p Fp Hp Vp. apply in_outside in Hp. apply in_outside. split; [apply Rg; auto|]. intros Hin. apply (proj2 Hp).
    apply Hcov. exists p. split; auto. apply Hcl. auto.
  - apply in_outside. split; [apply Rg; auto|]. intros Hin. apply Nq. apply Hcl. auto.
  - intros Hin. apply in_outside in Hin. tauto.
Qed.

(** * Pointing tuples *)
Lemma div_range : forall a b c, 1 <= c -> a / c = b / c -> c * (b / c) <= a < c * (b / c) + c.
Proof. intros a b c Hc E. pose proof (Z.div_mod a c ltac:(lia)). pose proof (Z.mod_pos_bound a c ltac:(lia)). rewrite <- E. lia. Qed.
Lemma map_nodup_in : forall {A B} (f : A -> B) l, NoDup l -> (forall x y, In x l -> In y l -> f x = f y -> x = y) -> NoDup (map f l).
Proof.
  intros A B f l Nd; induction Nd as [|a l Na Nd IH]; intros Inj; [constructor|]. cbn [map]. constructor.
  - intros H. apply in_map_iff in H. destruct H as [b [E Hb]]. apply Na. rewrite <- (Inj b a); auto; [right; auto|left; auto].
  - apply IH. intros x y Hx Hy. apply Inj; right; auto.
Qed.
Lemma range_count : forall (f : coord -> Z) (cl : list coord) a c, 1 <= c -> NoDup cl ->
  (forall p p', In p cl -> In p' cl -> f p = f p' -> p = p') -> (forall p, In p cl -> a <= f p < a + c) -> (length cl <= Z.to_nat c)%nat.
Proof.
  intros f cl a c Hc Nd Inj R. rewrite <- (map_length (fun p => f p - a)). 
  replace (Z.to_nat c) with (length (zline c)) by (unfold zline; rewrite map_length, seq_length; auto).
  apply NoDup_incl_length.
  - apply (map_nodup_in); auto. intros p p' H1 H2 E. apply Inj; auto. lia.
  - intros x Hx. apply in_map_iff in Hx. destruct Hx as [p [<- Hp]]. apply in_zline. specialize (R p Hp). lia.
Qed.

Lemma pointing_bound : forall s n k k2 q v cl aff, wf s -> (2 <= n)%nat -> pointing_kinds n k k2 -> pointing s n k k2 q v cl aff ->
  2 <= box_width s /\ 2 <= box_height s /\ (n <= Z.to_nat (Z.max (box_width s) (box_height s)))%nat.
Proof.
  intros s n k k2 q v cl aff W Hn KK [Hv [Iq [Hcl [Ll [H2 [Haff Ne]]]]]].
  pose proof (wf_w s W) as Hw1. pose proof (wf_h s W) as Hh1.
  assert (Nd : NoDup cl) by (eapply lists_nodup; eauto).
  destruct aff as [|a aff]; [congruence|]. destruct (proj1 (proj2 Haff a) (or_introl eq_refl)) as [[Fa Ta] [Na Va]].
  assert (Fq : field s q) by (apply (proj2 Hcl) in Iq; apply Iq).
  set (w1 := box_width s) in *. set (h1 := box_height s) in *.
  assert (Fa' : 0 <= fst a < w1 * h1 /\ 0 <= snd a < w1 * h1) by exact Fa.
  assert (Fq' : 0 <= fst q < w1 * h1 /\ 0 <= snd q < w1 * h1) by exact Fq.
  assert (Na' : ~ together s k a q) by (intros T; apply Na, Hcl; split; [split|]; auto).
  assert (RowBox : (forall p, In p cl -> same_row p q /\ same_box w1 h1 p q) -> (length cl <= Z.to_nat w1)%nat).
  { intros H. apply (range_count snd cl (w1 * (snd q / w1))); auto; try lia.
    - intros [p1 p2] [p3 p4] A B E. destruct (H _ A) as [A1 _]. destruct (H _ B) as [B1 _]. unfold same_row in *. simpl in *. congruence.
    - intros p A. destruct (H _ A) as [_ [_ A2]]. apply div_range; auto; lia. }
  assert (ColBox : (forall p, In p cl -> same_col p q /\ same_box w1 h1 p q) -> (length cl <= Z.to_nat h1)%nat).
  { intros H. apply (range_count fst cl (h1 * (fst q / h1))); auto; try lia.
    - intros [p1 p2] [p3 p4] A B E. destruct (H _ A) as [A1 _]. destruct (H _ B) as [B1 _]. unfold same_col in *. simpl in *. congruence.
    - intros p A. destruct (H _ A) as [_ [A2 _]]. apply div_range; auto; lia. }
  assert (One : (same_row a q -> h1 = 1 -> same_box w1 h1 a q) /\ (same_box w1 h1 a q -> h1 = 1 -> same_row a q) /\
                (same_col a q -> w1 = 1 -> same_box w1 h1 a q) /\ (same_box w1 h1 a q -> w1 = 1 -> same_col a q)).
  { unfold same_row, same_col, same_box. repeat split; intros.
    - congruence.
    - rewrite !Z.div_small by nia. auto.
    - destruct H as [H _]. rewrite H0, !Z.div_1_r in H. auto.
    - rewrite !Z.div_small by nia. auto.
    - congruence.
    - destruct H as [_ H]. rewrite H0, !Z.div_1_r in H. auto. }
  destruct One as [O1 [O2 [O3 O4]]].
  destruct KK as [[-> ->]|[[-> [-> _]]|[[-> ->]|[-> ->]]]]; cbn [together] in *.
  - assert (length cl <= Z.to_nat w1)%nat by (apply RowBox; intros p Hp; split; [apply H2; auto|apply (proj2 Hcl) in Hp; apply Hp]).
    assert (h1 <> 1) by (intros E; apply Na'; auto). lia.
  - assert (length cl <= Z.to_nat h1)%nat by (apply ColBox; intros p Hp; split; [apply H2; auto|apply (proj2 Hcl) in Hp; apply Hp]).
    assert (w1 <> 1) by (intros E; apply Na'; auto). lia.
  - assert (length cl <= Z.to_nat w1)%nat by (apply RowBox; intros p Hp; split; [apply (proj2 Hcl) in Hp; apply Hp|apply H2; auto]).
    assert (h1 <> 1) by (intros E; apply Na'; auto). lia.
  - assert (length cl <= Z.to_nat h1)%nat by (apply ColBox; intros p Hp; split; [apply (proj2 Hcl) in Hp; apply Hp|apply H2; auto]).
    assert (w1 <> 1) by (intros E; apply Na'; auto). lia.
Qed.

(** * The steps of solve() *)
Local Notation fits := (fits w h).

Lemma fish_before : forall pre n post, SOLVERS = pre ++ BasicFish n :: post ->
  n <> O /\ In NakedSingle pre /\ In HiddenSingle pre /\ forall m, (2 <= m < n)%nat -> In (BasicFish m) pre.
Proof.
  intros pre n post E. unfold SOLVERS in E.
  do 17 (destruct pre as [|c pre];
    [injection E; intros; subst; first [discriminate|idtac];
      (split; [discriminate|]; split; [simpl; tauto|]; split; [simpl; tauto|];
       intros m Hm; do 6 (destruct m as [|m]; [simpl; first [lia|tauto]|]); lia)
    |injection E as <- E]; cbn [app] in E).
  destruct pre; discriminate.
Qed.
Lemma pointing_two : forall pre n post, SOLVERS = pre ++ PointingTuple n :: post -> (2 <= n)%nat.
Proof.
  intros pre n post E. assert (H : In (PointingTuple n) SOLVERS) by (rewrite E; apply in_elt).
  simpl in H. repeat (destruct H as [H|H]; [try discriminate; injection H as <-; lia|]). destruct H.
Qed.

Lemma round_fits : forall o s steps u st, oracle_ok o -> kept s -> solve_round o SOLVERS s = Ok (steps, u) -> In st steps -> fits (st_class st).
Proof.
  intros o s steps u st Ho K E Hst.
  assert (Ne : steps <> []) by (intros ->; destruct Hst).
  pose proof (round_allowed w h Hw Hh o s steps u st Ho K E Hst) as A. pose proof (kept_ok w h s K) as [W [Ew Eh]].
  destruct (round_level w h Hw Hh o s steps u Ho K E Ne) as [pre [cls [post [E1 [E2 [E3 [E4 _]]]]]]].
  rewrite (E4 st Hst) in *. destruct cls as [| | |n|n|n|n|]; cbn [SpecSizes.fits allowed] in *; try exact I; try lia.
  - destruct (pointing_all o n s W) as [ys [Y [B _]]]. destruct ys as [|y ys].
    + exfalso. apply Ne. exact (drive_some _ _ _ _ E3 Y).
    + destruct (proj1 (B y) (or_introl eq_refl)) as [k [k2 [q [v [cl [aff [KK [P _]]]]]]]].
      pose proof (pointing_bound s n k k2 q v cl aff W (pointing_two _ _ _ E1) KK P) as Q. rewrite Ew, Eh in Q. lia.
  - destruct (fish_before pre n post E1) as [Nz [B1 [B2 B3]]].
    destruct (fish_all o n s W Nz) as [ys [Y [_ B]]]. destruct ys as [|y ys].
    + exfalso. apply Ne. exact (drive_some _ _ _ _ E3 Y).
    + destruct (proj1 (B y) (or_introl eq_refl)) as [line [other [v [lines [cov [cl [aff [X [P _]]]]]]]]].
      assert (2 * n <= Z.to_nat (w * h))%nat; [|lia]. apply (fish_bound o s n line other v lines cov cl aff); auto.
Qed.
Lemma loop_fits : forall o, oracle_ok o -> forall fuel s l t, kept s -> solve_loop fuel o s = Ok (l, t) ->
  forall st, In st l -> fits (st_class st).
Proof.
  intros o Ho fuel; induction fuel as [|fuel IH]; intros s l t K E st Hst; [discriminate|].
  cbn [solve_loop] in E. destruct (solve_round o SOLVERS s) as [[steps u]|] eqn:R; [|discriminate]. cbn [rbind] in E.
  destruct steps as [|x steps]; [injection E as <- <-; destruct Hst|].
  destruct (solve_loop fuel o u) as [[l' t']|] eqn:E'; [|discriminate]. cbn [rbind] in E. injection E as <- <-.
  change (In st ((x :: steps) ++ l')) in Hst. apply in_app_iff in Hst. destruct Hst as [Hst|Hst].
  - eapply round_fits; eauto.
  - apply (IH u l' t'); auto. apply (round_kept w h Hw Hh o s (x :: steps)); auto.
Qed.
Lemma solve_fits : forall o fuel s l t f, oracle_ok o -> ok_sudoku w h s -> solution s f -> solve fuel o s = Ok (l, t) ->
  forall st, In st l -> fits (st_class st).
Proof.
  intros o fuel s l t f Ho O Hf E st Hst. destruct (init_candidates_ok s false (proj1 O)) as [t0 [E0 _]].
  destruct (start_run w h Hw Hh o fuel s t0 f l t Ho O Hf E0 E) as [lc [l' [fuel' [-> [Hc E']]]]].
  apply in_app_iff in Hst. destruct Hst as [Hst|Hst]; [rewrite (Hc st Hst); exact I|].
  apply (loop_fits o Ho fuel' t0 l' t); auto. apply (start_kept w h Hw Hh s t0 f); auto.
Qed.

End Sizes.

(** * The ratings *)
Lemma rated_iff : forall cls k, RATINGS cls = Ok k <-> rated k cls.
Proof.
  intros cls k. split.
  - intros H. pose proof (rated_solver cls k H) as Hin. simpl in Hin.
    repeat (destruct Hin as [<-|Hin]; [injection H as <-; constructor|]). destruct Hin.
  - intros H. destruct H; reflexivity.
Qed.

Lemma rate_max : forall fuel o s r, rate fuel o s = Ok r -> exists l t, solve fuel o s = Ok (l, t) /\
  (forall st, In st l -> exists k, rated k (st_class st) /\ k <= r) /\
  (l = [] /\ r = 0 \/ exists st, In st l /\ rated r (st_class st)).
Proof.
  intros fuel o s r H. unfold rate in H. destruct (solve fuel o s) as [[l u]|]; [|discriminate]. cbn [rbind] in H.
  destruct (mapM (fun st => RATINGS (st_class st)) l) as [ks|] eqn:E; [|discriminate]. cbn [rbind] in H.
  apply mapM_all in E. exists l, u. split; auto. destruct ks as [|x ks]; cbn [py_max] in H; injection H as <-.
  - inversion E; subst. split; [intros st []|auto].
  - destruct (fold_max_spec ks x) as [M1 [M2 M3]]. split.
    + intros st Hst. destruct (Forall2_In_l _ _ _ _ E Hst) as [k [Hk Er]]. exists k. split; [apply rated_iff; auto|].
      destruct Hk as [<-|Hk]; auto.
    + right. assert (Hin : In (fold_left Z.max ks x) (x :: ks)) by (destruct M3 as [->|M3]; [left|right]; auto).
      destruct (Forall2_in_r _ _ _ _ E Hin) as [st [Hst Er]]. exists st. split; auto. apply rated_iff; auto.
Qed.

Lemma fold_add : forall l a, fold_left Z.add l a = a + fold_right Z.add 0 l.
Proof. induction l as [|x l IH]; intros a; simpl; [lia|]. rewrite IH. lia. Qed.
Lemma score_sum : forall fuel o s r, score fuel o s = Ok r -> exists l t ks, solve fuel o s = Ok (l, t) /\
  Forall2 (fun st k => rated k (st_class st)) l ks /\ r = fold_right Z.add 0 ks.
Proof.
  intros fuel o s r H. unfold score in H. destruct (solve fuel o s) as [[l u]|]; [|discriminate]. cbn [rbind] in H.
  destruct (mapM (fun st => RATINGS (st_class st)) l) as [ks|] eqn:E; [|discriminate]. cbn [rbind] in H. injection H as <-.
  apply mapM_all in E. exists l, u, ks. split; auto. split; [|rewrite fold_add; lia].
  induction E; constructor; auto. apply rated_iff; auto.
Qed.

Lemma sizes_ratings : forall o fuel s f r, oracle_ok o -> wf s -> solution s f -> rate fuel o s = Ok r ->
  In r [0; 1; 2; 3; 4; 5; 6; 7; 10] /\
  (In r [2; 5] -> 4 <= box_width s * box_height s) /\ (r = 6 -> 6 <= box_width s * box_height s) /\
  (In r [3; 7] -> 8 <= box_width s * box_height s) /\ (r = 4 -> 2 <= box_width s /\ 2 <= box_height s).
Proof.
  intros o fuel s f r Ho W Hf H. destruct (rate_max fuel o s r H) as [l [t [E [_ [[_ ->]|[st [Hst R]]]]]]].
  - simpl. repeat split; intros; lia.
  - pose proof (solve_fits _ _ (wf_w s W) (wf_h s W) o fuel s l t f Ho (ok_intro _ _ s W eq_refl eq_refl) Hf E st Hst) as F.
    destruct R; cbn [SpecSizes.fits] in F; simpl; repeat split; intros; lia.
Qed.
