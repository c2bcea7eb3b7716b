(** Lemmas for C117-C119: the start of solve(), rate() as a maximum. *)
From Verif Require Export LLevel3 LSolvers5.

Section Start.
Variables w h : Z.
Hypothesis Hw : 1 <= w.
Hypothesis Hh : 1 <= h.
Local Notation kept := (kept w h).

Lemma start_cand : forall s t, wf s -> init_candidates s false = Ok t -> wf t /\ box_width t = box_width s /\ box_height t = box_height s /\
  (forall p, num t p = num s p) /\ (forall p, field s p -> cand t p = pcalc s p).
Proof.
  intros s t W E. destruct (init_candidates_ok s false W) as [t' [E' H]]. rewrite E' in E. injection E as ->. exact H.
Qed.

Lemma start_kept : forall s t f, ok_sudoku w h s -> solution s f -> init_candidates s false = Ok t -> kept t.
Proof.
  intros s t f O Hf E. pose proof O as [W [Ew Eh]]. destruct (start_cand s t W E) as [Wt [Ewt [Eht [Nt Ct]]]].
  assert (FV : forall g, solution s g -> valid_grid w h g) by (intros g Hg; exact (gd_valid w h Hw Hh s g O Hg)).
  assert (Ot : ok_sudoku w h t) by (split; [auto|split; congruence]).
  pose proof (solutions_eq w h s t O Ot (fun p _ => Nt p)) as Sol.
  assert (Fs : forall p, cell w h p -> field s p) by (intros; unfold field; rewrite Ew, Eh; auto).
  assert (In0 : forall p, cell w h p -> num s p = 0 \/ num s p = f p) by (intros p Cp; apply Hf; auto).
  split; [constructor; [|exists f; apply Sol; auto]|split; [|split]].
  - constructor; auto; try congruence.
    + intros g p Hg Cp. apply Hg. unfold field. rewrite Ewt, Eht, Ew, Eh. auto.
    + intros g p Hg Cp. rewrite Ct by auto. apply pcalc_solution; auto. apply Sol; auto.
  - intros p x Cp Np Hx. rewrite Nt in *. rewrite Ct in Hx by auto. apply in_pcalc_filled in Hx; auto.
  - intros p q x Cp Cq P Np Hx. rewrite Nt in *. rewrite Ct in Hx by auto.
    destruct (Z.eq_dec (num s q) 0) as [Z0|Z0].
    + apply in_pcalc_empty in Hx; auto. destruct Hx as [_ Hx]. rewrite Ew, Eh in Hx. intros ->. apply (Hx p); auto. apply peers_sym; auto.
    + apply in_pcalc_filled in Hx; auto. destruct (In0 p Cp) as [X|X]; [congruence|]. destruct (In0 q Cq) as [Y|Y]; [congruence|].
      subst x. rewrite X, Y. intros E2. apply (proj2 (FV f Hf) p q); auto.
  - intros p x Cp Hx. rewrite Ct in Hx by auto. destruct (Z.eq_dec (num s p) 0) as [Z0|Z0].
    + apply in_pcalc_empty in Hx; auto. unfold NN in Hx. rewrite Ew, Eh in Hx. tauto.
    + apply in_pcalc_filled in Hx; auto. destruct (In0 p Cp) as [X|X]; [congruence|]. rewrite Hx, X. apply (FV f Hf); auto.
Qed.

(** The first round of solve() leads to init_candidates(). *)
Lemma start_run : forall o fuel s t f l u, oracle_ok o -> ok_sudoku w h s -> solution s f -> init_candidates s false = Ok t ->
  solve fuel o s = Ok (l, u) ->
  exists lc l' fuel', l = lc ++ l' /\ (forall st, In st lc -> st_class st = CalculateCandidates) /\ solve_loop fuel' o t = Ok (l', u).
Proof.
  intros o fuel s t f l u Ho O Hf Et H. pose proof O as [W [Ew Eh]].
  destruct (start_cand s t W Et) as [Wt [Ewt [Eht [Nt Ct]]]].
  destruct (solve_start w h o s O) as [s0 [[_ E0] [O0 [N0 [C0 W0]]]]]. rewrite E0 in H.
  assert (FV : forall g, solution s g -> valid_grid w h g) by (intros g Hg; exact (gd_valid w h Hw Hh s g O Hg)).
  destruct (calculate_drive w h (solution s) FV s0 W0) as [st [s1 [E [S1 [C [Hn [Hc Hemp]]]]]]].
  pose proof (SInv_ok _ _ _ _ S1) as [W1 [Ew1 Eh1]]. destruct O0 as [W00 [Ew0 Eh0]].
  assert (s1 = t).
  { apply sudoku_ext; auto; try congruence.
    - intros p Fp. unfold field in Fp. rewrite Ew1, Eh1 in Fp. rewrite Hn, N0, Nt; auto.
    - intros p Fp. unfold field in Fp. rewrite Ew1, Eh1 in Fp.
      assert (F0 : field s0 p) by (unfold field; rewrite Ew0, Eh0; auto).
      assert (Fs : field s p) by (unfold field; rewrite Ew, Eh; auto).
      assert (Ep : pcalc s0 p = pcalc s p).
      { apply pcalc_ext; auto; try congruence. intros q Fq. unfold field in Fq. rewrite Ew0, Eh0 in Fq. auto. }
      rewrite Hc, C0, Ct by auto. destruct (num s p =? 0) eqn:Z0; auto. unfold pcalc. rewrite Z0. auto. }
  subst s1. destruct st as [|a st].
  - inv C. exists [], l, fuel. split; auto. split; auto. intros st [].
  - destruct fuel as [|fuel]; [discriminate|]. cbn [solve_loop] in H. rewrite SOLVERS_eq in H. cbn [solve_round] in H.
    change (MSolvers.find o CalculateCandidates s0) with (calculate_find s0) in H. rewrite E in H. cbn [rbind] in H.
    destruct (solve_loop fuel o t) as [[l' t']|] eqn:E'; [|discriminate]. cbn [rbind] in H. injection H as <- <-.
    exists (a :: st), l', fuel. split; auto. split; auto. eapply chain_class; eauto.
Qed.
End Start.

Lemma mapM_all : forall l r, mapM (fun st => RATINGS (st_class st)) l = Ok r -> Forall2 (fun st k => RATINGS (st_class st) = Ok k) l r.
Proof.
  induction l as [|st l IH]; intros r H; cbn [mapM] in H; [injection H as <-; constructor|].
  destruct (RATINGS (st_class st)) as [k|] eqn:E; [|discriminate]. cbn [rbind] in H.
  destruct (mapM (fun st => RATINGS (st_class st)) l) as [r'|]; [|discriminate]. cbn [rbind] in H. injection H as <-. constructor; auto.
Qed.

(** rate() is the least number that no step of solve() is rated higher than. *)
Lemma rate_least : forall fuel o s r, rate fuel o s = Ok r ->
  0 <= r <= 10 /\ exists l u, solve fuel o s = Ok (l, u) /\ forall k, 0 <= k -> (r <= k <-> all_up_to k l).
Proof.
  intros fuel o s r H. unfold rate in H. destruct (solve fuel o s) as [[l u]|]; [|discriminate]. cbn [rbind] in H.
  destruct (mapM (fun st => RATINGS (st_class st)) l) as [ks|] eqn:E; [|discriminate]. cbn [rbind] in H.
  apply mapM_all in E.
  assert (Rg : forall x, In x ks -> 0 <= x <= 10).
  { intros x Hx. destruct (Forall2_in_r _ _ _ _ E Hx) as [st [_ Er]]. apply (rated_range _ _ Er). }
  split.
  { destruct ks as [|x ks]; cbn [py_max] in H; injection H as <-; [lia|]. destruct (fold_max_spec ks x) as [M1 [M2 M3]].
    destruct M3 as [->|M3]; apply Rg; [left|right]; auto. }
  exists l, u. split; auto. clear Rg.
  assert (Up : forall k, all_up_to k l <-> forall x, In x ks -> x <= k).
  { intros k. split.
    - intros Up x Hx. destruct (Forall2_in_r _ _ _ _ E Hx) as [st [Hst Er]]. destruct (Up st Hst) as [k' [X Y]].
      assert (x = k') by congruence. lia.
    - intros Up st Hst. destruct (Forall2_In_l _ _ _ _ E Hst) as [x [Hx Er]]. eauto. }
  intros k K0. rewrite Up. clear E Up. destruct ks as [|x ks]; cbn [py_max] in H; injection H as <-.
  - split; [intros _ x []|auto].
  - destruct (fold_max_spec ks x) as [M1 [M2 M3]]. split.
    + intros L y [<-|Hy]; [lia|]. specialize (M2 y Hy). lia.
    + intros Hl. destruct M3 as [->|M3]; apply Hl; [left|right]; auto.
Qed.

Lemma rate_level : forall o fuel s t f r, oracle_ok o -> wf s -> solution s f -> init_candidates s false = Ok t -> rate fuel o s = Ok r ->
  forall k, 0 <= k < 10 -> (r <= k <-> solvable_with k t).
Proof.
  intros o fuel s t f r Ho W Hf Et H k Hk. destruct (rate_least fuel o s r H) as [_ [l [u [E L]]]]. rewrite L by lia.
  set (w := box_width s). set (h := box_height s). assert (O : ok_sudoku w h s) by (split; auto).
  assert (Hw : 1 <= w) by apply (wf_w _ W). assert (Hh : 1 <= h) by apply (wf_h _ W).
  destruct (start_run w h Hw Hh o fuel s t f l u Ho O Hf Et E) as [lc [l' [fuel' [-> [Hc E']]]]].
  rewrite (solvable_run w h Hw Hh o k t fuel' l' u Ho ltac:(lia) (start_kept w h Hw Hh s t f O Hf Et) E').
  split; intros Up st Hst; [apply Up; apply in_app_iff; auto|].
  apply in_app_iff in Hst. destruct Hst as [Hst|Hst]; [|auto]. exists 0. rewrite (Hc st Hst). split; [reflexivity|lia].
Qed.

Lemma C117_proof : forall o fuel s t f r, oracle_ok o -> wf s -> solution s f -> init_candidates s false = Ok t -> rate fuel o s = Ok r ->
  0 <= r <= 10 /\ forall k, 0 <= k -> (solvable_with k t <-> r <= k).
Proof.
  intros o fuel s t f r Ho W Hf Et H. pose proof (proj1 (rate_least fuel o s r H)) as R. split; auto. intros k Hk.
  destruct (Z_lt_ge_dec k 10) as [K|K].
  - rewrite (rate_level o fuel s t f r) by (auto; lia). reflexivity.
  - split; [lia|]. intros _. apply (solvable_ten (box_width s) (box_height s) (wf_w _ W) (wf_h _ W) o k t); auto; [lia|].
    eapply start_kept; eauto; try apply W. split; auto.
Qed.

Lemma kept_same : forall w h o r u v, 1 <= w -> 1 <= h -> 1 <= r -> kept w h u -> kept w h v -> closed o r u -> closed o r v ->
  lower w h u v -> lower w h v u -> u = v.
Proof.
  intros w h o r u v Hw Hh Hr Ku Kv Cu Cv L1 L2. pose proof (kept_ok w h u Ku) as [Wu [Ewu Ehu]]. pose proof (kept_ok w h v Kv) as [Wv [Ewv Ehv]].
  assert (Ec : forall p, cell w h p -> cand u p = cand v p).
  { intros p Cp. assert (Fu : field u p) by (unfold field; rewrite Ewu, Ehu; auto). assert (Fv : field v p) by (unfold field; rewrite Ewv, Ehv; auto).
    apply (sset_ext _ zcmp_good); [apply cand_sset; auto|apply cand_sset; auto|]. intros x. split; [apply L2|apply L1]; auto. }
  assert (One : forall a b, kept w h a -> kept w h b -> closed o r b -> (forall p, cell w h p -> cand a p = cand b p) -> forall p, cell w h p -> num a p <> 0 -> num b p = num a p).
  { intros a b Ka Kb Cb E p Cp Np. apply (kept_single w h o b Kb (Cb NakedSingle 1 eq_refl Hr) p); auto. rewrite <- E by auto.
    pose proof (kept_ok w h a Ka) as [Wa [Ewa Eha]]. destruct (kept_consistent w h a Ka) as [g Cg]. apply (filled_cand a g Wa Cg); auto.
    - intros q x Fq. apply Ka. unfold field in Fq. rewrite Ewa, Eha in Fq. auto.
    - unfold field. rewrite Ewa, Eha. auto. }
  apply sudoku_ext; auto; try congruence; intros p Fp; unfold field in Fp; rewrite Ewu, Ehu in Fp; auto.
  destruct (Z.eq_dec (num u p) 0) as [Z1|Z1]; [|symmetry; apply (One u v); auto].
  destruct (Z.eq_dec (num v p) 0) as [Z2|Z2]; [congruence|]. apply (One v u); auto. intros; symmetry; auto.
Qed.

Lemma C118_proof : forall o s t f r u v, oracle_ok o -> wf s -> solution s f -> init_candidates s false = Ok t -> r < 10 ->
  play r t u -> stuck r u -> play r t v -> (exists z, play r v z /\ z = u).
Proof.
  intros o s t f r u v Ho W Hf Et Hr Pu Su Pv.
  set (w := box_width s). set (h := box_height s). assert (O : ok_sudoku w h s) by (split; auto).
  assert (Hw : 1 <= w) by apply (wf_w _ W). assert (Hh : 1 <= h) by apply (wf_h _ W).
  pose proof (start_kept w h Hw Hh s t f O Hf Et) as Kt.
  destruct (play_kept w h Hw Hh r t u Pu Kt) as [Ku Lu]. destruct (play_kept w h Hw Hh r t v Pv Kt) as [Kv Lv].
  destruct (Z_lt_ge_dec r 1) as [R|R].
  { assert (u = t) by (apply (play_zero w h Hw Hh r t u); auto). assert (v = t) by (apply (play_zero w h Hw Hh r t v); auto). subst. exists t. split; [constructor|auto]. }
  pose proof (stuck_closed w h Hw Hh o r u Ho Ku Su) as Cu.
  destruct (play_on w h Hw Hh o r (S (measure w h v)) v Ho Kv) as [z [Pz [Kz [Lz Cz]]]]; [lia|].
  exists z. split; auto. symmetry. apply (kept_same w h o r u z); auto; [lia| |].
  - apply (above_lower w h) with (s := u); auto. apply (play_above w h Hw Hh o r z t u); auto. apply (lower_above w h); auto. eapply (lower_trans w h); eauto.
  - apply (above_lower w h) with (s := z); auto. apply (play_above w h Hw Hh o r u v z); auto. apply (play_above w h Hw Hh o r u t v); auto. apply (lower_above w h); auto.
Qed.

Lemma C119_proof : forall o o' fuel fuel' s s' f r r', oracle_ok o -> oracle_ok o' -> wf s -> wf s' -> solution s' f ->
  box_width s' = box_width s -> box_height s' = box_height s -> (forall p, field s p -> num s p <> 0 -> num s' p = num s p) ->
  rate fuel o s = Ok r -> rate fuel' o' s' = Ok r' -> r' <= r.
Proof.
  intros o o' fuel fuel' s s' f r r' Ho Ho' W W' Hf' Ew Eh Num Hr Hr'.
  set (w := box_width s) in *. set (h := box_height s) in *. assert (O : ok_sudoku w h s) by (split; auto).
  assert (O' : ok_sudoku w h s') by (split; auto).
  assert (Hw : 1 <= w) by apply (wf_w _ W). assert (Hh : 1 <= h) by apply (wf_h _ W).
  assert (Hf : solution s f).
  { destruct Hf' as [V H]. rewrite Ew, Eh in V. split; [exact V|]. intros p Fp. destruct (Z.eq_dec (num s p) 0) as [|N]; auto.
    rewrite <- (Num p Fp N). apply H. unfold field. rewrite Ew, Eh. exact Fp. }
  destruct (init_candidates_ok s false W) as [t [Et _]]. destruct (init_candidates_ok s' false W') as [t' [Et' _]].
  destruct (C117_proof o fuel s t f r Ho W Hf Et Hr) as [R Lv]. destruct (C117_proof o' fuel' s' t' f r' Ho' W' Hf' Et' Hr') as [R' Lv'].
  destruct (Z.eq_dec r 10) as [->|N]; [lia|]. apply Lv'; [lia|].
  pose proof (proj2 (Lv r ltac:(lia)) ltac:(lia)) as Sr.
  pose proof (start_kept w h Hw Hh s t f O Hf Et) as Kt. pose proof (start_kept w h Hw Hh s' t' f O' Hf' Et') as Kt'.
  destruct (start_cand s t W Et) as [Wt [Ewt [Eht [Nt Ct]]]]. destruct (start_cand s' t' W' Et') as [Wt' [Ewt' [Eht' [Nt' Ct']]]].
  destruct (Z_lt_ge_dec r 1) as [R1|R1].
  { apply (solvable_zero w h Hw Hh r t R1 Kt) in Sr. apply (solvable_zero w h Hw Hh r t' R1 Kt').
    intros p Fp. unfold field in Fp. rewrite Ewt', Eht', Ew, Eh in Fp. rewrite Nt', Num; auto; rewrite <- Nt; apply Sr; unfold field; rewrite Ewt, Eht; auto. }
  assert (L : lower w h t t').
  { intros p x Cp Hx. assert (Fp' : field s' p) by (unfold field; rewrite Ew, Eh; auto). assert (Fp : field s p) by (exact Cp).
    rewrite Ct by auto. rewrite Ct' in Hx by auto.
    destruct (Z.eq_dec (num s p) 0) as [Z0|Z0].
    - destruct (Z.eq_dec (num s' p) 0) as [Z1|Z1].
      + apply in_pcalc_empty in Hx; auto. apply in_pcalc_empty; auto. destruct Hx as [X Y]. split; [unfold NN in *; rewrite Ew, Eh in X; auto|].
        intros q Fq P E. assert (Rg : 1 <= x) by lia. apply (Y q).
        * unfold field; rewrite Ew, Eh; auto.
        * rewrite Ew, Eh; auto.
        * rewrite Num; auto. lia.
      + apply in_pcalc_filled in Hx; auto. destruct (proj2 Hf' p Fp') as [Y|Y]; [congruence|]. rewrite Hx, Y. apply pcalc_solution; auto.
    - pose proof (Num p Fp Z0) as X. apply in_pcalc_filled in Hx; auto; [|rewrite X; auto]. apply in_pcalc_filled; auto. congruence. }
  destruct (play_on w h Hw Hh o r (S (measure w h t')) t' Ho Kt') as [T [P [KT [LT Cl]]]]; [lia|].
  exists T. split; auto. apply (solvable_closed w h Hw Hh o r t T); auto; [lia|]. eapply (lower_trans w h); eauto.
Qed.

(** What one class order does not find, no other order finds. *)
Lemma closed_stuck : forall w h o r s, 1 <= w -> 1 <= h -> oracle_ok o -> kept w h s -> closed o r s -> stuck r s.
Proof.
  intros w h o r s Hw Hh Ho K Cl st H. pose proof H as [o' [cls [ys [k [Ho' [Hy [Hst [Hk Lk]]]]]]]].
  destruct (kept_step w h Hw Hh o' cls k s Ho' K Hk) as [ys' [Hy' X]]. unfold all_steps in *. assert (ys' = ys) by congruence. subst ys'.
  destruct (X st Hst) as [st' [t [E [Kt [Lt M]]]]].
  assert (P : play r s t) by (econstructor; [exact H|exact E|constructor]).
  destruct (Z_lt_ge_dec r 1) as [R|R]; [rewrite (play_zero w h Hw Hh r s t R P K) in M; lia|].
  pose proof (kept_ok w h s K) as [W [Ew Eh]].
  assert (Wt : forall p, cell w h p -> (weight s p <= weight t p)%nat).
  { destruct (Z_lt_ge_dec r 10) as [R'|R'].
    - assert (Ab : above s t) by (apply (play_above w h Hw Hh o r s s t); auto; apply (lower_above w h); auto; intros p x _ Y; exact Y).
      assert (Ec : forall p, cell w h p -> cand s p = cand t p).
      { intros p Cp. pose proof (kept_ok w h t Kt) as [Wt [Ewt Eht]].
        apply (sset_ext _ zcmp_good); [apply cand_sset|apply cand_sset|]; auto; try (unfold field; rewrite ?Ew, ?Eh, ?Ewt, ?Eht; auto).
        intros x. split; [apply (above_lower w h t s); auto|apply Lt; auto]. }
      intros p Cp. unfold weight. rewrite (Ec p Cp). destruct (num s p =? 0) eqn:Z1; [|destruct (num t p =? 0); lia].
      destruct (num t p =? 0) eqn:Z2; [lia|]. exfalso. b2p. 
      pose proof (kept_ok w h t Kt) as [Wt [Ewt Eht]]. destruct (kept_consistent w h t Kt) as [g Cg].
      assert (Y : cand t p = [num t p]).
      { apply (filled_cand t g Wt Cg); auto; [|unfold field; rewrite Ewt, Eht; auto].
        intros q x Fq. apply Kt. unfold field in Fq. rewrite Ewt, Eht in Fq. auto. }
      apply Z2. rewrite <- Z1. symmetry. apply (kept_single w h o s K (Cl NakedSingle 1 eq_refl ltac:(lia)) p); auto. rewrite Ec; auto.
    - exfalso. assert (C : complete s).
      { intros p Fp Z0. destruct (bruteforce_all o s Ho W) as [zs [A [_ B]]]. destruct B as [f [fs [Hf [[_ Hfs] F2]]]]; [apply K|].
        pose proof (Cl Bruteforce 10 eq_refl ltac:(lia)) as Y. unfold all_steps in *. rewrite Y in A. injection A as <-. inversion F2; subst.
        apply (proj2 (Hfs p)). split; auto. }
      pose proof (complete_measure w h s K C) as M1. pose proof (LSolvers4.good_size w h Hw Hh t (proj1 Kt)) as M2. lia. }
  assert (measure w h s <= measure w h t)%nat; [|lia].
  unfold measure. apply list_sum_le. intros p Hp. apply Wt. apply (LSolvers3.in_cells w h). auto.
Qed.

Lemma C118_end_proof : forall o s t f r, oracle_ok o -> wf s -> solution s f -> init_candidates s false = Ok t ->
  exists u, play r t u /\ stuck r u.
Proof.
  intros o s t f r Ho W Hf Et. set (w := box_width s). set (h := box_height s). assert (O : ok_sudoku w h s) by (split; auto).
  assert (Hw : 1 <= w) by apply (wf_w _ W). assert (Hh : 1 <= h) by apply (wf_h _ W).
  pose proof (start_kept w h Hw Hh s t f O Hf Et) as Kt.
  destruct (play_on w h Hw Hh o r (S (measure w h t)) t Ho Kt) as [z [Pz [Kz [Lz Cz]]]]; [lia|].
  exists z. split; auto. apply (closed_stuck w h o r z); auto.
Qed.

(** Every play ends. *)
Lemma C118_ends_proof : forall s t f r, wf s -> solution s f -> init_candidates s false = Ok t ->
  forall plays, plays O = t -> ~ (forall i, exists st st', hint_up_to r (plays i) st /\ apply st (plays i) = Ok (st', plays (S i))).
Proof.
  intros s t f r W Hf Et plays P0 H. set (w := box_width s). set (h := box_height s). assert (O : ok_sudoku w h s) by (split; auto).
  assert (Hw : 1 <= w) by apply (wf_w _ W). assert (Hh : 1 <= h) by apply (wf_h _ W).
  pose proof (start_kept w h Hw Hh s t f O Hf Et) as Kt.
  assert (X : forall i, kept w h (plays i) /\ (measure w h (plays i) + i <= measure w h t)%nat).
  { induction i as [|i [Ki Mi]]; [rewrite P0; split; auto; lia|].
    destruct (H i) as [st [st' [[o [cls [ys [k [Ho [Hy [Hst [Hk _]]]]]]]] E]]].
    destruct (kept_step w h Hw Hh o cls k (plays i) Ho Ki Hk) as [ys' [Hy' Y]]. unfold all_steps in *. assert (ys' = ys) by congruence. subst ys'.
    destruct (Y st Hst) as [st2 [u [E2 [Ku [_ M]]]]]. assert (Z : (st2, u) = (st', plays (S i))) by congruence. injection Z as -> <-.
    split; auto. lia. }
  destruct (X (S (measure w h t))) as [_ Y]. lia.
Qed.

Lemma C118_complete_proof : forall o s t f r u, oracle_ok o -> wf s -> solution s f -> init_candidates s false = Ok t -> r < 10 ->
  play r t u -> stuck r u -> (complete u <-> solvable_with r t).
Proof.
  intros o s t f r u Ho W Hf Et Hr Pu Su. split; [intros C; exists u; auto|]. intros So.
  set (w := box_width s). set (h := box_height s). assert (O : ok_sudoku w h s) by (split; auto).
  assert (Hw : 1 <= w) by apply (wf_w _ W). assert (Hh : 1 <= h) by apply (wf_h _ W).
  pose proof (start_kept w h Hw Hh s t f O Hf Et) as Kt. destruct (play_kept w h Hw Hh r t u Pu Kt) as [Ku Lu].
  destruct (Z_lt_ge_dec r 1) as [R|R].
  - rewrite (play_zero w h Hw Hh r t u R Pu Kt). apply (solvable_zero w h Hw Hh r t R Kt). auto.
  - apply (solvable_closed w h Hw Hh o r t u); auto; [lia|]. apply (stuck_closed w h Hw Hh); auto.
Qed.

Lemma complete_stuck : forall s t f r k u, wf s -> solution s f -> init_candidates s false = Ok t -> play r t u -> complete u -> stuck k u.
Proof.
  intros s t f r k u W Hf Et P C st [o [cls [ys [n [Ho [Hy [Hst [Hk _]]]]]]]].
  set (w := box_width s). set (h := box_height s). assert (O : ok_sudoku w h s) by (split; auto).
  assert (Hw : 1 <= w) by apply (wf_w _ W). assert (Hh : 1 <= h) by apply (wf_h _ W).
  destruct (play_kept w h Hw Hh r t u P (start_kept w h Hw Hh s t f O Hf Et)) as [Ku _].
  destruct (kept_step w h Hw Hh o cls n u Ho Ku Hk) as [ys' [Hy' X]]. unfold all_steps in *. assert (ys' = ys) by congruence. subst ys'.
  destruct (X st Hst) as [st' [v [_ [Kv [_ M]]]]].
  pose proof (complete_measure w h u Ku C) as M1. pose proof (LSolvers4.good_size w h Hw Hh v (proj1 Kv)) as M2. lia.
Qed.
