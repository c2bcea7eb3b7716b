(** Lemmas for C122: hints below Bruteforce keep all solutions, so they complete only sudokus with one solution. *)
From Verif Require Export LLevel4 LDlx3.

Local Opaque MSudoku.surrounding_of.

Lemma play_solutions : forall w h r s t, 1 <= w -> 1 <= h -> r < 10 -> play r s t -> kept w h s -> forall g, solution s g -> solution t g.
Proof.
  intros w h r s t Hw Hh Hr P; induction P as [s|s st st' s1 t H A P IH]; intros K g Hg; auto.
  pose proof (play_kept w h Hw Hh r s s1 (play_step r s st st' s1 s1 H A (play_stop r s1)) K) as [K1 _].
  apply IH; auto. clear IH P.
  destruct H as [o [cls [ys [k [Ho [Hy [Hst [Hk Lk]]]]]]]]. pose proof K as [G [Td Ca]]. pose proof G as [S _].
  pose proof (SInv_ok _ _ _ _ S) as O. pose proof O as [W [Ew Eh]].
  assert (FV : forall g, solution s g -> valid_grid w h g) by (intros; eapply gd_valid; eauto).
  assert (Nb : cls <> Bruteforce) by (intros ->; injection Hk as <-; lia).
  assert (Nf : cls <> BasicFish 0) by (intros ->; discriminate).
  pose proof (find_safe w h Hw Hh (solution s) FV o cls s Ho S Nb Nf) as Sa.
  destruct (gsafe_run (SInv w h (solution s)) _ _ _ s S Sa) as [_ X].
  rewrite (steps_yield o cls s ys Hy) in Hst. pose proof (X st Hst) as G1.
  destruct (good_apply w h (solution s) FV cls s st S G1) as [st2 [t2 [Ea [S' L]]]].
  assert (Y : (st2, t2) = (st', s1)) by congruence. injection Y as -> ->.
  destruct (SInv_ok _ _ _ _ S') as [W1 [Ew1 Eh1]]. split; [rewrite Ew1, Eh1; auto|].
  intros p Fp. unfold field in Fp. rewrite Ew1, Eh1 in Fp. apply (wi_num _ _ _ _ (SInv_WInv _ _ _ _ S')); auto.
Qed.

Lemma solvable_unique : forall s t f r, wf s -> solution s f -> init_candidates s false = Ok t -> r < 10 -> solvable_with r t -> unique_solution s.
Proof.
  intros s t f r W Hf Et Hr [u [P C]].
  set (w := box_width s). set (h := box_height s). assert (O : ok_sudoku w h s) by (split; auto).
  assert (Hw : 1 <= w) by apply (wf_w _ W). assert (Hh : 1 <= h) by apply (wf_h _ W).
  pose proof (start_kept w h Hw Hh s t f O Hf Et) as K. destruct (play_kept w h Hw Hh r t u P K) as [Ku _].
  pose proof (kept_ok w h t K) as Ot. pose proof (kept_ok w h u Ku) as [_ [Ewu Ehu]].
  destruct (start_cand s t W Et) as [_ [_ [_ [Nt _]]]].
  pose proof (solutions_eq w h s t O Ot (fun p _ => Nt p)) as Sol.
  assert (All : forall g, solution s g -> forall p, cell w h p -> g p = num u p).
  { intros g Hg p Cp. assert (Fp : field u p) by (unfold field; rewrite Ewu, Ehu; auto).
    assert (Su : solution u g) by (apply (play_solutions w h r t u); auto; apply Sol; auto).
    destruct (proj2 Su p Fp) as [Z0|E]; auto. exfalso. exact (C p Fp Z0). }
  exists f. split; auto. intros g Hg p Cp. rewrite (All g Hg p Cp), (All f Hf p Cp). reflexivity.
Qed.

Lemma C122_proof : forall o fuel s f r, oracle_ok o -> wf s -> solution s f -> rate fuel o s = Ok r -> r < 10 -> unique_solution s.
Proof.
  intros o fuel s f r Ho W Hf E Hr. destruct (init_candidates_ok s false W) as [t [Et _]].
  destruct (rate_least fuel o s r E) as [R _].
  apply (solvable_unique s t f r); auto. apply (rate_level o fuel s t f r Ho W Hf Et E r); lia.
Qed.
