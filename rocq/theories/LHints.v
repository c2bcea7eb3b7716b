(** Lemmas for C125: hints() offers the steps rated below Bruteforce. *)
From Verif Require Export SpecHints LLevel4 LGame4 LUnique.

Lemma find_runs : forall o cls s, oracle_ok o -> wf s -> cls <> Bruteforce -> cls <> BasicFish 0 -> gresult (MSolvers.find o cls s) s = Ok s.
Proof.
  intros o cls s Ho W D N0. pose proof (wf_w _ W) as Hw. pose proof (wf_h _ W) as Hh.
  assert (O : ok_sudoku (box_width s) (box_height s) s) by (apply ok_intro; auto).
  pose proof (none_SInv _ _ s O) as Si.
  pose proof (find_safe _ _ Hw Hh none (none_valid _ _) o cls s Ho Si D N0) as H. unfold safe in H.
  destruct (gsafe_run _ _ _ _ s Si H) as [[r [R1 [R2 _]]] _]. congruence.
Qed.

Lemma ok_eq : forall {A} (a b : A), Ok a = Ok b -> a = b.
Proof. intros A a b E. congruence. Qed.

Lemma gfor_runs : forall (f : sudoku -> solver -> gen sudoku step sudoku) s l,
  (forall c, In c l -> gresult (f s c) s = Ok s) ->
  gresult (gfor f l s) s = Ok s /\ gyields (gfor f l s) s = flat_map (fun c => gyields (f s c) s) l.
Proof.
  intros f s l; induction l as [|c l IH]; intros H; [split; reflexivity|]. cbn [gfor flat_map].
  rewrite gyields_gbind, gresult_gbind, (H c (or_introl eq_refl)). cbn [rbind].
  destruct IH as [A B]; [intros; apply H; right; auto|]. rewrite A, B. auto.
Qed.

Lemma hints_list : forall o s, oracle_ok o -> wf s ->
  glist (hints o s) s = Ok (flat_map (fun c => gyields (MSolvers.find o c s) s) hint_classes).
Proof.
  intros o s Ho W. unfold hints.
  destruct (gfor_runs (fun s cls => match cls with Bruteforce => Ret s | _ => MSolvers.find o cls s end) s SOLVERS) as [A B].
  { intros c Hc. assert (D : c = Bruteforce \/ c <> Bruteforce) by (destruct c; auto; right; discriminate). destruct D as [-> |D]; auto.
    assert (N0 : c <> BasicFish 0).
    { intros ->. simpl in Hc. repeat (destruct Hc as [E|Hc]; [discriminate|]). destruct Hc. }
    replace (match c with Bruteforce => _ | _ => _ end) with (MSolvers.find o c s) by (destruct c; congruence). apply find_runs; auto. }
  unfold glist. rewrite A, B. reflexivity.
Qed.

Lemma hint_class_ok : forall c, In c hint_classes -> c <> Bruteforce /\ c <> BasicFish 0 /\ exists k, RATINGS c = Ok k /\ k <= 7.
Proof.
  intros c H. unfold hint_classes in H.
  repeat (destruct H as [<-|H]; [split; [discriminate|]; split; [discriminate|]; eexists; split; [reflexivity|lia]|]). destruct H.
Qed.
Lemma rated_hint : forall c k, RATINGS c = Ok k -> k <= 9 -> In c hint_classes.
Proof.
  intros c k H L. pose proof (rated_solver c k H) as Hc. unfold SOLVERS in Hc. unfold hint_classes.
  repeat (destruct Hc as [<-|Hc]; [first [cbn in H; injection H as <-; lia|cbn [In]; tauto]|]). destruct Hc.
Qed.

Lemma offered_iff : forall s st, wf s -> (offered s st <-> hint_up_to 7 s st).
Proof.
  intros s st W; split.
  - intros [o [ys [Ho [E Hst]]]]. rewrite (hints_list o s Ho W) in E. apply ok_eq in E. rewrite <- E in Hst. clear E. apply in_flat_map in Hst as [c [Hc Hst]].
    destruct (hint_class_ok c Hc) as [D [N0 [k [Hk Lk]]]]. exists o, c, (gyields (MSolvers.find o c s) s), k. splits; auto.
    unfold all_steps, glist. rewrite find_runs; auto.
  - intros [o [c [ys [k [Ho [Hy [Hst [Hk Lk]]]]]]]]. exists o. eexists. split; [auto|]. split; [apply hints_list; auto|].
    apply in_flat_map. exists c. split; [apply (rated_hint c k); auto; lia|]. rewrite <- (steps_yield o c s ys Hy). auto.
Qed.

Lemma hinted_play : forall w h s t, 1 <= w -> 1 <= h -> kept w h s -> (hinted s t <-> play 7 s t).
Proof.
  intros w h s t Hw Hh K; split.
  - intros H. revert K. induction H as [s|s st st' s1 t H A P IH]; intros K; [constructor|].
    assert (P1 : play 7 s s1) by (econstructor; [apply offered_iff; [apply K|exact H]|exact A|constructor]).
    destruct (play_kept w h Hw Hh 7 s s1 P1 K) as [K1 _]. econstructor; [apply offered_iff; [apply K|exact H]|exact A|auto].
  - intros H. revert K. induction H as [s|s st st' s1 t H A P IH]; intros K; [constructor|].
    assert (P1 : play 7 s s1) by (econstructor; [exact H|exact A|constructor]).
    destruct (play_kept w h Hw Hh 7 s s1 P1 K) as [K1 _]. econstructor; [apply offered_iff; [apply K|exact H]|exact A|auto].
Qed.

Lemma no_hints_stuck : forall w h o s, 1 <= w -> 1 <= h -> oracle_ok o -> kept w h s -> (no_hints o s <-> stuck 7 s).
Proof.
  intros w h o s Hw Hh Ho K. assert (W : wf s) by apply K. unfold no_hints. rewrite (hints_list o s Ho W). split.
  - intros E. apply (closed_stuck w h o 7 s); auto. intros c k Hk Lk. apply ok_eq in E.
    unfold all_steps, glist. destruct (hint_class_ok c (rated_hint c k Hk ltac:(lia))) as [D [N0 _]]. rewrite find_runs; auto. f_equal.
    destruct (gyields (MSolvers.find o c s) s) as [|st ys] eqn:Ey; auto. exfalso.
    assert (In st []); [|auto]. rewrite <- E. apply in_flat_map. exists c. split; [apply (rated_hint c k Hk); lia|]. rewrite Ey. left; auto.
  - intros St. f_equal. destruct (flat_map (fun c => gyields (MSolvers.find o c s) s) hint_classes) as [|st ys] eqn:E; auto. exfalso.
    apply (St st). apply offered_iff; auto. exists o, (st :: ys). split; auto. split; [|left; auto]. rewrite hints_list, E; auto.
Qed.

Section hints.
Variables (o : oracle) (s t : sudoku) (f : grid).
Hypotheses (Ho : oracle_ok o) (W : wf s) (Hf : solution s f) (Et : init_candidates s false = Ok t).
Let w := box_width s.
Let h := box_height s.
Lemma hk : 1 <= w /\ 1 <= h /\ kept w h t.
Proof.
  assert (Hw : 1 <= w) by apply (wf_w _ W). assert (Hh : 1 <= h) by apply (wf_h _ W). split; auto. split; auto.
  apply (start_kept w h Hw Hh s t f); auto. split; auto.
Qed.
Lemma hp : forall u, hinted t u -> play 7 t u /\ kept w h u.
Proof.
  intros u H. destruct hk as [Hw [Hh K]]. apply (hinted_play w h t u Hw Hh K) in H. split; auto. apply (play_kept w h Hw Hh 7 t u H K).
Qed.
Lemma hs : forall u, hinted t u -> (no_hints o u <-> stuck 7 u).
Proof. intros u H. destruct hk as [Hw [Hh _]]. destruct (hp u H) as [_ K]. apply (no_hints_stuck w h); auto. Qed.

Lemma C125_end_proof : exists u, hinted t u /\ no_hints o u.
Proof.
  destruct (C118_end_proof o s t f 7 Ho W Hf Et) as [u [P St]]. destruct hk as [Hw [Hh K]]. exists u.
  assert (H : hinted t u) by (apply (hinted_play w h); auto). split; auto. apply hs; auto.
Qed.
Lemma C125_confluence_proof : forall u v, hinted t u -> no_hints o u -> hinted t v -> hinted v u.
Proof.
  intros u v Hu Nu Hv. destruct hk as [Hw [Hh K]]. destruct (hp u Hu) as [Pu Ku]. destruct (hp v Hv) as [Pv Kv]. apply hs in Nu; auto.
  destruct (C118_proof o s t f 7 u v Ho W Hf Et ltac:(lia) Pu Nu Pv) as [z [P <-]]. apply (hinted_play w h); auto.
Qed.
Lemma C125_rate_proof : forall fuel o' r u, oracle_ok o' -> rate fuel o' s = Ok r -> hinted t u -> no_hints o u -> (complete u <-> r < 10).
Proof.
  intros fuel o' r u Ho' E Hu Nu. destruct (hp u Hu) as [Pu Ku]. apply hs in Nu; auto.
  rewrite (C118_complete_proof o s t f 7 u Ho W Hf Et ltac:(lia) Pu Nu).
  destruct (C117_proof o' fuel s t f r Ho' W Hf Et E) as [R H]. rewrite H by lia. split; [lia|]. intros L.
  assert (X : solvable_with 9 t) by (apply H; lia). apply H; [lia|].
  destruct X as [v [P C]]. exists v. split; auto. clear - P. induction P as [|s st st' s1 t H A P IH]; [constructor|].
  econstructor; [|exact A|exact IH]. destruct H as [o [c [ys [k [Ho [Hy [Hst [Hk Lk]]]]]]]]. exists o, c, ys, k. splits; auto.
  destruct (hint_class_ok c (rated_hint c k Hk Lk)) as [_ [_ [k' [E L]]]]. assert (k = k') by congruence. lia.
Qed.
Lemma C125_ends_proof : forall plays : nat -> sudoku, plays O = t ->
  ~ (forall i, exists st st', offered (plays i) st /\ apply st (plays i) = Ok (st', plays (S i))).
Proof.
  intros plays E0 H. assert (Hh : forall i, hinted t (plays i)).
  { assert (X : forall s u v, hinted s u -> hinted u v -> hinted s v) by (clear; intros s u v A; induction A; auto; intros; econstructor; eauto).
    induction i as [|i IH]; [rewrite E0; constructor|]. destruct (H i) as [st [st' [A B]]]. eapply X; [exact IH|]. econstructor; [exact A|exact B|constructor]. }
  apply (C118_ends_proof s t f 7 W Hf Et plays E0). intros i. destruct (H i) as [st [st' [A B]]]. exists st, st'. split; auto.
  apply offered_iff; auto. apply (hp _ (Hh i)).
Qed.
End hints.
