(** Property C125: solving with hints().  Statements use only the model functions and the specification files; the proofs are in the L*.v
    files. *)
From Verif Require Import LHints2 LCheck PSolvers PLevel PUnique PDlx.

(** C125: hints() are the steps of all the classes but Bruteforce, one class after the other. *)
Theorem C125_list : forall o s, oracle_ok o -> wf s ->
  exists lists, Forall2 (fun cls ys => all_steps o cls s ys) hint_classes lists /\ glist (hints o s) s = Ok (concat lists).
Proof.
  intros o s Ho W. exists (map (fun c => gyields (MSolvers.find o c s) s) hint_classes). split.
  - assert (X : forall c, In c hint_classes -> all_steps o c s (gyields (MSolvers.find o c s) s)).
    { intros c Hc. destruct (hint_class_ok c Hc) as [D [N0 _]]. apply find_nil; auto. }
    revert X. generalize hint_classes. intros l; induction l as [|c l IH]; intros X; constructor; [apply X; left; auto|]. apply IH. intros; apply X; right; auto.
  - rewrite hints_list by auto. rewrite flat_map_concat_map. reflexivity.
Qed.
Print Assumptions C125_list.

(** C125: with all candidates calculated, applying hints one after the other, whichever, ends ... *)
Theorem C125_ends : forall s t f plays, wf s -> solution s f -> init_candidates s false = Ok t -> plays O = t ->
  ~ (forall i, exists st st', offered (plays i) st /\ apply st (plays i) = Ok (st', plays (S i))).
Proof. intros s t f plays W Hf Et E. exact (C125_ends_proof s t f W Hf Et plays E). Qed.
Print Assumptions C125_ends.

(** ... always in the same sudoku ... *)
Theorem C125_end : forall o s t f, oracle_ok o -> wf s -> solution s f -> init_candidates s false = Ok t ->
  exists u, hinted t u /\ no_hints o u /\ forall v, hinted t v -> hinted v u /\ forall o', oracle_ok o' -> no_hints o' v -> v = u.
Proof.
  intros o s t f Ho W Hf Et. destruct (C125_end_proof o s t f Ho W Hf Et) as [u [H N]]. exists u. split; auto. split; auto.
  intros v Hv. pose proof (C125_confluence_proof o s t f Ho W Hf Et u v H N Hv) as C. split; auto. intros o' Ho' Nv.
  assert (St : stuck 7 v) by (apply (hs o' s t f Ho' W Hf Et v Hv); auto).
  destruct C as [v|v st st' s1 u Off _ _]; [reflexivity|]. destruct (St st). apply offered_iff; auto.
  destruct (hp s t f W Hf Et v Hv) as [_ K]. apply K.
Qed.
Print Assumptions C125_end.

(** ... which is full exactly if rate() is below the rating of Bruteforce; then the solution is the only one. *)
Theorem C125_rate : forall o o' fuel s t f r u, oracle_ok o -> oracle_ok o' -> wf s -> solution s f -> init_candidates s false = Ok t ->
  rate fuel o' s = Ok r -> hinted t u -> no_hints o u -> (complete u <-> r < 10) /\ (complete u -> unique_solution s).
Proof.
  intros o o' fuel s t f r u Ho Ho' W Hf Et E Hu Nu. pose proof (C125_rate_proof o s t f Ho W Hf Et fuel o' r u Ho' E Hu Nu) as H.
  split; auto. intros C. apply H in C. eapply C122_unique; eauto.
Qed.
Print Assumptions C125_rate.

(** C125: for a sudoku without candidates, as it is read from a file: always applying the first hint leads to the same end. *)
Theorem C125_first : forall os s t f, (forall i, oracle_ok (os i)) -> wf s -> solution s f -> (forall p, field s p -> cand s p = []) ->
  init_candidates s false = Ok t ->
  exists n u, (forall m, (n <= m)%nat -> follow m os s = Ok u) /\ hinted t u /\ forall o, oracle_ok o -> no_hints o u.
Proof. exact C125_first_proof. Qed.
Print Assumptions C125_first.

Theorem C125_first_rate : forall os o fuel s f r, (forall i, oracle_ok (os i)) -> oracle_ok o -> wf s -> solution s f ->
  (forall p, field s p -> cand s p = []) -> rate fuel o s = Ok r ->
  exists n u, (forall m, (n <= m)%nat -> follow m os s = Ok u) /\ (complete u <-> r < 10).
Proof.
  intros os o fuel s f r Hos Ho W Hf Hc E. destruct (init_candidates_ok s false W) as [t [Et _]].
  destruct (C125_first os s t f Hos W Hf Hc Et) as [n [u [F [H N]]]]. exists n, u. split; auto.
  apply (C125_rate o o fuel s t f r u Ho Ho W Hf Et E H (N o Ho)).
Qed.
Print Assumptions C125_first_rate.

(** Other hints may be wrong while candidates are missing: HiddenSingle takes a field without candidates for one where no number fits. *)
Definition bare4 : sudoku := of_rows 2 2 [[1; 2; 3; 0]; [3; 4; 1; 2]; [2; 1; 4; 3]; [4; 3; 2; 0]].
Definition bare4sol : sudoku := of_rows 2 2 [[1; 2; 3; 4]; [3; 4; 1; 2]; [2; 1; 4; 3]; [4; 3; 2; 1]].
Definition bare4hints : list step := Eval vm_compute in match glist (hints o_rev bare4) bare4 with Ok ys => ys | Err _ => [] end.
Definition bare4bad : sudoku := Eval vm_compute in match apply (single_step HiddenSingle 0 3 1) bare4 with Ok (_, t) => t | Err _ => bare4 end.
Theorem C125_bare_refuted : exists s f st o, oracle_ok o /\ wf s /\ solution s f /\ unique_solution s /\ (forall p, field s p -> cand s p = []) /\
  In st (match glist (hints o s) s with Ok ys => ys | Err _ => [] end) /\
  exists st' t, apply st s = Ok (st', t) /\ forall g, ~ solution t g.
Proof.
  assert (W : wf bare4) by (apply wfb_ok; vm_compute; reflexivity).
  exists bare4, (num bare4sol), (single_step HiddenSingle 0 3 1), o_rev. split; [exact o_rev_ok|]. split; [exact W|].
  split; [apply solutionb_ok; vm_compute; reflexivity|]. split.
  { destruct (C27_is_unique some_order bare4 some_order_ok W) as [b [Eb Hb]]. apply Hb.
    assert (E : is_unique some_order bare4 = Ok true) by (vm_compute; reflexivity). congruence. }
  split.
  { intros [r c] Fp. unfold field, cell in Fp. change (box_width bare4) with 2 in Fp. change (box_height bare4) with 2 in Fp. cbn [fst snd] in Fp.
    assert (r = 0 \/ r = 1 \/ r = 2 \/ r = 3) by lia. assert (c = 0 \/ c = 1 \/ c = 2 \/ c = 3) by lia. clear Fp.
    destruct H as [-> |[-> |[-> | ->]]], H0 as [-> |[-> |[-> | ->]]]; reflexivity. }
  split.
  { assert (Y : match glist (hints o_rev bare4) bare4 with Ok ys => ys | Err _ => [] end = bare4hints) by (vm_compute; reflexivity).
    rewrite Y. unfold bare4hints. cbn [In]. tauto. }
  exists (mkStep HiddenSingle [(0, 3)] [(0, 3)] [1] [SetNumber 0 3 1; SetCandidates 0 3 [1]]), bare4bad. split; [vm_compute; reflexivity|].
  intros g [[R V] C].
  assert (Fa : field bare4bad (0, 0)) by (vm_compute; repeat split; congruence).
  assert (Fb : field bare4bad (0, 3)) by (vm_compute; repeat split; congruence).
  apply (V (0, 0) (0, 3)); auto.
  - split; [discriminate|]. left. reflexivity.
  - destruct (C _ Fa) as [X|X]; [discriminate|]. destruct (C _ Fb) as [Y|Y]; [discriminate|]. rewrite <- X, <- Y. reflexivity.
Qed.
Print Assumptions C125_bare_refuted.

Example C125_ex : exists u, hinted two6i u /\ complete u.
Proof.
  destruct two6_ok as [W [Hf Et]]. destruct (C125_end o_ex two6 two6i _ o_ex_ok W Hf Et) as [u [H [N _]]]. exists u. split; auto.
  apply (C125_rate o_ex o_ex 40 two6 two6i _ 2 u o_ex_ok o_ex_ok W Hf Et two6_rate H N). lia.
Qed.
Example C125_hard_ex : exists n u, (forall m, (n <= m)%nat -> follow m (fun _ => o_ex) hard5 = Ok u) /\ ~ complete u.
Proof.
  destruct hard5_ok as [W [Hf [_ E]]].
  destruct (C125_first_rate (fun _ => o_ex) o_ex 60 hard5 _ 10 (fun _ => o_ex_ok) o_ex_ok W Hf) as [n [u [F H]]]; auto.
  - intros [r c] Fp. unfold field, cell in Fp. change (box_width hard5) with 5 in Fp. change (box_height hard5) with 1 in Fp. cbn [fst snd] in Fp.
    assert (r = 0 \/ r = 1 \/ r = 2 \/ r = 3 \/ r = 4) by lia. assert (c = 0 \/ c = 1 \/ c = 2 \/ c = 3 \/ c = 4) by lia. clear Fp.
    destruct H as [-> |[-> |[-> |[-> | ->]]]], H0 as [-> |[-> |[-> |[-> | ->]]]]; reflexivity.
  - exists n, u. split; auto. rewrite H. lia.
Qed.
