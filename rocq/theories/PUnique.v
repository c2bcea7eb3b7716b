(** Property C122: a rating below that of Bruteforce certifies that the solution is unique.  Statements use only the model functions and
    the specification files; the proofs are in the L*.v files. *)
From Verif Require Import LUnique LCheck PSolvers PLevel PDlx.

(** C122: a sudoku with a solution that is rated below 10 has only one. *)
Theorem C122_unique : forall o fuel s f r, oracle_ok o -> wf s -> solution s f -> rate fuel o s = Ok r -> r < 10 -> unique_solution s.
Proof. exact C122_proof. Qed.
Print Assumptions C122_unique.

(** C122: so does is_unique say, whatever the order of Python's sets is there. *)
Theorem C122_is_unique : forall o ord fuel s f r, oracle_ok o -> (forall p l, Permutation (ord p l) l) -> wf s -> solution s f ->
  rate fuel o s = Ok r -> r < 10 -> is_unique ord s = Ok true.
Proof.
  intros o ord fuel s f r Ho Hp W Hf E Hr. destruct (C27_is_unique ord s Hp W) as [b [Eb Hb]]. rewrite Eb. f_equal. apply Hb.
  eapply C122_unique; eauto.
Qed.
Print Assumptions C122_is_unique.

(** C122: a sudoku with several solutions is rated 10. *)
Theorem C122_several : forall o fuel s f g r, oracle_ok o -> wf s -> solution s f -> solution s g ->
  ~ same_grid (box_width s) (box_height s) f g -> rate fuel o s = Ok r -> r = 10.
Proof.
  intros o fuel s f g r Ho W Hf Hg D E. destruct (init_candidates_ok s false W) as [t [Et _]].
  destruct (C117_rate_level o fuel s t f r Ho W Hf Et E) as [R _].
  destruct (Z.eq_dec r 10) as [|N]; auto. exfalso. apply D.
  destruct (C122_unique o fuel s f r Ho W Hf E ltac:(lia)) as [u [_ U]]. intros p Cp. rewrite (U f Hf p Cp), (U g Hg p Cp). reflexivity.
Qed.
Print Assumptions C122_several.

(** C122: hints below Bruteforce, in any order, keep every solution of the sudoku. *)
Theorem C122_hints_keep : forall s t u f g r, wf s -> solution s f -> init_candidates s false = Ok t -> r < 10 -> play r t u -> solution s g ->
  solution u g.
Proof.
  intros s t u f g r W Hf Et Hr P Hg.
  assert (O : ok_sudoku (box_width s) (box_height s) s) by (split; auto).
  pose proof (start_kept _ _ (wf_w _ W) (wf_h _ W) s t f O Hf Et) as K.
  apply (play_solutions (box_width s) (box_height s) r t u (wf_w _ W) (wf_h _ W) Hr P K).
  destruct (start_cand s t W Et) as [_ [_ [_ [Nt _]]]].
  apply (solutions_eq _ _ s t O (kept_ok _ _ t K) (fun p _ => Nt p)). exact Hg.
Qed.
Print Assumptions C122_hints_keep.

Example C122_ex : unique_solution two6 /\ is_unique some_order two6 = Ok true.
Proof.
  destruct two6_ok as [W [Hf _]]. split.
  - apply (C122_unique o_ex 40 two6 _ 2 o_ex_ok W Hf two6_rate). lia.
  - apply (C122_is_unique o_ex some_order 40 two6 _ 2 o_ex_ok some_order_ok W Hf two6_rate). lia.
Qed.
Example C122_several_ex : rate 40 o_ex ex4m = Ok 10 /\ is_unique some_order ex4m = Ok false.
Proof. split; vm_compute; reflexivity. Qed.

(** The other way round it is false: a sudoku with only one solution for which no hint exists. *)
Definition hard5 : sudoku := of_rows 5 1 [[4; 0; 0; 0; 0]; [0; 5; 0; 1; 0]; [0; 0; 2; 0; 0]; [1; 0; 0; 3; 0]; [0; 0; 0; 0; 3]].
Definition hard5sol : sudoku := of_rows 5 1 [[4; 1; 3; 2; 5]; [3; 5; 4; 1; 2]; [5; 3; 2; 4; 1]; [1; 2; 5; 3; 4]; [2; 4; 1; 5; 3]].
Lemma hard5_ok : wf hard5 /\ solution hard5 (num hard5sol) /\ unique_solution hard5 /\ rate 60 o_ex hard5 = Ok 10.
Proof.
  assert (W : wf hard5) by (apply wfb_ok; vm_compute; reflexivity). split; [exact W|].
  split; [apply solutionb_ok; vm_compute; reflexivity|]. split.
  - destruct (C27_is_unique some_order hard5 some_order_ok W) as [b [Eb Hb]]. apply Hb.
    assert (E : is_unique some_order hard5 = Ok true) by (vm_compute; reflexivity). congruence.
  - vm_compute. reflexivity.
Qed.
Theorem C122_converse_refuted : exists s f fuel o, oracle_ok o /\ wf s /\ solution s f /\ unique_solution s /\ rate fuel o s = Ok 10.
Proof. exists hard5, (num hard5sol), 60%nat, o_ex. split; [exact o_ex_ok|exact hard5_ok]. Qed.
Print Assumptions C122_converse_refuted.

(** Without a solution a low rating says nothing: rate() does not look for conflicts. *)
Theorem C122_no_solution_refuted : exists s fuel o, oracle_ok o /\ wf s /\ (forall f, ~ solution s f) /\ rate fuel o s = Ok 0.
Proof.
  exists (of_rows 2 1 [[1; 1]; [1; 1]]), 40%nat, o_ex. split; [exact o_ex_ok|]. split; [apply wfb_ok; vm_compute; reflexivity|]. split.
  - intros f [[R V] C].
    assert (Fa : field (of_rows 2 1 [[1; 1]; [1; 1]]) (0, 0)) by (vm_compute; repeat split; congruence).
    assert (Fb : field (of_rows 2 1 [[1; 1]; [1; 1]]) (0, 1)) by (vm_compute; repeat split; congruence).
    apply (V (0, 0) (0, 1)); auto.
    + split; [discriminate|]. left. reflexivity.
    + destruct (C _ Fa) as [X|X]; [discriminate|]. destruct (C _ Fb) as [Y|Y]; [discriminate|]. rewrite <- X, <- Y. reflexivity.
  - vm_compute. reflexivity.
Qed.
Print Assumptions C122_no_solution_refuted.
