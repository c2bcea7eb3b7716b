(** Lemmas for C132: the solutions, split by the number of one field. *)
From Verif Require Export LNumber LSolve.

Section Split.
Variables (s : sudoku) (p : coord) (l : list Z).
Hypothesis W : wf s.
Hypothesis Fp : field s p.
Hypothesis Ep : num s p = 0.
Hypothesis Hl : calc_candidates s (fst p) (snd p) = Ok l.

Lemma split_list : NoDup l /\ forall n, In n l <-> 1 <= n <= NN s /\
  forall q, field s q -> peers (box_width s) (box_height s) p q -> num s q <> n.
Proof.
  destruct p as [r c]. destruct (C13_proof s r c W Fp) as [l' [E [St [_ H]]]]. cbn [fst snd] in *.
  rewrite Hl in E. injection E as <-. split; [|apply H; auto].
  clear - St. induction St as [|a l St IH F]; constructor; auto. intros I. rewrite Forall_forall in F. specialize (F a I). lia.
Qed.

Lemma num_set : forall v q, field s q -> num (pset s p v) q = if coord_eqb q p then v else num s q.
Proof. intros v q Fq. apply num_pset; auto. Qed.

Lemma solution_set : forall f v, v <> 0 -> (solution (pset s p v) f <-> solution s f /\ f p = v).
Proof.
  intros f v Hv. unfold solution. destruct (pset_dims s p v) as [E1 E2]. rewrite E1, E2. unfold extends. split.
  - intros [V X]. split; [split; auto|].
    + intros q Fq. specialize (X q Fq). rewrite num_set in X by auto. destruct (coord_eqb q p) eqn:E; auto.
      apply coord_eqb_eq in E; subst. auto.
    + specialize (X p Fp). rewrite num_set, coord_eqb_refl in X by auto. destruct X; congruence.
  - intros [[V X] E]. split; auto. intros q Fq. rewrite num_set by auto. destruct (coord_eqb q p) eqn:Eq; auto.
    apply coord_eqb_eq in Eq; subst. auto.
Qed.

Lemma completion_set : forall f v, 1 <= v <= NN s -> (completion (pset s p v) f <-> completion s f /\ f p = v).
Proof.
  intros f v Hv. unfold completion. destruct (pset_dims s p v) as [E1 E2]. rewrite E1, E2. split.
  - intros [A B]. split; [split; auto|].
    + intros q Fq. specialize (A q Fq). rewrite num_set in A by auto. destruct (coord_eqb q p) eqn:E; auto.
      apply coord_eqb_eq in E; subst. split; [congruence|]. intros _. destruct A as [A _]. rewrite A; lia.
    + specialize (A p Fp). rewrite num_set, coord_eqb_refl in A by auto. apply A. lia.
  - intros [[A B] E]. split; auto. intros q Fq. rewrite num_set by auto. destruct (coord_eqb q p) eqn:Eq; auto.
    apply coord_eqb_eq in Eq; subst. split; [auto|lia].
Qed.

Lemma sol_in : forall f, solution s f -> In (f p) l.
Proof.
  intros f [[R P] X]. apply split_list. split; [apply R; auto|]. intros q Fq Pq E. destruct (X q Fq) as [Z0|Z0].
  - pose proof (R p Fp). lia.
  - apply (P p q); auto. congruence.
Qed.

Lemma comp_in : forall f, completion s f -> In (f p) l.
Proof.
  intros f [A B]. apply split_list. split; [apply A; auto|]. intros q Fq Pq E.
  destruct (A p Fp) as [_ A1]. specialize (A1 Ep). apply (B p q); auto.
  destruct (A q Fq) as [A2 _]. rewrite A2; lia.
Qed.

Lemma split_sum : forall P ys zs, enumerates s P ys -> (forall f, P f -> In (f p) l) ->
  (forall v, In v l -> enumerates (pset s p v) (fun f => P f /\ f p = v) (zs v)) ->
  length ys = list_sum (map (fun v => length (zs v)) l).
Proof.
  intros P ys zs Y HP Z1.
  assert (U : enumerates s P (flat_map zs l)).
  { apply (enumerates_union s P (fun v f => P f /\ f p = v) (fun v => pset s p v) zs l); auto.
    - apply split_list.
    - intros f. split; [intros H; exists (f p); auto|]. intros [x [_ [H _]]]; auto.
    - intros x y a b _ _ D [_ E1] [_ E2]. exists p. split; auto. congruence. }
  rewrite (enumerates_length s P ys (flat_map zs l) Y U). clear.
  induction l as [|v l' IH]; cbn [flat_map map list_sum fold_right]; auto.
  rewrite app_length. unfold list_sum in IH. rewrite IH. auto.
Qed.
End Split.

Lemma enum_ext : forall s (P Q : grid -> Prop) ys, (forall f, P f <-> Q f) -> enumerates s P ys -> enumerates s Q ys.
Proof.
  intros s P Q ys H [Y1 [Y2 Y3]]. split; [|split; auto].
  - intros y Hy. destruct (Y1 y Hy) as [A [B C]]. splits; auto. apply H; auto.
  - intros f Hf. apply Y2, H; auto.
Qed.

Lemma C132_split_proof : forall ord ords s r c l t, (forall p k, Permutation (ord p k) k) ->
  (forall v p k, Permutation (ords v p k) k) -> wf s -> field s (r, c) -> num s (r, c) = 0 ->
  calc_candidates s r c = Ok l -> (forall v, In v l -> setitem s r c v = Ok (t v)) ->
  length (gyields (dlx ord s) tt) = list_sum (map (fun v => length (gyields (dlx (ords v) (t v)) tt)) l).
Proof.
  intros ord ords s r c l t Ho Hos W Fp Ep Hl Ht.
  apply (split_sum s (r, c) l W Fp Ep Hl (solution s)); [apply C23_proof; auto|apply sol_in; auto|].
  intros v Hv. pose proof (Ht v Hv) as E. rewrite setitem_ok in E by auto. injection E as <-.
  apply (enum_ext _ (solution (pset s (r, c) v))); [|apply C23_proof; auto; apply pset_wf; auto].
  intros f. apply solution_set; auto. apply (split_list s (r, c) l W Fp Ep Hl) in Hv. lia.
Qed.

Lemma C132_brute_proof : forall ord ords s r c l t, (forall p k, Permutation (ord p k) k) ->
  (forall v p k, Permutation (ords v p k) k) -> wf s -> field s (r, c) -> num s (r, c) = 0 ->
  calc_candidates s r c = Ok l -> (forall v, In v l -> setitem s r c v = Ok (t v)) ->
  length (gyields (bruteforce ord s) tt) = list_sum (map (fun v => length (gyields (bruteforce (ords v) (t v)) tt)) l).
Proof.
  intros ord ords s r c l t Ho Hos W Fp Ep Hl Ht.
  apply (split_sum s (r, c) l W Fp Ep Hl (completion s)); [apply C19_proof; auto|apply comp_in; auto|].
  intros v Hv. pose proof (Ht v Hv) as E. rewrite setitem_ok in E by auto. injection E as <-.
  apply (enum_ext _ (completion (pset s (r, c) v))); [|apply C19_proof; auto; apply pset_wf; auto].
  intros f. apply completion_set; auto. apply (split_list s (r, c) l W Fp Ep Hl) in Hv. tauto.
Qed.

Lemma C132_other_proof : forall ord s r c l v t, (forall p k, Permutation (ord p k) k) -> wf s -> field s (r, c) -> num s (r, c) = 0 ->
  calc_candidates s r c = Ok l -> v <> 0 -> ~ In v l -> setitem s r c v = Ok t -> gyields (dlx ord t) tt = [].
Proof.
  intros ord s r c l v t Ho W Fp Ep Hl Hv Hn E. rewrite setitem_ok in E by auto. injection E as <-.
  eapply enumerates_none; [apply C23_proof; auto; apply pset_wf; auto|].
  intros f Hf. apply solution_set in Hf; auto. destruct Hf as [Hf <-]. apply Hn. apply (sol_in s (r, c) l W Fp Ep Hl f Hf).
Qed.

Lemma C132_fewer_proof : forall ord ord' s r c v t, (forall p k, Permutation (ord p k) k) -> (forall p k, Permutation (ord' p k) k) ->
  wf s -> field s (r, c) -> num s (r, c) = 0 -> v <> 0 -> setitem s r c v = Ok t ->
  (length (gyields (dlx ord' t) tt) <= length (gyields (dlx ord s) tt))%nat.
Proof.
  intros ord ord' s r c v t Ho Ho' W Fp Ep Hv E. destruct (C13_proof s r c W Fp) as [l [Hl _]].
  destruct (in_dec Z.eq_dec v l) as [Hi|Hi].
  - rewrite setitem_ok in E by auto. injection E as <-.
    rewrite (C132_split_proof ord (fun _ => ord') s r c l (fun v => pset s (r, c) v)); auto.
    2: { intros; apply setitem_ok; auto. }
    clear - Hi. induction l as [|a l IH]; [destruct Hi|]. cbn [map list_sum fold_right].
    destruct Hi as [->|Hi]; [lia|]. specialize (IH Hi). unfold list_sum in IH. lia.
  - rewrite (C132_other_proof ord' s r c l v t); auto. cbn [length]. lia.
Qed.

Lemma C132_unique_proof : forall ord ords s, (forall p k, Permutation (ord p k) k) -> (forall t p k, Permutation (ords t p k) k) ->
  wf s -> (exists p, field s p /\ num s p = 0) ->
  (is_unique ord s = Ok true <->
   forall r c, field s (r, c) -> num s (r, c) = 0 ->
     exists v t, v <> 0 /\ setitem s r c v = Ok t /\ gyields (dlx (ords t) t) tt <> [] /\
       forall v' t', v' <> 0 -> setitem s r c v' = Ok t' -> gyields (dlx (ords t') t') tt <> [] -> v' = v).
Proof.
  intros ord ords s Ho Hos W [p0 [F0 E0]].
  destruct (C27_proof ord s Ho W) as [b [Eb Hb]]. rewrite Eb.
  assert (NE : forall r c v, field s (r, c) -> num s (r, c) = 0 -> v <> 0 ->
    (gyields (dlx (ords (pset s (r, c) v)) (pset s (r, c) v)) tt <> [] <-> exists f, solution s f /\ f (r, c) = v)).
  { intros r c v Fp Ep Hv. pose proof (pset_wf s (r, c) v W Fp) as Wt.
    destruct (C23_proof (ords (pset s (r, c) v)) _ (Hos _) Wt) as [_ Y]. split.
    - intros H. destruct (gyields _ _) as [|y ys]; [congruence|]. destruct Y as [Y1 _].
      destruct (Y1 y (or_introl eq_refl)) as [_ [_ Sy]]. exists (num y). apply solution_set; auto.
    - intros [f [Hf E]]. destruct Y as [_ [Y2 _]]. destruct (Y2 f) as [y [Hy _]]; [apply solution_set; auto|].
      intros X. rewrite X in Hy. destruct Hy. }
  assert (SE : (Ok b = Ok true) <-> unique_solution s) by (rewrite <- Hb; split; congruence).
  rewrite SE. clear SE Hb Eb. split.
  - intros [f [Hf U]] r c Fp Ep. exists (f (r, c)), (pset s (r, c) (f (r, c))).
    assert (Nz : f (r, c) <> 0) by (destruct Hf as [[R _] _]; specialize (R (r, c) Fp); lia).
    split; [auto|]. split; [apply setitem_ok; auto|]. split; [apply NE; eauto|].
    intros v' t' Hv' E' N'. rewrite setitem_ok in E' by auto. injection E' as <-. apply NE in N'; auto.
    destruct N' as [g [Hg <-]]. apply (U g Hg (r, c) Fp).
  - intros H. destruct p0 as [r0 c0]. destruct (H r0 c0 F0 E0) as [v [t [Hv [Et [N _]]]]].
    rewrite setitem_ok in Et by auto. injection Et as <-. apply NE in N; auto. destruct N as [f [Hf _]].
    exists f. split; auto. intros g Hg [r c] Fp. destruct (Z.eq_dec (num s (r, c)) 0) as [Ep|Ep].
    + destruct (H r c Fp Ep) as [u [tu [Hu [_ [_ Un]]]]].
      assert (Q : forall k, solution s k -> k (r, c) = u).
      { intros k Hk. assert (Nz : k (r, c) <> 0) by (destruct Hk as [[R _] _]; specialize (R (r, c) Fp); lia).
        apply (Un _ (pset s (r, c) (k (r, c)))); auto; [apply setitem_ok; auto|]. apply NE; eauto. }
      rewrite (Q f Hf), (Q g Hg). auto.
    + destruct Hf as [_ Xf]. destruct Hg as [_ Xg]. destruct (Xf (r, c) Fp), (Xg (r, c) Fp); congruence.
Qed.
