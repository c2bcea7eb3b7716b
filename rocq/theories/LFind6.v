(** What each class finds: the final statements. *)
From Verif Require Export LFind5.

Lemma find_all : forall o cls s ys, runs (MSolvers.find o cls s) s ys -> all_steps o cls s ys.
Proof. intros o cls s ys H. apply runs_glist; auto. Qed.

Lemma flat_map_forall2 : forall {A B} (f : A -> list B) (keep : A -> bool) (R : A -> B -> Prop) l,
  (forall x, In x l -> if keep x then exists b, f x = [b] /\ R x b else f x = []) ->
  Forall2 R (filter keep l) (flat_map f l).
Proof.
  intros A B f keep R l; induction l as [|x l IH]; intros H; cbn [filter flat_map]; [constructor|].
  assert (IH' : Forall2 R (filter keep l) (flat_map f l)) by (apply IH; intros; apply H; right; auto).
  pose proof (H x (or_introl eq_refl)) as Hx. destruct (keep x).
  - destruct Hx as [b [-> Hb]]. constructor; auto.
  - rewrite Hx. auto.
Qed.
Lemma filter_lists : forall s (keep : coord -> bool), lists (filter keep (coords s)) (fun p => field s p /\ keep p = true).
Proof.
  intros s keep. split.
  - apply sorted_sset. apply filter_sset. apply sorted_sset, coords_sorted.
  - intros p. rewrite filter_In, in_coords. tauto.
Qed.
Lemma sort1 : forall {A} (cmp : A -> A -> comparison) x, py_sorted cmp [x] = [x].
Proof. reflexivity. Qed.
Lemma single_step_is : forall cls p v, step_is cls [p] [p] [v] (single_step cls (fst p) (snd p) v).
Proof. intros cls [r c] v. repeat split. Qed.

Lemma filter_filter : forall {A} (f g : A -> bool) l, filter f (filter g l) = filter (fun x => g x && f x) l.
Proof.
  intros A f g l; induction l as [|x l IH]; auto. cbn [filter]. destruct (g x); cbn [filter andb]; auto. destruct (f x); congruence.
Qed.

Lemma calculate_all : forall o s, wf s -> exists fs ys, all_steps o CalculateCandidates s ys /\
  lists fs (fun p => field s p /\ cand s p = []) /\
  Forall2 (fun p st => exists vals, step_is CalculateCandidates [p] [p] vals st /\
    (num s p <> 0 -> vals = [num s p]) /\
    (num s p = 0 -> listsz vals (fun v => 1 <= v <= box_width s * box_height s /\
       forall q, field s q -> peers (box_width s) (box_height s) p q -> num s q <> v))) fs ys.
Proof.
  intros o s W. set (keep := fun p => match cand s p with [] => true | _ => false end).
  exists (filter keep (coords s)). eexists. splits; [apply find_all; apply calculate_runs; auto| |].
  - eapply lists_ext; [|apply filter_lists]. intros p. unfold keep. destruct (cand s p); intuition congruence.
  - apply flat_map_forall2. intros p Hp. apply in_coords in Hp. unfold keep. destruct (cand s p); auto.
    eexists; split; [reflexivity|]. exists (pcalc s p). splits.
    + repeat split. cbn [values new_step]. apply (py_sorted_id _ zcmp_good). apply pcalc_sset.
    + intros N. unfold pcalc. destruct (num s p =? 0) eqn:E; b2p; [congruence|auto].
    + intros E. split; [apply zsorted_sset, pcalc_sset|]. intros v. rewrite in_pcalc_empty by auto. tauto.
Qed.

Lemma naked_single_all : forall o s, wf s -> exists fs ys, all_steps o NakedSingle s ys /\
  lists fs (fun p => field s p /\ num s p = 0 /\ exists v, cand s p = [v]) /\
  Forall2 (fun p st => exists v, cand s p = [v] /\ step_is NakedSingle [p] [p] [v] st) fs ys.
Proof.
  intros o s W. set (keep := fun p => match cand s p with [_] => true | _ => false end).
  exists (filter keep (filter (fun p => num s p =? 0) (coords s))). eexists.
  splits; [apply find_all; apply naked_single_runs; auto| |].
  - rewrite filter_filter. eapply lists_ext; [|apply filter_lists]. intros p. cbv beta. rewrite andb_true_iff, Z.eqb_eq. unfold keep.
    destruct (cand s p) as [|v [|]]; split; intros [H1 [H2 H3]]; splits; auto; try congruence; eauto; destruct H3; congruence.
  - apply flat_map_forall2. intros p Hp. unfold keep. destruct (cand s p) as [|v [|]]; auto.
    eexists; split; [reflexivity|]. exists v. split; auto. apply single_step_is.
Qed.

Lemma hidden_single_all : forall o s, oracle_ok o -> wf s -> exists fs ys, all_steps o HiddenSingle s ys /\
  lists fs (fun p => field s p /\ num s p = 0 /\ exists k v, hidden_value s k p v) /\
  Forall2 (fun p st => exists k v, hidden_value s k p v /\
    (forall k' v', tried_before_hidden k' k -> ~ hidden_value s k' p v') /\
    step_is HiddenSingle [p] [p] [v] st) fs ys.
Proof.
  intros o s O W. set (keep := fun p => match hv s o p with [] => false | _ => true end).
  assert (C : forall p, field s p ->
     (hv s o p = [] /\ forall k v, ~ hidden_value s k p v) \/
     (exists k v, hv s o p = [single_step HiddenSingle (fst p) (snd p) v] /\ hidden_value s k p v /\
        forall k' v', tried_before_hidden k' k -> ~ hidden_value s k' p v')).
  { intros p F. unfold hv. pose proof (fun k v => hc_spec s W o O k p v F) as H.
    destruct (hc s o KCol p) as [|v l] eqn:E1.
    2:{ right. exists KCol, v. cbn [app]. splits; auto; [apply H; rewrite E1; left; auto|intros [] v' []]. }
    assert (N1 : forall v, ~ hidden_value s KCol p v) by (intros v Hv; apply H in Hv; rewrite E1 in Hv; destruct Hv).
    destruct (hc s o KRow p) as [|v l] eqn:E2.
    2:{ right. exists KRow, v. cbn [app]. splits; auto; [apply H; rewrite E2; left; auto|intros [] v' T; try destruct T; auto]. }
    assert (N2 : forall v, ~ hidden_value s KRow p v) by (intros v Hv; apply H in Hv; rewrite E2 in Hv; destruct Hv).
    destruct (hc s o KBox p) as [|v l] eqn:E3.
    2:{ right. exists KBox, v. cbn [app]. splits; auto; [apply H; rewrite E3; left; auto|intros [] v' T; try destruct T; auto]. }
    assert (N3 : forall v, ~ hidden_value s KBox p v) by (intros v Hv; apply H in Hv; rewrite E3 in Hv; destruct Hv).
    left. split; auto. intros []; auto. }
  exists (filter keep (filter (fun p => num s p =? 0) (coords s))). eexists.
  splits; [apply find_all; apply hidden_single_runs; auto| |].
  - rewrite filter_filter. eapply lists_ext; [|apply filter_lists]. intros p. cbv beta. rewrite andb_true_iff, Z.eqb_eq. unfold keep.
    split.
    + intros [F [E K]]. splits; auto. destruct (C p F) as [[X _]|[k [v [_ [X _]]]]]; [rewrite X in K; discriminate|eauto].
    + intros [F [E [k [v K]]]]. splits; auto. destruct (C p F) as [[_ X]|[k' [v' [-> _]]]]; auto. destruct (X k v K).
  - apply flat_map_forall2. intros p Hp. apply in_empty in Hp. unfold keep. destruct (C p) as [[X _]|[k [v [X [H1 H2]]]]]; [tauto| |].
    + rewrite X; auto.
    + rewrite X. eexists; split; [reflexivity|]. exists k, v. splits; auto. apply single_step_is.
Qed.

(** Without candidates every number is hidden. *)
Lemma hidden_single_blank : forall o s, oracle_ok o -> wf s -> (forall p, field s p -> cand s p = []) ->
  exists fs ys, all_steps o HiddenSingle s ys /\ lists fs (fun p => field s p /\ num s p = 0) /\
  Forall2 (fun p st => exists v, 1 <= v <= box_width s * box_height s /\ step_is HiddenSingle [p] [p] [v] st) fs ys.
Proof.
  intros o s O W B. destruct (hidden_single_all o s O W) as [fs [ys [H1 [H2 H3]]]]. exists fs, ys. splits; auto.
  - eapply lists_ext; [|exact H2]. intros p. split; [tauto|]. intros [F E]. splits; auto. exists KRow, 1.
    split; [pose proof (wf_w _ W); pose proof (wf_h _ W); nia|]. intros q [Fq _] _. rewrite B; auto.
  - clear -H3. induction H3 as [|p st l l' [k [v [[X _] [_ Y]]]] _ IH]; constructor; auto. exists v; auto.
Qed.

Lemma naked_all : forall o n s, wf s -> exists ys, all_steps o (NakedTuple n) s ys /\
  NoDup (map clues ys) /\
  (forall st, In st ys -> exists k q cl aff vals, naked_tuple s n k q cl aff vals /\ step_is (NakedTuple n) cl aff vals st /\
     forall k' q' aff' vals', tried_before_naked k' k -> ~ naked_tuple s n k' q' cl aff' vals') /\
  (forall k q cl aff vals, naked_tuple s n k q cl aff vals -> exists st, In st ys /\ clues st = cl).
Proof.
  intros o n s W. destruct (naked_proof s W n) as [ys [R [N [S C]]]]. exists ys. splits; auto.
  - apply find_all; auto.
  - intros st Hst. destruct (S st Hst) as [k [[q [cl [aff [vals [T1 T2]]]]] T3]]. exists k, q, cl, aff, vals. splits; auto.
    intros k' q' aff' vals' B T'. apply (T3 k' (mkStep (NakedTuple n) cl aff' vals' []) B).
    + exists q', cl, aff', vals'. split; auto. repeat split.
    + destruct T2 as [_ [E _]]. rewrite E. auto.
  - intros k q cl aff vals T. destruct (C k (mkStep (NakedTuple n) cl aff vals [])) as [st [H1 H2]].
    + exists q, cl, aff, vals. split; auto. repeat split.
    + exists st; auto.
Qed.

Lemma hidden_all : forall o n s, wf s -> exists ys, all_steps o (HiddenTuple n) s ys /\
  (forall st, In st ys <-> exists k q places cl aff vals, hidden_tuple s n k q places cl aff vals /\ step_is (HiddenTuple n) cl aff vals st) /\
  (forall st k q places cl aff vals, hidden_tuple s n k q places cl aff vals -> step_is (HiddenTuple n) cl aff vals st ->
     exists a b, ys = a ++ repeat st (length places) ++ b).
Proof. intros o n s W. destruct (hidden_runs s W n) as [ys [R H]]. exists ys. split; auto. apply find_all; auto. Qed.

(** At least two places, hence at least two copies. *)
Lemma hidden_twice : forall s n k q places cl aff vals, wf s -> hidden_tuple s n k q places cl aff vals -> (2 <= length places)%nat.
Proof.
  intros s n k q places cl aff vals W [_ [_ [_ [_ [_ [Hv [Hpl [_ [Haff Na]]]]]]]]].
  destruct aff as [|p t]; [congruence|]. assert (X : In p (p :: t)) by (left; auto). apply (proj2 Haff) in X.
  destruct X as [X _]. apply (proj2 Hpl) in X. destruct X as [_ [v [V1 V2]]].
  destruct (Hv v V1) as [_ [l [L1 L2]]].
  assert (I : incl l places).
  { intros p' Hp'. apply (proj2 L1) in Hp'. apply (proj2 Hpl). destruct Hp'. split; auto. exists v; auto. }
  pose proof (NoDup_incl_length (lists_nodup _ _ L1) I). lia.
Qed.

Lemma pointing_all : forall o n s, wf s -> exists ys, all_steps o (PointingTuple n) s ys /\
  (forall st, In st ys <-> exists k k2 q v cl aff, pointing_kinds n k k2 /\ pointing s n k k2 q v cl aff /\
     step_is (PointingTuple n) cl aff [v] st) /\
  ((2 <= n)%nat -> NoDup ys).
Proof. intros o n s W. destruct (pointing_proof s W n) as [ys [R H]]. exists ys. split; auto. apply find_all; auto. Qed.

Lemma fish_all : forall o n s, wf s -> n <> O -> exists ys, all_steps o (BasicFish n) s ys /\ NoDup ys /\
  (forall st, In st ys <-> exists line other v lines cov cl aff,
     ((line = fst /\ other = snd) \/ (line = snd /\ other = fst)) /\
     fish s n line other v lines cov cl aff /\ step_is (BasicFish n) cl aff [v] st).
Proof. intros o n s W N. destruct (fish_proof s W n N) as [ys [R H]]. exists ys. split; auto. apply find_all; auto. Qed.

Lemma bruteforce_all : forall o s, oracle_ok o -> wf s -> exists ys, all_steps o Bruteforce s ys /\
  ((forall f, ~ solution s f) -> ys = []) /\
  ((exists f, solution s f) -> exists f fs, solution s f /\ lists fs (fun p => field s p /\ num s p = 0) /\
     Forall2 (fun p st => step_is Bruteforce [p] [p] [f p] st) fs ys).
Proof.
  intros o s O W. destruct (bruteforce_cases o s O W) as [[N E]|[sol [Ws [B [S E]]]]].
  - exists []. splits; auto.
    + apply find_all. cbn [MSolvers.find]. rewrite E. apply runs_ret.
    + intros [f Hf]. destruct (N f Hf).
  - assert (Fs : forall p, field s p -> field sol p).
    { intros p F. unfold box_size in B. injection B as B1 B2. unfold field in *. rewrite B1, B2. auto. }
    set (keep := fun p => num s p =? 0).
    assert (D : gresult (diff s sol) s = Ok s /\ gyields (diff s sol) s = filter keep (coords s)).
    { assert (X : filter keep (coords s) = filter (fun p => negb (num s p =? num sol p)) (coords s)).
      { apply filter_ext_in. intros p Hp. apply in_coords in Hp. unfold keep. destruct S as [V X].
        assert (R : 1 <= num sol p <= box_width s * box_height s) by (apply V; auto).
        destruct (num s p =? 0) eqn:E1, (num s p =? num sol p) eqn:E2; b2p; auto; exfalso; destruct (X p Hp); lia. }
      rewrite X. unfold diff. rewrite <- flat_map_filter. apply gfor_yields.
      intros [r c] Hin. apply in_coords in Hin. simpl. rewrite !getitem_ok by auto. simpl.
      destruct (num s (r, c) =? num sol (r, c)); simpl; auto. }
    destruct D as [D1 D2]. unfold coord in D1, D2.
    exists (flat_map (fun p => [single_step Bruteforce (fst p) (snd p) (num sol p)]) (filter keep (coords s))).
    splits.
    + apply find_all. cbn [MSolvers.find]. rewrite E. unfold runs. rewrite gresult_gbind, gyields_gbind.
      match goal with |- context [gforgen ?b _ _] =>
        destruct (gforgen_const b (diff s sol)
          (fun p => [single_step Bruteforce (fst p) (snd p) (num sol p)]) s (s, tt) s D1 eq_refl) as [G1 G2] end.
      { intros [r c] Hp. rewrite D2 in Hp. apply filter_In in Hp. destruct Hp as [Hp _]. apply (in_coords s) in Hp.
        cbn [fst snd]. rewrite getitem_ok by auto. cbn. auto. }
      rewrite G1, G2, D2. cbn [rbind gresult gyields fst]. rewrite app_nil_r. auto.
    + intros N. destruct (N _ S).
    + intros _. exists (num sol), (filter keep (coords s)). splits; auto.
      * eapply lists_ext; [|apply filter_lists]. intros p. cbv beta. unfold keep. rewrite Z.eqb_eq. tauto.
      * generalize (filter keep (coords s)) as l. induction l as [|p l IH]; cbn [flat_map app]; constructor; auto.
        apply single_step_is.
Qed.
