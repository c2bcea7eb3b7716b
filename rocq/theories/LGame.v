(** Proofs about autofill. *)
From Verif Require Export SpecGame LSudoku LSudoku2 LSolve LBrute LNotation LNotation2 LNotation7.

(** * for_each *)
Lemma for_each_app : forall {S A} (f : A -> stmt S) l1 l2 st,
  for_each f (l1 ++ l2) st = andthen (for_each f l1 st) (for_each f l2).
Proof.
  intros S A f l1; induction l1 as [|x l IH]; intros l2 st; cbn [for_each app andthen]; auto.
  destruct (f x st) as [st' [e|]]; cbn [andthen]; auto.
Qed.

(** [D q n]: [n] is removed from the candidates of [q]. *)
Definition shrink (s s' : sudoku) (D : coord -> Z -> Prop) : Prop :=
  wf s' /\ box_width s' = box_width s /\ box_height s' = box_height s /\
  (forall p, num s' p = num s p) /\
  (forall q n, field s q -> (In n (cand s' q) <-> In n (cand s q) /\ ~ D q n)).

Lemma shrink_refl : forall s, wf s -> shrink s s (fun _ _ => False).
Proof. intros s W; unfold shrink; splits; auto. intros; tauto. Qed.

Lemma shrink_trans : forall s t u D D', shrink s t D -> shrink t u D' ->
  shrink s u (fun q n => D q n \/ D' q n).
Proof.
  intros s t u D D' [W [A1 [A2 [A3 A4]]]] [W' [B1 [B2 [B3 B4]]]]. unfold shrink; splits; auto; try congruence.
  intros q n F. rewrite B4, A4 by (auto; unfold field in *; rewrite A1, A2; auto). tauto.
Qed.

Lemma shrink_ext : forall s t D D', shrink s t D -> (forall q n, field s q -> In n (cand s q) -> (D q n <-> D' q n)) -> shrink s t D'.
Proof.
  intros s t D D' [W [A1 [A2 [A3 A4]]]] H. unfold shrink; splits; auto.
  intros q n F. rewrite A4 by auto. split; intros [X Y]; split; auto; rewrite (H q n) in *; auto.
Qed.

Lemma shrink_field : forall s t D p, shrink s t D -> (field t p <-> field s p).
Proof. intros s t D p [_ [A1 [A2 _]]]. unfold field; rewrite A1, A2; tauto. Qed.

Lemma shrink_one : forall s p v, wf s -> field s p ->
  shrink s (pcset s p (sdiff zcmp (cand s p) (sof_list zcmp [v]))) (fun q n => q = p /\ n = v).
Proof.
  intros s p v W F. assert (Z : zsset (sdiff zcmp (cand s p) (sof_list zcmp [v]))) by (apply sdiff_zsset, cand_sset; auto).
  unfold shrink; splits; auto.
  - apply pcset_wf; auto.
  - intros q n Fq. rewrite cand_pcset by auto. destruct (coord_eqb q p) eqn:E.
    + apply coord_eqb_eq in E; subst q. rewrite (In_sdiff _ zcmp_good), (In_sof_list _ zcmp_good). cbn. intuition congruence.
    + assert (q <> p) by (intros ->; rewrite coord_eqb_refl in E; discriminate). tauto.
Qed.

Definition has (v : Z) (s : sudoku) (q : coord) : bool := smem zcmp v (cand s q).
Lemma has_In : forall v s q, has v s q = true <-> In v (cand s q).
Proof. intros; apply (smem_In _ zcmp_good). Qed.

(** * One filled field *)
Lemma autoremove_fields : forall v l s out ch cs, wf s -> NoDup l -> (forall p, In p l -> field s p) ->
  exists s', for_each (autoremove_field v) l (mkFill s out ch, cs)
      = ((mkFill s' out (ch || existsb (has v s) l), cs ++ filter (has v s) l), None) /\
    shrink s s' (fun q n => In q l /\ n = v).
Proof.
  intros v l; induction l as [|p l IH]; intros s out ch cs W ND F.
  - exists s. cbn [for_each existsb filter]. rewrite orb_false_r, app_nil_r. split; auto.
    eapply shrink_ext; [apply shrink_refl; auto|]. cbn; tauto.
  - inversion ND as [|? ? Np ND']; subst. assert (Fp : field s p) by (apply F; left; auto).
    destruct p as [r c]. cbn [for_each]. unfold autoremove_field at 1. cbn [f_sudoku f_out].
    rewrite get_candidates_ok by auto. cbn [with_value].
    change (smem zcmp v (cand s (r, c))) with (has v s (r, c)).
    cbn [existsb filter]. destruct (has v s (r, c)) eqn:E.
    + rewrite remove_candidates_ok by auto. cbn [with_value andthen].
      set (s1 := pcset s (r, c) (sdiff zcmp (cand s (r, c)) (sof_list zcmp [v]))).
      assert (S1 : shrink s s1 (fun q n => q = (r, c) /\ n = v)) by (apply shrink_one; auto).
      destruct (IH s1 out true (cs ++ [(r, c)])) as [s' [X Y]]; auto; [apply S1| |].
      { intros p Hp. apply (shrink_field _ _ _ p S1). apply F; right; auto. }
      exists s'. assert (H : forall q, In q l -> has v s1 q = has v s q).
      { intros q Hq. apply eq_true_iff_eq. rewrite !has_In. destruct S1 as [_ [_ [_ [_ S1]]]].
        rewrite S1 by (apply F; right; auto). assert (q <> (r, c)) by congruence. tauto. }
      split.
      * etransitivity; [exact X|]. cbn [orb]. rewrite orb_true_r, <- app_assoc. cbn [app].
        rewrite (filter_ext_in _ _ _ H). auto.
      * eapply shrink_ext; [eapply shrink_trans; eauto|]. intros q n _ _. cbn. intuition (subst; auto).
    + cbn [andthen]. destruct (IH s out ch cs) as [s' [X Y]]; auto; [intros; apply F; right; auto|].
      exists s'. split; [rewrite X; auto|]. eapply shrink_ext; [exact Y|].
      intros q n _ Hn. cbn. split; [intuition|]. intros [[<-|H] ->]; auto.
      exfalso. apply has_In in Hn. congruence.
Qed.

(** * Output *)
Definition small (s : sudoku) (verbose : bool) : Prop := verbose = false \/ NN s <= 9.

Lemma nencode_small : forall s cs, wf s -> NN s <= 9 -> (forall p, In p cs -> field s p) ->
  exists t, nencode cs 3 3 None (lit ",") [] = Ok t.
Proof.
  intros s cs W H F. destruct (encode_exact 3 3 cs (lit ",") []) as [rs [bs [_ [_ [_ [_ X]]]]]]; try lia.
  - intros p Hp. specialize (F p Hp). unfold field, cell in *. lia.
  - eauto.
Qed.

(** The fields that lose [num s p] because of [p]. *)
Definition losers (s : sudoku) (p : coord) : list coord := filter (has (num s p) s) (sur s p).

Lemma autoremove_ok : forall verbose p s out ch, wf s -> field s p -> small s verbose ->
  exists s' out' ms,
    autoremove verbose p (mkFill s out ch) = (mkFill s' (out ++ out') (ch || existsb (fun _ => true) ms), None) /\
    (verbose = false -> out' = []) /\
    (verbose = true -> exists ls, out' = concat ls /\ Forall2 autoremove_line ms ls) /\
    shrink s s' (fun q n => num s p <> 0 /\ n = num s p /\ In q (sur s p)) /\
    (forall q n, field s q -> ((In n (cand s q) /\ ~ In n (cand s' q)) <-> exists cs, In (n, cs) ms /\ In q cs)) /\
    (forall m, In m ms -> snd m <> [] /\ incl (snd m) (sur s p)) /\
    (ms = [] <-> (num s p = 0 \/ forall q, In q (sur s p) -> ~ In (num s p) (cand s q))).
Proof.
  intros verbose [r c] s out ch W F Sm. unfold autoremove. cbn [f_sudoku f_out f_changed].
  rewrite getitem_ok by auto. cbn [with_value].
  destruct (num s (r, c) =? 0) eqn:E; b2p.
  - exists s, [], []. cbn [existsb]. rewrite app_nil_r, orb_false_r. splits; auto.
    + intros _; exists []; split; auto.
    + eapply shrink_ext; [apply shrink_refl; auto|]. cbn; intuition.
    + intros q n _. split; [tauto|]. intros [cs [[] _]].
    + intros m [].
    + tauto.
  - rewrite surrounding_ok by auto. cbn [with_value].
    destruct (sur_spec s (r, c) W F) as [ND [Hs _]].
    set (v := num s (r, c)) in *.
    destruct (autoremove_fields v (sur s (r, c)) s out ch [] W ND) as [s' [X Y]].
    { intros p Hp; apply Hs in Hp; tauto. }
    rewrite X. cbn [app andthen]. cbn [f_sudoku f_out f_changed].
    set (L := filter (has v s) (sur s (r, c))) in *.
    assert (HL : forall q, In q L <-> In q (sur s (r, c)) /\ In v (cand s q)).
    { intros q. unfold L. rewrite filter_In, has_In. tauto. }
    assert (Ex : existsb (has v s) (sur s (r, c)) = existsb (fun _ => true) L).
    { apply eq_true_iff_eq. rewrite !existsb_exists. split.
      - intros [q [H1 H2]]. exists q; split; auto. unfold L. apply filter_In; auto.
      - intros [q [H1 _]]. unfold L in H1. apply filter_In in H1. eauto. }
    assert (Y' : shrink s s' (fun q n => v <> 0 /\ n = v /\ In q (sur s (r, c)))).
    { eapply shrink_ext; [exact Y|]. intros; tauto. }
    assert (Dm : forall ms, (forall cs n, In (n, cs) ms <-> L <> [] /\ n = v /\ cs = L) ->
       forall q n, field s q -> ((In n (cand s q) /\ ~ In n (cand s' q)) <-> exists cs, In (n, cs) ms /\ In q cs)).
    { intros ms Hms q n Fq. destruct Y as [_ [_ [_ [_ Y]]]]. rewrite Y by auto. split.
      - intros [H1 H2]. assert (D : In q (sur s (r, c)) /\ n = v).
        { destruct (Z.eq_dec n v) as [->|N]; [|exfalso; apply H2; split; auto; tauto].
          destruct (existsb (coord_eqb q) (sur s (r, c))) eqn:Q.
          - apply existsb_exists in Q. destruct Q as [q' [Q1 Q2]]. apply coord_eqb_eq in Q2; subst; auto.
          - exfalso. apply H2. split; auto. intros [Q' _]. rewrite <- not_true_iff_false in Q. apply Q.
            apply existsb_exists. exists q; split; auto. apply coord_eqb_refl. }
        destruct D as [D1 ->]. assert (In q L) by (apply HL; auto). exists L. split; auto.
        apply Hms. splits; auto. intros E'. rewrite E' in *; contradiction.
      - intros [cs [H1 H2]]. apply Hms in H1. destruct H1 as [_ [-> ->]]. apply HL in H2. tauto. }
    destruct L as [|q L'] eqn:EL.
    + exists s', [], []. rewrite Ex, app_nil_r. cbn [existsb]. splits; auto.
      * intros _; exists []; split; auto.
      * apply Dm. intros cs n; cbn. intuition.
      * intros m [].
      * split; auto. intros _; right. intros q Hq Hv. apply (proj2 (HL q)); auto.
    + assert (FL : forall p, In p (q :: L') -> field s p).
      { intros p Hp. apply HL in Hp. apply Hs. tauto. }
      assert (Nm : ([(v, q :: L')] = [] <-> v = 0 \/ (forall x, In x (sur s (r, c)) -> ~ In v (cand s x)))).
      { split; [discriminate|]. intros [|H]; [contradiction|]. exfalso. destruct (proj1 (HL q)) as [H1 H2]; [left; auto|].
        apply (H q); auto. }
      assert (Hm : forall cs n, In (n, cs) [(v, q :: L')] <-> q :: L' <> [] /\ n = v /\ cs = q :: L').
      { intros cs n; cbn [In]. split.
        - intros [H|[]]. inversion H; subst. splits; auto. discriminate.
        - intros [_ [-> ->]]; auto. }
      assert (Hi : forall m, In m [(v, q :: L')] -> snd m <> [] /\ incl (snd m) (sur s (r, c))).
      { intros m [<-|[]]. cbn [snd]. split; [discriminate|]. intros p Hp. apply HL in Hp; tauto. }
      destruct verbose.
      * destruct Sm as [|Sm]; [discriminate|].
        destruct (nencode_small s (q :: L') W Sm FL) as [t Et]. unfold coord in *. rewrite Et. cbn [with_value].
        exists s'. eexists. exists [(v, q :: L')]. cbn [existsb]. rewrite Ex. cbn [existsb orb].
        splits; auto; try reflexivity; try discriminate.
        intros _. eexists [_]. split; [cbn; symmetry; apply app_nil_r|].
        constructor; auto. exists t. split; auto.
      * exists s', [], [(v, q :: L')]. rewrite Ex, app_nil_r. splits; auto. discriminate.
Qed.
