(** Pointing tuples: exactly which steps are found. *)
From Verif Require Export LFind3.

Lemma NoDup_flat_map : forall {A B} (f : A -> list B) l, NoDup l ->
  (forall x, In x l -> NoDup (f x)) -> (forall x y b, In x l -> In y l -> In b (f x) -> In b (f y) -> x = y) ->
  NoDup (flat_map f l).
Proof.
  intros A B f l N; induction N as [|x l Hx N IH]; intros H1 H2; [constructor|].
  cbn [flat_map]. apply NoDup_app_iff. splits.
  - apply H1; left; auto.
  - apply IH; [intros; apply H1; right; auto|]. intros a b c Ha Hb; apply H2; right; auto.
  - intros b Hb Hc. apply in_flat_map in Hc. destruct Hc as [y [Hy Hc]].
    assert (x = y) by (eapply H2; eauto; [left|right]; auto). subst; auto.
Qed.
Lemma all_same_true : forall {A} (f : A -> Z) l a, In a l -> (forall x, In x l -> f x = f a) -> all_same (map f l) = true.
Proof.
  intros A f l a Ha H. unfold all_same, py_len. apply Z.eqb_eq.
  replace (sof_list zcmp (map f l)) with [f a]; [reflexivity|].
  apply (sset_ext _ zcmp_good).
  - apply zsorted_sset. repeat constructor.
  - apply (sof_list_sset _ zcmp_good).
  - intros v. rewrite (In_sof_list _ zcmp_good), in_map_iff. split.
    + intros [<-|[]]. exists a; auto.
    + intros [x [<- Hx]]. left. symmetry; auto.
Qed.
Lemma len_one : forall {A} (l : list A), (length l <= 1)%nat -> NoDup l.
Proof. intros A [|a [|b l]] H; simpl in H; try lia; repeat constructor; auto. Qed.

Section Pointing.
Variable s : sudoku.
Hypothesis W : wf s.

Definition pcl (l : list coord) (v : Z) : list coord := filter (fun rc => smem zcmp v (cand s rc)) l.
Definition paff (cov cl : list coord) (v : Z) : list coord :=
  filter (fun rc => negb (list_in coord_eqb rc cl) && smem zcmp v (cand s rc)) cov.
Lemma in_pcl : forall l v p, In p (pcl l v) <-> In p l /\ In v (cand s p).
Proof. intros. unfold pcl. rewrite filter_In, (smem_In _ zcmp_good). tauto. Qed.
Lemma in_paff : forall cov cl v p, In p (paff cov cl v) <-> In p cov /\ ~ In p cl /\ In v (cand s p).
Proof.
  intros. unfold paff. rewrite filter_In, andb_true_iff, negb_true_iff, list_in_coord_not, (smem_In _ zcmp_good). tauto.
Qed.
Lemma fields_with_ok : forall v l, (forall p, In p l -> field s p) -> fields_with s v l = Ok (pcl l v).
Proof. intros v l H. apply (ro_filter s W (fun _ c => smem zcmp v c)); auto. Qed.
Lemma fields_except_ok : forall v cl l, (forall p, In p l -> field s p) -> fields_with_except s v cl l = Ok (paff l cl v).
Proof. intros v cl l H. apply (ro_filter_except s W (fun _ c => smem zcmp v c)); auto. Qed.

(** [l] is the unit of kind [k] of [q]. *)
Definition unitl (k : kind) (q : coord) (l : list coord) : Prop := NoDup l /\ forall p, In p l <-> unit_at s k q p.

Lemma sorted_nil : forall {A} cmp (l : list A), py_sorted cmp l = [] <-> l = [].
Proof.
  intros A cmp l. split; [|intros ->; reflexivity]. intros E.
  pose proof (py_sorted_length cmp l) as L. rewrite E in L. destruct l; [auto|discriminate].
Qed.

Lemma point_sound : forall n k k2 q0 l v a cov, unitl k q0 l -> unitl k2 a cov ->
  1 <= v <= box_width s * box_height s -> length (pcl l v) = n -> In a (pcl l v) ->
  (forall p, In p (pcl l v) -> together s k2 p a) -> paff cov (pcl l v) v <> [] ->
  pointing s n k k2 a v (py_sorted coord_cmp (pcl l v)) (py_sorted coord_cmp (paff cov (pcl l v) v)) /\ together s k a q0.
Proof.
  intros n k k2 q0 l v a cov [Nl Hl] [Nc Hc] Hv Ln Ha Ht Na.
  assert (T : together s k a q0) by (apply in_pcl in Ha; destruct Ha as [Ha _]; apply Hl in Ha; apply Ha).
  split; auto. unfold pointing. splits; auto; try apply Hv.
  - apply (in_py_sorted _ coord_cmp_good); auto.
  - apply py_sorted_lists; [apply NoDup_filter; auto|]. intros p. rewrite in_pcl, Hl, (unit_at_same s k a q0) by auto. tauto.
  - rewrite py_sorted_length; auto.
  - intros p Hp. apply Ht. rewrite (in_py_sorted _ coord_cmp_good) in Hp; auto.
  - apply py_sorted_lists; [apply NoDup_filter; auto|]. intros p.
    rewrite in_paff, Hc, (in_py_sorted _ coord_cmp_good). tauto.
  - intros E. apply sorted_nil in E. auto.
Qed.

Lemma point_complete : forall n k k2 q0 l v q cl aff, unitl k q0 l -> pointing s n k k2 q v cl aff -> together s k q q0 ->
  cl = py_sorted coord_cmp (pcl l v) /\ length (pcl l v) = n /\ In q (pcl l v) /\
  (forall p, In p (pcl l v) -> together s k2 p q) /\
  (forall a cov, In a (pcl l v) -> unitl k2 a cov ->
     aff = py_sorted coord_cmp (paff cov (pcl l v) v) /\ paff cov (pcl l v) v <> []).
Proof.
  intros n k k2 q0 l v q cl aff [Nl Hl] H T.
  destruct H as [Hv [Hq [Hcl [Ln [Ht [Haff Na]]]]]].
  assert (Hp : forall p, In p (pcl l v) <-> unit_at s k q p /\ In v (cand s p)).
  { intros p. rewrite in_pcl, Hl, (unit_at_same s k q q0) by auto. tauto. }
  assert (E : py_sorted coord_cmp (pcl l v) = cl).
  { eapply lists_sorted_eq; [apply NoDup_filter; auto|apply Hp|exact Hcl]. }
  assert (I : forall p, In p cl <-> In p (pcl l v)) by (intros p; rewrite <- E; apply (in_py_sorted _ coord_cmp_good)).
  splits; auto.
  - rewrite <- (py_sorted_length coord_cmp), E; auto.
  - apply I; auto.
  - intros p X. apply Ht. apply I; auto.
  - intros a cov Ha [Nc Hc].
    assert (Ea : py_sorted coord_cmp (paff cov (pcl l v) v) = aff).
    { eapply lists_sorted_eq; [apply NoDup_filter; auto| |exact Haff].
      intros p. rewrite in_paff, Hc, I, (unit_at_same s k2 a q) by (apply Ht, I; auto). tauto. }
    split; auto. intros X. rewrite X in Ea. cbn in Ea. congruence.
Qed.

(** ** Rows and columns *)
Definition box_list (a : coord) : list coord := match box_of s (fst a) (snd a) true with Ok l => l | Err _ => [] end.
Lemma box_list_ok : forall a, field s a -> box_of s (fst a) (snd a) true = Ok (box_list a) /\ unitl KBox a (box_list a).
Proof.
  intros a F. destruct (kind_unit_true s W KBox a F) as [l [E [N H]]]. cbn [kind_func] in E. unfold f_box in E.
  unfold box_list. rewrite E. split; [auto|split; auto].
Qed.

Definition pr (n : nat) (l : list coord) (v : Z) : list step :=
  let cl := pcl l v in
  if negb (py_len cl =? Z.of_nat n) then []
  else if all_same (map (fun rc => box_at s (fst rc) (snd rc)) cl) then
    match cl with
    | [] => []
    | a :: _ => match paff (box_list a) cl v with
                | [] => []
                | aff => [new_step (PointingTuple n) cl aff [v]]
                end
    end
  else [].
Lemma pr_length : forall n l v, (length (pr n l v) <= 1)%nat.
Proof.
  intros. unfold pr. cbv zeta. destruct (negb _); [simpl; lia|]. destruct (all_same _); [|simpl; lia].
  destruct (pcl l v) as [|a t]; [simpl; lia|]. destruct (paff _ _ _); simpl; lia.
Qed.
Lemma box_at_iff : forall p q, field s p -> field s q ->
  (box_at s (fst p) (snd p) = box_at s (fst q) (snd q) <-> same_box (box_width s) (box_height s) p q).
Proof.
  intros p q Fp Fq. split.
  - eapply (box_at_same _ _ (wf_w _ W) (wf_h _ W)); eauto. apply (si0 s W).
  - destruct p as [r c], q as [r' c']. unfold same_box; cbn [fst snd]. intros [E1 E2]. rewrite !method_box_at.
    destruct (box_at_range _ _ (wf_w _ W) (wf_h _ W) r c Fp) as [B1 [D1 D2]].
    destruct (box_at_range _ _ (wf_w _ W) (wf_h _ W) r' c' Fq) as [B2 [D3 D4]].
    rewrite E1 in D1. rewrite E2 in D2.
    destruct (box_pos _ _ (wf_h _ W) _ B1) as [_ [_ ->]]. destruct (box_pos _ _ (wf_h _ W) _ B2) as [_ [_ ->]].
    congruence.
Qed.
Lemma unitl_field : forall k q l p, unitl k q l -> In p l -> field s p.
Proof. intros k q l p [_ H] Hp. apply H in Hp. apply Hp. Qed.

Lemma pr_spec : forall n k q0 l v st, unitl k q0 l -> 1 <= v <= box_width s * box_height s ->
  (In st (pr n l v) <-> exists q cl aff, together s k q q0 /\ pointing s n k KBox q v cl aff /\ step_is (PointingTuple n) cl aff [v] st).
Proof.
  intros n k q0 l v st U Hv.
  assert (Fc : forall p, In p (pcl l v) -> field s p).
  { intros p Hp. apply in_pcl in Hp. eapply unitl_field; eauto; tauto. }
  unfold pr. cbv zeta. split.
  - destruct (negb _) eqn:En; [intros []|]. b2p. unfold py_len in En.
    destruct (all_same _) eqn:Es; [|intros []]. destruct (pcl l v) as [|a t] eqn:Ec; [intros []|]. rewrite <- Ec in *.
    assert (Ia : In a (pcl l v)) by (rewrite Ec; left; auto).
    destruct (paff (box_list a) (pcl l v) v) as [|b u] eqn:Ea; [intros []|]. rewrite <- Ea in *. intros [<-|[]].
    destruct (box_list_ok a (Fc a Ia)) as [_ Ub].
    destruct (point_sound n k KBox q0 l v a (box_list a) U Ub Hv) as [P T]; auto.
    + lia.
    + intros p Hp. apply box_at_iff; auto. eapply all_same_eq; [exact Es| |].
      * apply (in_map (fun rc => box_at s (fst rc) (snd rc))); auto.
      * apply (in_map (fun rc => box_at s (fst rc) (snd rc))); auto.
    + congruence.
    + exists a; eexists; eexists; splits; eauto. apply new_step_is; auto.
  - intros [q [cl [aff [T [P Hst]]]]].
    destruct (point_complete n k KBox q0 l v q cl aff U P T) as [E1 [E2 [E3 [E4 E5]]]].
    replace (negb (py_len (pcl l v) =? Z.of_nat n)) with false by (symmetry; apply negb_false_iff, Z.eqb_eq; unfold py_len; lia).
    rewrite (all_same_true _ _ q); auto.
    2:{ intros p Hp. apply box_at_iff; auto. apply E4; auto. }
    destruct (pcl l v) as [|a t] eqn:Ec; [destruct E3|]. rewrite <- Ec in *.
    assert (Ia : In a (pcl l v)) by (rewrite Ec; left; auto).
    destruct (box_list_ok a (Fc a Ia)) as [_ Ub].
    destruct (E5 a (box_list a) Ia Ub) as [E6 E7].
    destruct (paff (box_list a) (pcl l v) v) as [|b u] eqn:Ea; [congruence|]. rewrite <- Ea in *.
    left. apply step_is_eq in Hst. rewrite Hst. apply step_is_eq. apply new_step_is; auto.
Qed.

Definition line_list (k : kind) (a : coord) : list coord :=
  match kind_func k s (fst a) (snd a) true with Ok l => l | Err _ => [] end.
Lemma line_list_ok : forall k a, field s a -> kind_func k s (fst a) (snd a) true = Ok (line_list k a) /\ unitl k a (line_list k a).
Proof.
  intros k a F. destruct (kind_unit_true s W k a F) as [l [E [N H]]]. unfold line_list. rewrite E. split; [auto|split; auto].
Qed.
Lemma pr_runs : forall n k x, k <> KBox -> 0 <= x < box_width s * box_height s ->
  runs (do* cs := lift (kind_func k s x x true) in
        gfor (fun s candidate =>
                  do* clues := lift (fields_with s candidate cs) in
                  if negb (py_len clues =? Z.of_nat n) then Ret s
                  else if all_same (map (fun rc => box_at s (fst rc) (snd rc)) clues) then
                    do* c0 := lift (list_get clues 0) in
                    do* bcs := lift (box_of s (fst c0) (snd c0) true) in
                    do* aff := lift (fields_with_except s candidate clues bcs) in
                    match aff with
                    | [] => Ret s
                    | _ => yield (new_step (PointingTuple n) clues aff [candidate])
                    end
                  else Ret s)
               (numbers s) s) s (flat_map (pr n (line_list k (x, x))) (numbers s)).
Proof.
  intros n k x _ Hx. assert (Fx : field s (x, x)) by (split; simpl; auto).
  destruct (line_list_ok k (x, x) Fx) as [E U]. set (l := line_list k (x, x)) in *.
  eapply runs_lift; [exact E|]. apply runs_for. intros v Hv.
  assert (Fc : forall p, In p (pcl l v) -> field s p).
  { intros p Hp. apply in_pcl in Hp. eapply unitl_field; eauto; tauto. }
  eapply runs_lift; [apply fields_with_ok; intros p Hp; eapply unitl_field; eauto|].
  unfold pr. cbv zeta. destruct (negb _); [apply runs_ret|].
  destruct (all_same _) eqn:Es; [|apply runs_ret].
  destruct (pcl l v) as [|a t] eqn:Ec; [discriminate|].
  eapply runs_lift; [reflexivity|].
  destruct (box_list_ok a) as [Eb Ub]; [apply Fc; left; auto|].
  eapply runs_lift; [exact Eb|].
  eapply runs_lift; [apply fields_except_ok; intros p Hp; eapply unitl_field; eauto|].
  destruct (paff _ _ _); [apply runs_ret|apply runs_yield].
Qed.

(** ** Boxes *)
Definition pb_aff (l : list coord) (v : Z) : list coord :=
  let cl := pcl l v in
  if all_same (map fst cl) then match cl with [] => [] | a :: _ => paff (line_list KRow a) cl v end
  else if all_same (map snd cl) then match cl with [] => [] | a :: _ => paff (line_list KCol a) cl v end
  else [].
Definition pb (n : nat) (l : list coord) (v : Z) : list step :=
  if negb (py_len (pcl l v) =? Z.of_nat n) then []
  else match pb_aff l v with [] => [] | aff => [new_step (PointingTuple n) (pcl l v) aff [v]] end.
Lemma pb_length : forall n l v, (length (pb n l v) <= 1)%nat.
Proof. intros. unfold pb. destruct (negb _); [simpl; lia|]. destruct (pb_aff l v); simpl; lia. Qed.

Lemma pb_spec : forall n q0 l v st, unitl KBox q0 l -> 1 <= v <= box_width s * box_height s ->
  (In st (pb n l v) <-> exists q k2 cl aff, together s KBox q q0 /\ (k2 = KRow \/ k2 = KCol /\ n <> 1%nat) /\
     pointing s n KBox k2 q v cl aff /\ step_is (PointingTuple n) cl aff [v] st).
Proof.
  intros n q0 l v st U Hv.
  assert (Fc : forall p, In p (pcl l v) -> field s p).
  { intros p Hp. apply in_pcl in Hp. eapply unitl_field; eauto; tauto. }
  assert (Nc : NoDup (pcl l v)) by (apply NoDup_filter; apply U).
  unfold pb, pb_aff. cbv zeta. split.
  - destruct (negb _) eqn:En; [intros []|]. b2p. unfold py_len in En.
    destruct (all_same (map fst (pcl l v))) eqn:E1; [|destruct (all_same (map snd (pcl l v))) eqn:E2; [|intros []]].
    + destruct (pcl l v) as [|a t] eqn:Ec; [intros []|]. rewrite <- Ec in *.
      assert (Ia : In a (pcl l v)) by (rewrite Ec; left; auto).
      destruct (paff (line_list KRow a) (pcl l v) v) as [|b u] eqn:Ea; [intros []|]. rewrite <- Ea in *. intros [<-|[]].
      destruct (line_list_ok KRow a (Fc a Ia)) as [_ Ub].
      destruct (point_sound n KBox KRow q0 l v a (line_list KRow a) U Ub Hv) as [P T]; auto.
      * lia.
      * intros p Hp. cbn. unfold same_row. eapply all_same_eq; [exact E1| |]; apply in_map; auto.
      * congruence.
      * exists a, KRow; eexists; eexists; splits; eauto. apply new_step_is; auto.
    + destruct (pcl l v) as [|a t] eqn:Ec; [intros []|]. rewrite <- Ec in *.
      assert (Ia : In a (pcl l v)) by (rewrite Ec; left; auto).
      destruct (paff (line_list KCol a) (pcl l v) v) as [|b u] eqn:Ea; [intros []|]. rewrite <- Ea in *. intros [<-|[]].
      destruct (line_list_ok KCol a (Fc a Ia)) as [_ Ub].
      destruct (point_sound n KBox KCol q0 l v a (line_list KCol a) U Ub Hv) as [P T]; auto.
      * lia.
      * intros p Hp. cbn. unfold same_col. eapply all_same_eq; [exact E2| |]; apply in_map; auto.
      * congruence.
      * exists a, KCol; eexists; eexists; splits; eauto; [|apply new_step_is; auto].
        right; split; auto. intros ->. destruct t as [|b' t'].
        -- rewrite Ec in E1. discriminate.
        -- rewrite Ec in En. cbn [length] in En. lia.
  - intros [q [k2 [cl [aff [T [K [P Hst]]]]]]].
    destruct (point_complete n KBox k2 q0 l v q cl aff U P T) as [E1 [E2 [E3 [E4 E5]]]].
    replace (negb (py_len (pcl l v) =? Z.of_nat n)) with false by (symmetry; apply negb_false_iff, Z.eqb_eq; unfold py_len; lia).
    assert (X : forall a, In a (pcl l v) -> exists b u, paff (line_list k2 a) (pcl l v) v = b :: u /\
              aff = py_sorted coord_cmp (b :: u)).
    { intros a Ia. destruct (line_list_ok k2 a (Fc a Ia)) as [_ Ub].
      destruct (E5 a (line_list k2 a) Ia Ub) as [E6 E7].
      destruct (paff (line_list k2 a) (pcl l v) v) as [|b u] eqn:Ea; [congruence|]. eauto. }
    destruct K as [->|[-> N1]].
    + rewrite (all_same_true _ _ q); auto. 
      destruct (pcl l v) as [|a t] eqn:Ec; [destruct E3|]. rewrite <- Ec in *.
      destruct (X a) as [b [u [-> Eu]]]; [rewrite Ec; left; auto|].
      left. apply step_is_eq in Hst. rewrite Hst. apply step_is_eq. apply new_step_is; auto.
    + replace (all_same (map fst (pcl l v))) with false.
      2:{ symmetry. destruct (all_same (map fst (pcl l v))) eqn:Ef; auto. exfalso.
          destruct (pcl l v) as [|a [|b t]] eqn:Ec; [destruct E3|cbn in E2; congruence|].
          assert (Eab : fst a = fst b) by (eapply all_same_eq; [exact Ef| |]; apply in_map; simpl; auto).
          assert (Eac : snd a = snd b).
          { etransitivity; [apply (E4 a); simpl; auto|symmetry; apply (E4 b); simpl; auto]. }
          inv Nc. apply H1. left. destruct a, b; cbn in *; congruence. }
      rewrite (all_same_true _ _ q); auto. 
      destruct (pcl l v) as [|a t] eqn:Ec; [destruct E3|]. rewrite <- Ec in *.
      destruct (X a) as [b [u [-> Eu]]]; [rewrite Ec; left; auto|].
      left. apply step_is_eq in Hst. rewrite Hst. apply step_is_eq. apply new_step_is; auto.
Qed.

Definition corner (b : Z) : coord := ((b / box_height s) * box_height s, (b mod box_height s) * box_width s).
Lemma corner_field : forall b, 0 <= b < box_width s * box_height s -> field s (corner b).
Proof.
  intros b Hb. pose proof (wf_w _ W); pose proof (wf_h _ W).
  pose proof (box_pos (box_width s) (box_height s) (wf_h _ W) b Hb) as [B1 [B2 B3]].
  unfold corner. split; cbn [fst snd]; nia.
Qed.
Lemma corner_box : forall q b, 0 <= b < box_width s * box_height s -> field s q ->
  (together s KBox q (corner b) <-> box_at s (fst q) (snd q) = b).
Proof.
  intros [r c] b Hb F. pose proof (wf_w _ W); pose proof (wf_h _ W).
  pose proof (box_pos (box_width s) (box_height s) (wf_h _ W) b Hb) as [B1 [B2 B3]].
  cbn. unfold same_box, corner; cbn [fst snd]. rewrite !Z.div_mul by lia.
  rewrite method_box_at.
  destruct (box_at_range _ _ (wf_w _ W) (wf_h _ W) r c F) as [R1 [D1 D2]]. split.
  - intros [E1 E2]. destruct (box_pos _ _ (wf_h _ W) _ R1) as [_ [_ ->]]. rewrite D1, D2, E1, E2. lia.
  - intros <-. auto.
Qed.

Lemma pb_runs : forall n b, 0 <= b < box_width s * box_height s ->
  runs (pointing_in_box n s b) s (flat_map (pb n (box_list (corner b))) (numbers s)).
Proof.
  intros n b Hb. unfold pointing_in_box. cbv zeta. pose proof (corner_field b Hb) as Fb.
  destruct (box_list_ok (corner b) Fb) as [E U]. eapply runs_lift; [exact E|].
  apply runs_for. intros v Hv. set (l := box_list (corner b)) in *.
  assert (Fc : forall p, In p (pcl l v) -> field s p).
  { intros p Hp. apply in_pcl in Hp. eapply unitl_field; eauto; tauto. }
  eapply runs_lift; [apply fields_with_ok; intros p Hp; eapply unitl_field; eauto|].
  unfold pb. destruct (negb _); [apply runs_ret|].
  eapply runs_lift with (b := pb_aff l v).
  - unfold pb_aff. cbv zeta.
    destruct (all_same (map fst (pcl l v))) eqn:E1; [|destruct (all_same (map snd (pcl l v))) eqn:E2; auto].
    + destruct (pcl l v) as [|a t] eqn:Ec; [discriminate|]. rewrite <- Ec in *.
      destruct (line_list_ok KRow a) as [El Ul]; [apply Fc; rewrite Ec; left; auto|].
      rewrite Ec. change (list_get (a :: t) 0) with (@Ok coord a). cbn [rbind].
      apply (fields_except_ok v (a :: t) (line_list KRow a)). intros p Hp; eapply unitl_field; eauto.
    + destruct (pcl l v) as [|a t] eqn:Ec; [discriminate|]. rewrite <- Ec in *.
      destruct (line_list_ok KCol a) as [El Ul]; [apply Fc; rewrite Ec; left; auto|].
      rewrite Ec. change (list_get (a :: t) 0) with (@Ok coord a). cbn [rbind].
      apply (fields_except_ok v (a :: t) (line_list KCol a)). intros p Hp; eapply unitl_field; eauto.
  - destruct (pb_aff l v); [apply runs_ret|apply runs_yield].
Qed.

Lemma in_indices_field : forall x, In x (indices s) <-> 0 <= x < box_width s * box_height s.
Proof. intros x. unfold indices. rewrite in_py_range. tauto. Qed.

Definition rowcol (n : nat) (x : Z) : list step :=
  flat_map (fun k => flat_map (pr n (line_list k (x, x))) (numbers s)) [KRow; KCol].
Lemma rowcol_runs : forall n x, 0 <= x < box_width s * box_height s ->
  runs (pointing_in_row_and_column n s x) s (rowcol n x).
Proof.
  intros n x Hx. unfold pointing_in_row_and_column. change [f_row; f_col] with (map kind_func [KRow; KCol]).
  cbn [map gfor]. unfold rowcol. cbn [flat_map].
  apply runs_bind; [|apply runs_bind; [|apply runs_ret]]; apply pr_runs; auto; congruence.
Qed.

Lemma step_is_inj : forall cls cl aff vals cl' aff' vals' st,
  step_is cls cl aff vals st -> step_is cls cl' aff' vals' st -> cl = cl' /\ aff = aff' /\ vals = vals'.
Proof.
  intros cls cl aff vals cl' aff' vals' st [_ [A [B [C _]]]] [_ [A' [B' [C' _]]]]. splits; congruence.
Qed.
Lemma diag_field : forall x, 0 <= x < box_width s * box_height s -> field s (x, x).
Proof. intros x H; split; simpl; auto. Qed.
Lemma in_numbers' : forall v, In v (numbers s) <-> 1 <= v <= box_width s * box_height s.
Proof. intros. apply in_numbers. Qed.
Lemma numbers_nodup : NoDup (numbers s).
Proof. unfold numbers. apply NoDup_py_range2. Qed.
Lemma indices_nodup : NoDup (indices s).
Proof. unfold indices. apply NoDup_py_range. Qed.
Lemma point_q : forall n k k2 q v cl aff, pointing s n k k2 q v cl aff -> unit_at s k q q.
Proof.
  intros n k k2 q v cl aff [_ [Hq [Hcl _]]]. apply (proj2 Hcl) in Hq. apply Hq.
Qed.
Lemma point_clue : forall n k k2 q v cl aff p, pointing s n k k2 q v cl aff -> In p cl -> unit_at s k q p /\ together s k2 p q.
Proof.
  intros n k k2 q v cl aff p [_ [Hq [Hcl [_ [Ht _]]]]] Hp. split; [|apply Ht; auto]. apply (proj2 Hcl) in Hp. apply Hp.
Qed.

Definition pboxes (n : nat) : list step := flat_map (fun b => flat_map (pb n (box_list (corner b))) (numbers s)) (indices s).
Definition plines (n : nat) : list step := flat_map (rowcol n) (indices s).

Lemma in_pboxes : forall n st, In st (pboxes n) <-> exists q k2 v cl aff, (k2 = KRow \/ k2 = KCol /\ n <> 1%nat) /\
  pointing s n KBox k2 q v cl aff /\ step_is (PointingTuple n) cl aff [v] st.
Proof.
  intros n st. unfold pboxes. rewrite in_flat_map. split.
  - intros [b [Hb H]]. apply in_indices_field in Hb. apply in_flat_map in H. destruct H as [v [Hv H]]. apply in_numbers' in Hv.
    destruct (box_list_ok (corner b) (corner_field b Hb)) as [_ U].
    apply (pb_spec n (corner b)) in H; auto. destruct H as [q [k2 [cl [aff [_ [K [P S]]]]]]].
    exists q, k2, v, cl, aff; auto.
  - intros [q [k2 [v [cl [aff [K [P S]]]]]]]. pose proof (point_q _ _ _ _ _ _ _ P) as [Fq _].
    set (b := box_at s (fst q) (snd q)).
    assert (Hb : 0 <= b < box_width s * box_height s).
    { destruct q as [r c]. apply (box_at_range _ _ (wf_w _ W) (wf_h _ W) r c Fq). }
    exists b. split; [apply in_indices_field; auto|]. apply in_flat_map. exists v. split; [apply in_numbers'; apply P|].
    destruct (box_list_ok (corner b) (corner_field b Hb)) as [_ U].
    apply (pb_spec n (corner b)); auto; [apply P|]. exists q, k2, cl, aff; splits; auto.
    apply corner_box; auto.
Qed.
Lemma in_plines : forall n st, In st (plines n) <-> exists q k v cl aff, (k = KRow \/ k = KCol) /\
  pointing s n k KBox q v cl aff /\ step_is (PointingTuple n) cl aff [v] st.
Proof.
  intros n st. unfold plines, rowcol. rewrite in_flat_map. split.
  - intros [x [Hx H]]. apply in_indices_field in Hx. apply in_flat_map in H. destruct H as [k [Hk H]].
    apply in_flat_map in H. destruct H as [v [Hv H]]. apply in_numbers' in Hv.
    destruct (line_list_ok k (x, x) (diag_field x Hx)) as [_ U].
    apply (pr_spec n k (x, x)) in H; auto. destruct H as [q [cl [aff [_ [P S]]]]].
    exists q, k, v, cl, aff; splits; auto. simpl in Hk. intuition.
  - intros [q [k [v [cl [aff [K [P S]]]]]]]. pose proof (point_q _ _ _ _ _ _ _ P) as [Fq _].
    set (x := match k with KRow => fst q | _ => snd q end).
    assert (Hx : 0 <= x < box_width s * box_height s) by (destruct Fq; unfold x; destruct k; auto).
    exists x. split; [apply in_indices_field; auto|]. apply in_flat_map. exists k. split; [simpl; intuition|].
    apply in_flat_map. exists v. split; [apply in_numbers'; apply P|].
    destruct (line_list_ok k (x, x) (diag_field x Hx)) as [_ U].
    apply (pr_spec n k (x, x)); auto; [apply P|]. exists q, cl, aff; splits; auto.
    destruct K; subst k; reflexivity.
Qed.

Lemma pointing_runs : forall n, runs (pointing_find n s) s (pboxes n ++ plines n).
Proof.
  intros n. unfold pointing_find. apply runs_bind.
  - apply runs_for. intros b Hb. apply pb_runs. apply in_indices_field; auto.
  - apply runs_for. intros x Hx. apply rowcol_runs. apply in_indices_field; auto.
Qed.

(** The clues determine the unit. *)
Lemma pboxes_nodup : forall n, NoDup (pboxes n).
Proof.
  intros n. unfold pboxes. apply NoDup_flat_map; [apply indices_nodup| |].
  - intros b Hb. apply in_indices_field in Hb. destruct (box_list_ok (corner b) (corner_field b Hb)) as [_ U].
    apply NoDup_flat_map; [apply numbers_nodup|intros v _; apply len_one, pb_length|].
    intros v v' st Hv Hv' H H'. apply in_numbers' in Hv, Hv'.
    apply (pb_spec n (corner b)) in H; auto. apply (pb_spec n (corner b)) in H'; auto.
    destruct H as [q [k2 [cl [aff [_ [_ [_ S]]]]]]]. destruct H' as [q' [k2' [cl' [aff' [_ [_ [_ S']]]]]]].
    destruct (step_is_inj _ _ _ _ _ _ _ _ S S') as [_ [_ E]]. congruence.
  - intros b b' st Hb Hb' H H'. apply in_indices_field in Hb, Hb'.
    apply in_flat_map in H. destruct H as [v [Hv H]]. apply in_flat_map in H'. destruct H' as [v' [Hv' H']].
    apply in_numbers' in Hv, Hv'.
    destruct (box_list_ok (corner b) (corner_field b Hb)) as [_ U]. destruct (box_list_ok (corner b') (corner_field b' Hb')) as [_ U'].
    apply (pb_spec n (corner b)) in H; auto. apply (pb_spec n (corner b')) in H'; auto.
    destruct H as [q [k2 [cl [aff [T [_ [P S]]]]]]]. destruct H' as [q' [k2' [cl' [aff' [T' [_ [P' S']]]]]]].
    destruct (step_is_inj _ _ _ _ _ _ _ _ S S') as [E _]. subst cl'.
    pose proof (point_q _ _ _ _ _ _ _ P) as [Fq _].
    assert (Iq : In q cl) by (destruct P as [_ [Iq _]]; exact Iq). destruct (point_clue _ _ _ _ _ _ _ q P' Iq) as [[_ T2] _].
    apply (corner_box q b) in T; auto. rewrite <- T. apply (corner_box q b'); auto. eapply together_trans; eauto.
Qed.

Lemma plines_nodup : forall n, (2 <= n)%nat -> NoDup (plines n).
Proof.
  intros n Hn. unfold plines. 
  assert (C : forall k k' x x' st v v', In k [KRow; KCol] -> In k' [KRow; KCol] ->
     0 <= x < box_width s * box_height s -> 0 <= x' < box_width s * box_height s ->
     1 <= v <= box_width s * box_height s -> 1 <= v' <= box_width s * box_height s ->
     In st (pr n (line_list k (x, x)) v) -> In st (pr n (line_list k' (x', x')) v') -> k = k' /\ x = x' /\ v = v').
  { intros k k' x x' st v v' Hk Hk' Hx Hx' Hv Hv' H H'.
    destruct (line_list_ok k (x, x) (diag_field x Hx)) as [_ U]. destruct (line_list_ok k' (x', x') (diag_field x' Hx')) as [_ U'].
    apply (pr_spec n k (x, x)) in H; auto. apply (pr_spec n k' (x', x')) in H'; auto.
    destruct H as [q [cl [aff [T [P S]]]]]. destruct H' as [q' [cl' [aff' [T' [P' S']]]]].
    destruct (step_is_inj _ _ _ _ _ _ _ _ S S') as [E [_ Ev]]. subst cl'. split; [|split; [|congruence]].
    - pose proof P as [_ [_ [Lcl [Len _]]]]. destruct cl as [|a [|b t]]; cbn [length] in Len; try lia.
      assert (Nd : NoDup (a :: b :: t)) by (eapply lists_nodup; eauto).
      assert (Nab : a <> b) by (inv Nd; intros ->; apply H1; left; auto).
      assert (X : forall K Q V A, pointing s n K KBox Q V (a :: b :: t) A -> together s K a b).
      { intros K Q V A PP. destruct (point_clue _ _ _ _ _ _ _ a PP) as [[_ Ta] _]; [left; auto|].
        destruct (point_clue _ _ _ _ _ _ _ b PP) as [[_ Tb] _]; [right; left; auto|].
        eapply together_trans; [exact Ta|]. apply together_sym; auto. }
      apply X in P. apply X in P'. destruct a as [a1 a2], b as [b1 b2].
      destruct Hk as [<-|[<-|[]]], Hk' as [<-|[<-|[]]]; auto; exfalso; apply Nab; cbn in *; unfold same_row, same_col in *; cbn in *; congruence.
    - assert (Iq : In q cl) by (destruct P as [_ [Iq _]]; exact Iq). destruct (point_clue _ _ _ _ _ _ _ q P' Iq) as [[_ T2] _].
      assert (K : k = k').
      { pose proof P as [_ [_ [Lcl [Len _]]]]. destruct cl as [|a [|b t]]; cbn [length] in Len; try lia.
        assert (Nd : NoDup (a :: b :: t)) by (eapply lists_nodup; eauto).
        assert (Nab : a <> b) by (inv Nd; intros ->; apply H1; left; auto).
        assert (X : forall K Q V A, pointing s n K KBox Q V (a :: b :: t) A -> together s K a b).
        { intros K Q V A PP. destruct (point_clue _ _ _ _ _ _ _ a PP) as [[_ Ta] _]; [left; auto|].
          destruct (point_clue _ _ _ _ _ _ _ b PP) as [[_ Tb] _]; [right; left; auto|].
          eapply together_trans; [exact Ta|]. apply together_sym; auto. }
        apply X in P. apply X in P'. destruct a as [a1 a2], b as [b1 b2].
        destruct Hk as [<-|[<-|[]]], Hk' as [<-|[<-|[]]]; auto; exfalso; apply Nab; cbn in *; unfold same_row, same_col in *; cbn in *; congruence. }
      subst k'. assert (T3 : together s k q (x', x')) by (eapply together_trans; eauto).
      destruct Hk as [<-|[<-|[]]]; cbn in T, T3; unfold same_row, same_col in *; cbn in *; congruence. }
  assert (NK : NoDup [KRow; KCol]) by (repeat constructor; simpl; intuition congruence).
  apply NoDup_flat_map; [apply indices_nodup| |].
  - intros x Hx. apply in_indices_field in Hx. unfold rowcol. apply NoDup_flat_map; auto.
    + intros k Hk. apply NoDup_flat_map; [apply numbers_nodup|intros v _; apply len_one, pr_length|].
      intros v v' st Hv Hv' H H'. apply in_numbers' in Hv, Hv'. destruct (C k k x x st v v'); intuition.
    + intros k k' st Hk Hk' H H'. apply in_flat_map in H. destruct H as [v [Hv H]]. apply in_flat_map in H'. destruct H' as [v' [Hv' H']].
      apply in_numbers' in Hv, Hv'. destruct (C k k' x x st v v'); intuition.
  - intros x x' st Hx Hx' H H'. apply in_indices_field in Hx, Hx'. unfold rowcol in H, H'.
    apply in_flat_map in H. destruct H as [k [Hk H]]. apply in_flat_map in H. destruct H as [v [Hv H]].
    apply in_flat_map in H'. destruct H' as [k' [Hk' H']]. apply in_flat_map in H'. destruct H' as [v' [Hv' H']].
    apply in_numbers' in Hv, Hv'. destruct (C k k' x x' st v v'); intuition.
Qed.

(** The affected fields lie outside of the unit of the clues. *)
Lemma point_aff : forall n k k2 q v cl aff p, pointing s n k k2 q v cl aff -> In p aff -> unit_at s k2 q p /\ ~ unit_at s k q p.
Proof.
  intros n k k2 q v cl aff p [_ [_ [Hcl [_ [_ [Haff _]]]]]] Hp. apply (proj2 Haff) in Hp. destruct Hp as [H1 [H2 H3]].
  split; auto. intros H. apply H2. apply (proj2 Hcl). auto.
Qed.

Lemma pointing_proof : forall n, exists ys, runs (pointing_find n s) s ys /\
  (forall st, In st ys <-> exists k k2 q v cl aff, pointing_kinds n k k2 /\ pointing s n k k2 q v cl aff /\
     step_is (PointingTuple n) cl aff [v] st) /\
  ((2 <= n)%nat -> NoDup ys).
Proof.
  intros n. exists (pboxes n ++ plines n). splits; [apply pointing_runs| |].
  - intros st. rewrite in_app_iff, in_pboxes, in_plines. unfold pointing_kinds. split.
    + intros [[q [k2 [v [cl [aff [K H]]]]]]|[q [k [v [cl [aff [K H]]]]]]].
      * exists KBox, k2, q, v, cl, aff. split; auto. destruct K as [->|[-> N]]; auto.
      * exists k, KBox, q, v, cl, aff. split; auto. destruct K as [K|K]; subst k; auto.
    + intros [k [k2 [q [v [cl [aff [K H]]]]]]].
      destruct K as [[-> ->]|[[-> [-> N]]|[[-> ->]|[-> ->]]]].
      * left; exists q, KRow, v, cl, aff; auto.
      * left; exists q, KCol, v, cl, aff; auto.
      * right; exists q, KRow, v, cl, aff; auto.
      * right; exists q, KCol, v, cl, aff; auto.
  - intros Hn. apply NoDup_app_iff. splits; [apply pboxes_nodup|apply plines_nodup; auto|].
    intros st H H'. apply in_pboxes in H. apply in_plines in H'.
    destruct H as [q [k2 [v [cl [aff [_ [P S]]]]]]]. destruct H' as [q' [k' [v' [cl' [aff' [_ [P' S']]]]]]].
    destruct (step_is_inj _ _ _ _ _ _ _ _ S S') as [E1 [E2 _]]. subst cl' aff'.
    pose proof P as [_ [Iq [_ [_ [_ [_ Na]]]]]]. destruct aff as [|a t]; [congruence|].
    destruct (point_aff _ _ _ _ _ _ _ a P) as [[Fa _] X]; [left; auto|].
    destruct (point_aff _ _ _ _ _ _ _ a P') as [[_ Ta] _]; [left; auto|].
    destruct (point_clue _ _ _ _ _ _ _ q P' Iq) as [_ T2].
    apply X. split; auto. eapply together_trans; [exact Ta|]. apply together_sym; auto.
Qed.
End Pointing.
