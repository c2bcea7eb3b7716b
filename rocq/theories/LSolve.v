(** Proofs about candidates and conflicts (C13-C17). *)
From Verif Require Export LSudoku2 LCoord MSolve MAnalyze.

Local Opaque MSudoku.surrounding_of.

(** * The peers of a field as a list *)
Definition sur (s : sudoku) (p : coord) : list coord :=
  match surrounding_of s (fst p) (snd p) false with Ok l => l | Err _ => [] end.

Lemma surrounding_ok : forall s r c, wf s -> field s (r, c) ->
  surrounding_of s r c false = Ok (sur s (r, c)).
Proof.
  intros s r c W F. unfold sur; cbn [fst snd]; rewrite method_surrounding_of.
  destruct (surrounding_false_spec _ _ (wf_w _ W) (wf_h _ W) r c F) as [l [-> _]]. auto.
Qed.

Lemma sur_spec : forall s p, wf s -> field s p ->
  NoDup (sur s p) /\
  (forall q, In q (sur s p) <-> field s q /\ peers (box_width s) (box_height s) p q) /\
  Z.of_nat (length (sur s p)) = 3 * NN s - box_width s - box_height s - 1.
Proof.
  intros s [r c] W F. unfold sur; cbn [fst snd]; rewrite method_surrounding_of.
  destruct (surrounding_false_spec _ _ (wf_w _ W) (wf_h _ W) r c F) as [l [-> H]]. auto.
Qed.

Lemma in_sur : forall s p q, wf s -> field s p ->
  (In q (sur s p) <-> field s q /\ peers (box_width s) (box_height s) p q).
Proof. intros; apply sur_spec; auto. Qed.

Lemma sur_dims : forall s t p, box_width s = box_width t -> box_height s = box_height t ->
  sur s p = sur t p.
Proof.
  intros s t p Ew Eh; unfold sur. rewrite !method_surrounding_of, Ew, Eh; auto.
Qed.

Lemma peers_sym : forall w h p q, peers w h p q -> peers w h q p.
Proof.
  intros w h p q [H1 H2]; split; [congruence|].
  unfold same_row, same_col, same_box in *. destruct H2 as [H|[H|[H H']]]; auto.
Qed.

(** * calc_candidates *)
Definition pcalc (s : sudoku) (p : coord) : zset :=
  if num s p =? 0
  then filter (fun n => negb (existsb (fun q => num s q =? n) (sur s p))) (numbers s)
  else [num s p].

Lemma numbers_sorted : forall s, zsset (numbers s).
Proof.
  intros s; unfold numbers, py_range2. generalize (py_range_sorted (NN s + 1 - 1)).
  induction (py_range (NN s + 1 - 1)) as [|x l IH]; intros H; cbn [map]; [constructor|].
  inv H. constructor; [apply IH; auto|]. rewrite Forall_forall in *.
  intros y Hy. apply in_map_iff in Hy; destruct Hy as [z [<- Hz]]. apply H3 in Hz.
  apply Z.compare_lt_iff. lia.
Qed.

Lemma in_numbers : forall s n, In n (numbers s) <-> 1 <= n <= NN s.
Proof. intros; unfold numbers; rewrite in_py_range2; lia. Qed.

Lemma pcalc_sset : forall s p, zsset (pcalc s p).
Proof.
  intros s p; unfold pcalc. destruct (num s p =? 0).
  - apply filter_sset, numbers_sorted.
  - repeat constructor.
Qed.

Lemma in_pcalc_empty : forall s p n, wf s -> field s p -> num s p = 0 ->
  (In n (pcalc s p) <-> 1 <= n <= NN s /\
     forall q, field s q -> peers (box_width s) (box_height s) p q -> num s q <> n).
Proof.
  intros s p n W F E. unfold pcalc. rewrite E; simpl.
  rewrite filter_In, in_numbers, negb_true_iff, existsb_false_iff.
  split; intros [H1 H2]; split; auto.
  - intros q Fq P. apply Z.eqb_neq, H2. apply in_sur; auto.
  - intros q Hq. apply in_sur in Hq; auto. apply Z.eqb_neq, H2; tauto.
Qed.

Lemma in_pcalc_filled : forall s p n, num s p <> 0 -> (In n (pcalc s p) <-> n = num s p).
Proof.
  intros s p n E. unfold pcalc. destruct (num s p =? 0) eqn:Z; b2p; [contradiction|].
  simpl; intuition.
Qed.

Lemma fold_sdiscard : forall (f : coord -> Z) l (c : zset),
  fold_left (fun c q => sdiscard zcmp (f q) c) l c =
  filter (fun n => negb (existsb (fun q => f q =? n) l)) c.
Proof.
  intros f l; induction l as [|x l IH]; intros c; simpl.
  - induction c; simpl; congruence.
  - rewrite IH. unfold sdiscard. clear IH. induction c as [|y c IH]; simpl; auto.
    assert (cmp_eqb zcmp (f x) y = (f x =? y)) as ->.
    { destruct (f x =? y) eqn:E; b2p; [apply cmp_eqb_eq | apply cmp_eqb_neq]; auto using zcmp_good. }
    destruct (f x =? y) eqn:E; simpl; auto.
    destruct (existsb _ l); simpl; rewrite IH; auto.
Qed.

Lemma calc_candidates_ok : forall s r c, wf s -> field s (r, c) ->
  calc_candidates s r c = Ok (pcalc s (r, c)).
Proof.
  intros s r c W F; unfold calc_candidates, pcalc. rewrite getitem_ok by auto. simpl.
  destruct (num s (r, c) =? 0) eqn:E; simpl; auto.
  rewrite surrounding_ok by auto. simpl.
  rewrite (sof_list_id _ zcmp_good) by apply numbers_sorted.
  rewrite <- fold_sdiscard.
  match goal with |- foldM ?f ?l ?a = _ =>
    destruct (foldM_pure f (fun c q => sdiscard zcmp (num s q) c) (fun _ => True) l a) as [G _]; auto end.
  intros acc [a b] Hin _. apply in_sur in Hin; auto. simpl.
  rewrite getitem_ok by tauto. simpl. auto.
Qed.

Lemma C13_proof : forall s r c, wf s -> field s (r, c) ->
  exists l, calc_candidates s r c = Ok l /\ StronglySorted Z.lt l /\
    (num s (r, c) <> 0 -> forall n, In n l <-> n = num s (r, c)) /\
    (num s (r, c) = 0 -> forall n, In n l <-> 1 <= n <= NN s /\
       forall q, field s q -> peers (box_width s) (box_height s) (r, c) q -> num s q <> n).
Proof.
  intros s r c W F. exists (pcalc s (r, c)). splits.
  - apply calc_candidates_ok; auto.
  - apply pcalc_sset.
  - intros; apply in_pcalc_filled; auto.
  - intros; apply in_pcalc_empty; auto.
Qed.

(** * init_candidates *)
Lemma pcalc_ext : forall s t p, wf s -> field s p ->
  box_width s = box_width t -> box_height s = box_height t ->
  (forall q, field s q -> num s q = num t q) -> pcalc s p = pcalc t p.
Proof.
  intros s t p W F Ew Eh H. unfold pcalc. rewrite (H p F).
  destruct (num t p =? 0); auto. unfold numbers. rewrite Ew, Eh.
  apply filter_ext_in'. intros n _. f_equal.
  rewrite <- (sur_dims s t) by auto.
  assert (G : forall l, (forall q, In q l -> field s q) ->
     existsb (fun q => num s q =? n) l = existsb (fun q => num t q =? n) l).
  { induction l as [|x l IH]; intros Hl; simpl; auto.
    rewrite (H x), IH; auto; [intros; apply Hl; right; auto | apply Hl; left; auto]. }
  apply G. intros q Hq; apply in_sur in Hq; tauto.
Qed.

Lemma init_candidates_ok : forall s b, wf s ->
  exists t, init_candidates s b = Ok t /\ wf t /\
    box_width t = box_width s /\ box_height t = box_height s /\
    (forall p, num t p = num s p) /\
    (forall p, field s p -> cand t p = if b && (num s p =? 0) then cand s p else pcalc s p).
Proof.
  intros s b W. unfold init_candidates.
  match goal with |- context [foldM ?f ?l ?a] =>
    destruct (foldM_ind f (fun pre t => wf t /\
      box_width t = box_width s /\ box_height t = box_height s /\
      (forall p, num t p = num s p) /\
      (forall p, field s p -> cand t p =
         if existsb (coord_eqb p) pre then (if b && (num s p =? 0) then cand s p else pcalc s p)
         else cand s p)) l a) as [t [E [Wt [Ew [Eh [Hn Hc]]]]]] end.
  - splits; auto.
  - intros pre [r c] post t Hl [Wt [Ew [Eh [Hn Hc]]]].
    assert (F : field s (r, c)) by (apply in_coords; rewrite Hl; apply in_or_app; simpl; auto).
    assert (Ft : field t (r, c)) by (unfold field; rewrite Ew, Eh; auto).
    simpl. rewrite getitem_ok by auto. simpl. rewrite Hn.
    assert (Hpre : existsb (coord_eqb (r, c)) pre = false).
    { apply existsb_false_iff. intros x Hx. apply coord_eqb_neq. intros <-.
      pose proof (NoDup_coords s) as Hnd. rewrite Hl in Hnd.
      apply NoDup_remove_2 in Hnd. apply Hnd, in_or_app; auto. }
    destruct (negb b || negb (num s (r, c) =? 0)) eqn:Eb.
    + rewrite calc_candidates_ok by auto. simpl. rewrite set_candidates_ok by auto.
      rewrite (sof_list_id _ zcmp_good) by apply pcalc_sset.
      eexists; split; [reflexivity|].
      split; [apply pcset_wf; auto; apply pcalc_sset|].
      do 2 (split; [auto|]). split; [auto|].
      intros p Fp. rewrite cand_pcset; auto using pcalc_sset; [|unfold field; rewrite Ew, Eh; auto].
      rewrite existsb_app; simpl.
      destruct (coord_eqb p (r, c)) eqn:Ep.
      * apply coord_eqb_eq in Ep; subst p. rewrite orb_true_r; simpl.
        replace (b && (num s (r, c) =? 0)) with false
          by (destruct b, (num s (r, c) =? 0); simpl in Eb; auto; discriminate).
        apply pcalc_ext; auto.
      * simpl. rewrite orb_false_r; auto.
    + eexists; split; [reflexivity|]. split; auto. do 2 (split; [auto|]). split; auto.
      intros p Fp. rewrite existsb_app; simpl.
      destruct (coord_eqb p (r, c)) eqn:Ep.
      * apply coord_eqb_eq in Ep; subst p. rewrite orb_true_r; simpl.
        replace (b && (num s (r, c) =? 0)) with true
          by (destruct b, (num s (r, c) =? 0); simpl in Eb; auto; discriminate).
        rewrite Hc, Hpre; auto.
      * simpl. rewrite orb_false_r; auto.
  - exists t; splits; auto. intros p Fp. rewrite Hc, existsb_coords; auto.
Qed.

Lemma C14_proof : forall s b, wf s ->
  exists t, init_candidates s b = Ok t /\ wf t /\ box_size t = box_size s /\
    (forall r c, field s (r, c) -> getitem t r c = getitem s r c) /\
    (forall r c, field s (r, c) -> b = false \/ num s (r, c) <> 0 ->
       get_candidates t r c = calc_candidates s r c) /\
    (forall r c, field s (r, c) -> b = true -> num s (r, c) = 0 ->
       get_candidates t r c = get_candidates s r c).
Proof.
  intros s b W. destruct (init_candidates_ok s b W) as [t [E [Wt [Ew [Eh [Hn Hc]]]]]].
  assert (Ff : forall p, field s p -> field t p) by (unfold field; rewrite Ew, Eh; auto).
  exists t; splits; auto.
  - unfold box_size; congruence.
  - intros r c F. rewrite !getitem_ok by auto. rewrite Hn; auto.
  - intros r c F H. rewrite get_candidates_ok, calc_candidates_ok by auto. f_equal.
    rewrite Hc by auto. destruct b; simpl; auto. destruct (num s (r, c) =? 0) eqn:E0; auto.
    b2p. destruct H; [discriminate|contradiction].
  - intros r c F -> H. rewrite !get_candidates_ok by auto. f_equal. rewrite Hc by auto.
    rewrite H; auto.
Qed.

Lemma pcalc_solution : forall s f p, wf s -> solution s f -> field s p -> In (f p) (pcalc s p).
Proof.
  intros s f p W [[V1 V2] X] F. destruct (X p F) as [E|E].
  - apply in_pcalc_empty; auto. split; [apply V1; auto|].
    intros q Fq P Hq. destruct (X q Fq) as [E'|E'].
    + pose proof (V1 p F). lia.
    + apply (V2 p q F Fq P). congruence.
  - destruct (Z.eq_dec (num s p) 0) as [Z0|Z0].
    + pose proof (V1 p F). lia.
    + apply in_pcalc_filled; auto.
Qed.

Lemma C15_proof : forall s f r c, wf s -> solution s f -> field s (r, c) ->
  exists l, calc_candidates s r c = Ok l /\ In (f (r, c)) l.
Proof.
  intros s f r c W S F. exists (pcalc s (r, c)). split; [apply calc_candidates_ok; auto|].
  apply pcalc_solution; auto.
Qed.

(** * find_conflicts *)
Definition pconf (s : sudoku) (p : coord) : list (coord * coord * Z) :=
  if num s p =? 0 then []
  else map (fun q => (p, q, num s p)) (filter (fun q => num s q =? num s p) (sur s p)).

Lemma flat_map_filter_map : forall {A B} (f : A -> bool) (g : A -> B) l,
  flat_map (fun x => if f x then [g x] else []) l = map g (filter f l).
Proof. intros A B f g l; induction l as [|x l IH]; simpl; auto. destruct (f x); simpl; rewrite IH; auto. Qed.

Lemma conflicts_list : forall s cs, wf s -> (forall p, In p cs -> field s p) ->
  gresult (find_conflicts s cs) s = Ok s /\
  gyields (find_conflicts s cs) s =
    flat_map (pconf s) (match cs with [] => coords s | _ => cs end).
Proof.
  intros s cs W Hcs; unfold find_conflicts.
  set (cs' := match cs with [] => coords s | _ => cs end).
  assert (H' : forall p, In p cs' -> field s p).
  { unfold cs'; destruct cs; auto. intros; apply in_coords; auto. }
  apply gfor_yields. intros [r c] Hin. apply H' in Hin. unfold pconf; simpl.
  rewrite getitem_ok by auto. simpl. destruct (num s (r, c) =? 0) eqn:E; simpl; auto.
  rewrite surrounding_ok by auto. simpl. rewrite <- flat_map_filter_map.
  apply gfor_yields. intros [a b] Hab. apply in_sur in Hab; auto. simpl.
  rewrite getitem_ok by tauto. simpl.
  destruct (num s (a, b) =? num s (r, c)); simpl; auto.
Qed.

Lemma NoDup_flat_map : forall {A B} (f : A -> list B) l,
  NoDup l -> (forall x, In x l -> NoDup (f x)) ->
  (forall x y b, In x l -> In y l -> In b (f x) -> In b (f y) -> x = y) ->
  NoDup (flat_map f l).
Proof.
  intros A B f l; induction l as [|x l IH]; intros Hn Hf Hd; simpl; [constructor|].
  inv Hn. apply NoDup_app_iff; splits.
  - apply Hf; left; auto.
  - apply IH; auto; intros; [apply Hf | eapply Hd]; simpl; eauto.
  - intros b Hb Hin. apply in_flat_map in Hin; destruct Hin as [y [Hy Hb']].
    assert (x = y) by (eapply Hd; simpl; eauto). subst; auto.
Qed.

Lemma in_pconf : forall s p a b v, wf s -> field s p ->
  (In (a, b, v) (pconf s p) <-> a = p /\ field s b /\ peers (box_width s) (box_height s) p b /\
     v <> 0 /\ num s p = v /\ num s b = v).
Proof.
  intros s p a b v W F; unfold pconf. destruct (num s p =? 0) eqn:E; b2p.
  - simpl; split; [tauto|]. intros; lia.
  - rewrite in_map_iff. split.
    + intros [q [Eq Hq]]; inv Eq. apply filter_In in Hq; destruct Hq as [H1 H2]; b2p.
      apply in_sur in H1; auto. splits; auto; tauto.
    + intros [-> [Fb [P [Hv [H1 H2]]]]]. exists b; subst; split; auto.
      apply filter_In; split; [apply in_sur; auto | apply Z.eqb_eq; auto].
Qed.

Lemma NoDup_pconf : forall s p, wf s -> field s p -> NoDup (pconf s p).
Proof.
  intros s p W F; unfold pconf. destruct (num s p =? 0); [constructor|].
  apply NoDup_map_inj; [intros x y _ _ E; inv E; auto|]. apply NoDup_filter, sur_spec; auto.
Qed.

Lemma C16_proof : forall s cs, wf s -> (forall p, In p cs -> field s p) ->
  exists l, glist (find_conflicts s cs) s = Ok l /\
    (forall p q v, In (p, q, v) l <->
       (cs = [] \/ In p cs) /\ field s p /\ field s q /\
       peers (box_width s) (box_height s) p q /\ v <> 0 /\ num s p = v /\ num s q = v) /\
    (NoDup cs -> NoDup l).
Proof.
  intros s cs W Hcs. destruct (conflicts_list s cs W Hcs) as [E1 E2].
  unfold glist; rewrite E1, E2; simpl. eexists; split; [reflexivity|].
  set (cs' := match cs with [] => coords s | _ => cs end).
  assert (H' : forall p, In p cs' <-> (cs = [] \/ In p cs) /\ field s p).
  { unfold cs'; destruct cs; intros p.
    - rewrite in_coords; tauto.
    - split; [intros H; split; auto|]. intros [[H|H] _]; [discriminate|auto]. }
  split.
  - intros p q v. rewrite in_flat_map. split.
    + intros [x [Hx H]]. apply H' in Hx. apply in_pconf in H; [|tauto|tauto].
      destruct H as [-> H]. tauto.
    + intros [H1 [H2 H]]. exists p; split; [apply H'; auto|]. apply in_pconf; auto.
  - intros Hn. apply NoDup_flat_map.
    + unfold cs'; destruct cs; auto. apply NoDup_coords.
    + intros x Hx; apply H' in Hx. apply NoDup_pconf; tauto.
    + intros x y [[a b] v] Hx Hy H1 H2. apply H' in Hx; apply H' in Hy.
      apply in_pconf in H1; [|tauto|tauto]. apply in_pconf in H2; [|tauto|tauto].
      destruct H1 as [<- _], H2 as [<- _]; auto.
Qed.

(** * is_solved *)
Lemma is_solved_ok : forall s, wf s ->
  exists b, is_solved s = Ok b /\ (b = true <-> complete s /\ conflict_free s).
Proof.
  intros s W; unfold is_solved. rewrite glist_empty by auto. simpl.
  destruct (C16_proof s [] W) as [l [E [Hl _]]]; [intros p []|].
  destruct (filter _ _) as [|x e] eqn:Ef.
  - rewrite E; simpl.
    assert (Hc : complete s).
    { intros p Fp H0. assert (In p []) as []. rewrite <- Ef. apply filter_In; split;
      [apply in_coords; auto | apply Z.eqb_eq; auto]. }
    destruct l as [|[[p q] v] l].
    + eexists; split; [reflexivity|]. split; auto. intros _; split; auto.
      intros p q Fp Fq P Hp Heq.
      assert (H : In (p, q, num s p) []) by (apply Hl; splits; auto).
      destruct H.
    + eexists; split; [reflexivity|]. split; [discriminate|]. intros [_ Hcf].
      assert (H : In (p, q, v) ((p, q, v) :: l)) by (left; auto).
      apply Hl in H. destruct H as [_ [Fp [Fq [P [Hv [H1 H2]]]]]].
      exfalso. apply (Hcf p q); auto; congruence.
  - eexists; split; [reflexivity|]. split; [discriminate|]. intros [Hc _].
    assert (H : In x (x :: e)) by (left; auto). rewrite <- Ef in H.
    apply filter_In in H; destruct H as [H1 H2]; b2p. apply in_coords in H1.
    exfalso; apply (Hc x); auto.
Qed.

(** * valid_grid and latin *)
Lemma unit_once : forall n f (l : list coord), NoDup l -> Z.of_nat (length l) = n ->
  (once n f (fun p => In p l) <->
   (forall p, In p l -> 1 <= f p <= n) /\
   (forall p q, In p l -> In q l -> p <> q -> f p <> f q)).
Proof.
  intros n f l Hnd Hlen.
  assert (Hr : length (py_range2 1 (n + 1)) = length (map f l)).
  { rewrite length_py_range2, map_length; lia. }
  split.
  - intros H.
    assert (Hincl : incl (py_range2 1 (n + 1)) (map f l)).
    { intros v Hv. apply in_py_range2 in Hv. destruct (H v) as [p [Hp [E _]]]; [lia|].
      apply in_map_iff; exists p; auto. }
    assert (Hi2 : incl (map f l) (py_range2 1 (n + 1))).
    { apply NoDup_length_incl; auto; [apply NoDup_py_range2|lia]. }
    assert (R : forall p, In p l -> 1 <= f p <= n).
    { intros p Hp. assert (In (f p) (py_range2 1 (n + 1))) by (apply Hi2, in_map; auto).
      rewrite in_py_range2 in *; lia. }
    split; auto. intros p q Hp Hq Hne E.
    destruct (H (f p)) as [x [Hx [Ex Hu]]]; [auto|].
    apply Hne. rewrite (Hu p), (Hu q); auto.
  - intros [R I] v Hv.
    assert (Hm : NoDup (map f l)).
    { apply NoDup_map_inj; auto. intros x y Hx Hy E.
      destruct (coord_eq_dec x y); auto. exfalso; apply (I x y Hx Hy); auto. }
    assert (Hincl : incl (map f l) (py_range2 1 (n + 1))).
    { intros x Hx. apply in_map_iff in Hx; destruct Hx as [p [<- Hp]].
      apply in_py_range2. specialize (R p Hp); lia. }
    assert (Hi2 : incl (py_range2 1 (n + 1)) (map f l)).
    { apply NoDup_length_incl; auto; lia. }
    assert (Hin : In v (map f l)) by (apply Hi2, in_py_range2; lia).
    apply in_map_iff in Hin; destruct Hin as [p [E Hp]].
    exists p; splits; auto. intros q Hq Eq. destruct (coord_eq_dec q p); auto.
    exfalso; eapply (I q p); eauto; congruence.
Qed.

Lemma once_ext : forall n f (u u' : coord -> Prop), (forall p, u p <-> u' p) ->
  once n f u -> once n f u'.
Proof.
  intros n f u u' H O v Hv. destruct (O v Hv) as [p [H1 [H2 H3]]].
  exists p; splits; auto; [apply H; auto|]. intros q Hq; apply H3; apply H; auto.
Qed.

Lemma row_list_spec : forall w h r, 1 <= w -> 1 <= h -> 0 <= r < w * h ->
  exists l, NoDup l /\ Z.of_nat (length l) = w * h /\ forall p, In p l <-> cell w h p /\ fst p = r.
Proof.
  intros w h r Hw Hh Hr. destruct (C11_units_proof w h r Hw Hh Hr)
    as [lr [lc [lb [lp [E1 [E2 [E3 [E4 [H1 [H2 H3]]]]]]]]]].
  exists lr. destruct (H3 lr) as [Hn [Hl _]]; auto.
Qed.
Lemma col_list_spec : forall w h r, 1 <= w -> 1 <= h -> 0 <= r < w * h ->
  exists l, NoDup l /\ Z.of_nat (length l) = w * h /\ forall p, In p l <-> cell w h p /\ snd p = r.
Proof.
  intros w h r Hw Hh Hr. destruct (C11_units_proof w h r Hw Hh Hr)
    as [lr [lc [lb [lp [E1 [E2 [E3 [E4 [H1 [H2 H3]]]]]]]]]].
  exists lc. destruct (H3 lc) as [Hn [Hl _]]; auto.
Qed.
Lemma box_list_spec : forall w h i j, 1 <= w -> 1 <= h -> 0 <= i < w -> 0 <= j < h ->
  exists l, NoDup l /\ Z.of_nat (length l) = w * h /\
    forall p, In p l <-> cell w h p /\ fst p / h = i /\ snd p / w = j.
Proof.
  intros w h i j Hw Hh Hi Hj.
  assert (Hb : 0 <= j + i * h < w * h) by nia.
  exists (MCoord.block (((j + i * h) / h) * h) (((j + i * h) mod h) * w) w h).
  splits; [apply NoDup_block | apply length_block; lia|].
  intros p. rewrite in_the_box by auto. rewrite Z_mod_plus_full, Z_div_plus_full by lia.
  rewrite (Z.div_small j h), (Z.mod_small j h) by lia. simpl. tauto.
Qed.

Lemma valid_iff_latin : forall w h f, 1 <= w -> 1 <= h -> (valid_grid w h f <-> latin w h f).
Proof.
  intros w h f Hw Hh; split.
  - intros [V1 V2]. unfold latin; splits.
    + intros r Hr. destruct (row_list_spec w h r Hw Hh Hr) as [l [Hn [Hl Hi]]].
      apply (once_ext _ _ (fun p => In p l)); auto. apply unit_once; auto. split.
      * intros p Hp; apply V1, Hi; auto.
      * intros p q Hp Hq Hne. apply Hi in Hp; apply Hi in Hq.
        apply V2; try tauto. split; auto. left; unfold same_row; lia.
    + intros r Hr. destruct (col_list_spec w h r Hw Hh Hr) as [l [Hn [Hl Hi]]].
      apply (once_ext _ _ (fun p => In p l)); auto. apply unit_once; auto. split.
      * intros p Hp; apply V1, Hi; auto.
      * intros p q Hp Hq Hne. apply Hi in Hp; apply Hi in Hq.
        apply V2; try tauto. split; auto. right; left; unfold same_col; lia.
    + intros i j Hi' Hj'. destruct (box_list_spec w h i j Hw Hh Hi' Hj') as [l [Hn [Hl Hi]]].
      apply (once_ext _ _ (fun p => In p l)); auto. apply unit_once; auto. split.
      * intros p Hp; apply V1, Hi; auto.
      * intros p q Hp Hq Hne. apply Hi in Hp; apply Hi in Hq.
        apply V2; try tauto. split; auto. right; right; unfold same_box; lia.
  - intros [L1 [L2 L3]].
    assert (Hrow : forall r, 0 <= r < w * h ->
      (forall p, cell w h p -> fst p = r -> 1 <= f p <= w * h) /\
      (forall p q, cell w h p -> cell w h q -> fst p = r -> fst q = r -> p <> q -> f p <> f q)).
    { intros r Hr. destruct (row_list_spec w h r Hw Hh Hr) as [l [Hn [Hl Hi]]].
      assert (O : once (w * h) f (fun p => In p l)).
      { eapply once_ext; [|apply (L1 r Hr)]. intros p; symmetry; apply Hi. }
      apply unit_once in O; auto. destruct O as [O1 O2]. split.
      - intros; apply O1, Hi; auto.
      - intros; apply O2; auto; apply Hi; auto. }
    assert (Hcol : forall r, 0 <= r < w * h ->
      (forall p q, cell w h p -> cell w h q -> snd p = r -> snd q = r -> p <> q -> f p <> f q)).
    { intros r Hr. destruct (col_list_spec w h r Hw Hh Hr) as [l [Hn [Hl Hi]]].
      assert (O : once (w * h) f (fun p => In p l)).
      { eapply once_ext; [|apply (L2 r Hr)]. intros p; symmetry; apply Hi. }
      apply unit_once in O; auto. destruct O as [O1 O2].
      intros; apply O2; auto; apply Hi; auto. }
    assert (Hbox : forall i j, 0 <= i < w -> 0 <= j < h ->
      (forall p q, cell w h p -> cell w h q -> fst p / h = i -> snd p / w = j ->
         fst q / h = i -> snd q / w = j -> p <> q -> f p <> f q)).
    { intros i j Hi' Hj'. destruct (box_list_spec w h i j Hw Hh Hi' Hj') as [l [Hn [Hl Hi]]].
      assert (O : once (w * h) f (fun p => In p l)).
      { eapply once_ext; [|apply (L3 i j Hi' Hj')]. intros p; symmetry; apply Hi. }
      apply unit_once in O; auto. destruct O as [O1 O2].
      intros; apply O2; auto; apply Hi; auto. }
    split.
    + intros p F. destruct (Hrow (fst p)) as [R _]; [apply F|]. apply R; auto.
    + intros p q Fp Fq [Hne [H|[H|[H H']]]].
      * destruct (Hrow (fst p)) as [_ R]; [apply Fp|]. apply R; auto.
      * apply (Hcol (snd p)); auto. apply Fp.
      * apply (Hbox (fst p / h) (snd p / w)); auto.
        -- apply div_bound; [lia|apply Fp].
        -- apply div_bound; [lia|]. destruct Fp as [_ Fp]; lia.
Qed.

Lemma complete_cf_valid : forall s, in_range s ->
  (complete s /\ conflict_free s <-> valid_grid (box_width s) (box_height s) (num s)).
Proof.
  intros s R; split.
  - intros [C F]; split.
    + intros p Fp. specialize (R p Fp); specialize (C p Fp); lia.
    + intros p q Fp Fq P. apply F; auto; apply C; auto.
  - intros [V1 V2]; split.
    + intros p Fp E. specialize (V1 p Fp); lia.
    + intros p q Fp Fq P _. apply V2; auto.
Qed.

Lemma C17_partial_proof : forall s, wf s -> in_range s ->
  exists b, is_solved s = Ok b /\ (b = true <-> latin (box_width s) (box_height s) (num s)).
Proof.
  intros s W R. destruct (is_solved_ok s W) as [b [E H]]. exists b; split; auto.
  rewrite H, complete_cf_valid by auto. apply valid_iff_latin; apply W.
Qed.

(** The range hypothesis of C17 cannot be dropped. *)
Lemma C17_refuted_proof : exists s, wf s /\ is_solved s = Ok true /\
  ~ latin (box_width s) (box_height s) (num s).
Proof.
  pose (s := pset (new_sudoku (1, 1)) (0, 0) 7).
  assert (F : field (new_sudoku (1, 1)) (0, 0)) by (split; simpl; lia).
  assert (W : wf s) by (apply pset_wf; auto; apply new_sudoku_wf; lia).
  exists s; splits; auto.
  intros [L _]. destruct (L 0) with (v := 1) as [p [[F' _] [E _]]]; [simpl; lia | simpl; lia |].
  assert (p = (0, 0)) by (destruct p as [a b], F' as [H1 H2]; simpl in *; f_equal; lia). subst p.
  vm_compute in E. discriminate.
Qed.

Lemma C13_unit_proof : forall w h f, 1 <= w -> 1 <= h -> (valid_grid w h f <-> latin w h f).
Proof. exact valid_iff_latin. Qed.

Lemma C17_general_proof : forall s, wf s ->
  exists b, is_solved s = Ok b /\ (b = true <-> complete s /\ conflict_free s).
Proof. exact is_solved_ok. Qed.
