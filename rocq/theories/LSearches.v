(** Several searches at the same time (MSearches.v). *)
From Coq Require Import Lia.
From Verif Require Import LBase LHeap LHeapSolve.
From Verif Require Export MSearches SpecSearches.

Lemma map_split2 : forall {A B C} (f : A -> B) (g : A -> C) l a b a' b', map f l = a ++ b -> map g l = a' ++ b' -> length a = length a' ->
  exists l1 l2, l = l1 ++ l2 /\ map f l1 = a /\ map f l2 = b /\ map g l1 = a' /\ map g l2 = b'.
Proof.
  intros A B C f g. induction l as [|x l IH]; intros a b a' b' E1 E2 L.
  - destruct a, b, a', b'; try discriminate. exists [], []. auto.
  - destruct a as [|y a], a' as [|y' a']; try discriminate.
    + exists [], (x :: l). auto.
    + cbn in *. injection E1 as <- E1. injection E2 as <- E2. injection L as L. destruct (IH _ _ _ _ E1 E2 L) as [l1 [l2 [-> [<- [<- [<- <-]]]]]].
      exists (x :: l1), l2. auto.
Qed.

Lemma hsim_swap : forall hp a b c a' b' c', length a = length a' -> length b = length b' ->
  hsim (hp, a ++ b ++ c) (a' ++ b' ++ c') -> hsim (hp, b ++ a ++ c) (b' ++ a' ++ c').
Proof.
  intros hp a b c a' b' c' La Lb [os [[I1 I2] [E1 E2]]]. cbn [fst snd] in *.
  destruct (map_split2 _ _ _ _ _ _ _ E1 E2 La) as [l1 [l [-> [<- [E3 [<- E4]]]]]].
  destruct (map_split2 _ _ _ _ _ _ _ E3 E4 Lb) as [l2 [l3 [-> [<- [<- [<- <-]]]]]].
  exists (l2 ++ l1 ++ l3). cbn [fst snd]. rewrite !map_app. splits; auto. split.
  - intros o Ho. apply I1. rewrite !in_app_iff in *. tauto.
  - rewrite !map_app, !concat_app in *. eapply Permutation_NoDup; [|exact I2]. apply Permutation_app_swap_app.
Qed.

Lemma upd_mid : forall {A} (l1 l2 : list A) x y, list_upd (length l1) x (l1 ++ y :: l2) = l1 ++ x :: l2.
Proof. induction l1 as [|z l1 IH]; intros; cbn; [reflexivity|now rewrite IH]. Qed.

(** A search with its private objects, in both worlds *)
Record pair_of : Type := mkP { p_refs : list nat; p_vals : list sudoku; p_h : search; p_v : vsearch }.

Definition vgen (m : method) (s : sudoku) : gen unit sudoku unit :=
  match m with UseBruteforce ord => bruteforce ord s | UseDlx ord => dlx ord s end.
Lemma vgen_alone : forall m s, gyields (vgen m s) tt = alone m s.
Proof. intros [] s; reflexivity. Qed.

Definition okp (objs : list nat) (p : pair_of) : Prop :=
  length (p_refs p) = length (p_vals p) /\
  match p_h p, p_v p with
  | Fresh m r, VFresh m' i => m = m' /\ nth_error objs i = Some r /\ p_refs p = [] /\ p_vals p = []
  | Suspended k, VLeft sols => exists vg, gyields vg tt = sols /\
      forall refs vals hp, hsim (hp, p_refs p ++ refs) (p_vals p ++ vals) -> orel refs vals vg (k hp)
  | Ended, VLeft sols => sols = []
  | _, _ => False
  end.

Definition hidden_refs (ps : list pair_of) := concat (map p_refs ps).
Definition hidden_vals (ps : list pair_of) := concat (map p_vals ps).

Definition minv (st : mstate) (vst : vstate) : Prop :=
  exists ps, map p_h ps = m_searches st /\ map p_v ps = v_searches vst /\ Forall (okp (m_objs st)) ps /\
    hsim (m_heap st, hidden_refs ps ++ m_objs st) (hidden_vals ps ++ v_objs vst) /\
    m_log st = map (fun x => (fst x, Some (snd x))) (v_log vst).

Lemma hidden_len : forall objs ps, Forall (okp objs) ps -> length (hidden_refs ps) = length (hidden_vals ps).
Proof.
  intros objs ps F. unfold hidden_refs, hidden_vals. induction F as [|p ps [H _] F IH]; cbn; auto. rewrite !app_length. lia.
Qed.

Lemma okp_grow : forall objs ext p, okp objs p -> okp (objs ++ ext) p.
Proof.
  intros objs ext p [H1 H2]. split; auto. destruct (p_h p), (p_v p); auto. destruct H2 as [-> [H2 H3]]. splits; auto; try tauto.
  rewrite nth_error_app1; auto. apply nth_error_Some. congruence.
Qed.

Lemma h_step_grows : forall hp objs o, exists ext, snd (h_step (hp, objs) o) = objs ++ ext.
Proof.
  intros hp objs o. assert (U : forall r, exists ext, snd (h_update (hp, objs) r) = objs ++ ext).
  { intros [x|e]; exists []; cbn; now rewrite app_nil_r. }
  assert (N : exists ext, objs = objs ++ ext) by (exists []; now rewrite app_nil_r).
  destruct o; cbn [h_step].
  - destruct (h_new hp box_size); cbn; eauto.
  - destruct (nth_error objs i); auto. destruct (h_copy _ _ _) as [[]|]; cbn; eauto.
  - destruct (nth_error objs i); auto.
  - destruct (nth_error objs i); auto.
  - destruct (nth_error objs i); auto.
Qed.

Lemma minv_op : forall st vst o, minv st vst -> minv (m_step st (MOp o)) (vm_step vst (MOp o)).
Proof.
  intros [hp objs ss log] [vals vs vlog] o [ps [E1 [E2 [F [H E3]]]]]. cbn [m_step vm_step m_heap m_objs m_searches m_log v_objs v_searches v_log] in *.
  pose proof (frame_run _ _ [o] hp objs vals (hidden_len _ _ F) H) as G. cbn [fold_left] in G.
  destruct (h_step_grows hp objs o) as [ext E]. destruct (h_step (hp, objs) o) as [hp' objs']. cbn [fst snd] in *. subst objs'.
  exists ps. cbn [m_heap m_objs m_searches m_log v_objs v_searches v_log]. splits; auto. eapply Forall_impl; [|exact F]. intros p. apply okp_grow.
Qed.

Lemma minv_search : forall st vst m i, minv st vst -> minv (m_step st (MSearch m i)) (vm_step vst (MSearch m i)).
Proof.
  intros [hp objs ss log] [vals vs vlog] m i I. pose proof I as [ps [E1 [E2 [F [H E3]]]]]. cbn [m_step vm_step m_heap m_objs m_searches m_log v_objs v_searches v_log] in *.
  pose proof (hsim_len _ _ _ H) as L. rewrite !app_length, (hidden_len _ _ F) in L.
  destruct (nth_error objs i) as [r|] eqn:Er, (nth_error vals i) as [x|] eqn:Ex; auto.
  - exists (ps ++ [mkP [] [] (Fresh m r) (VFresh m i)]). cbn. unfold hidden_refs, hidden_vals in *. rewrite !map_app, !concat_app. cbn. rewrite !app_nil_r, E1, E2. splits; auto.
    apply Forall_app. split; auto. constructor; auto. split; cbn; auto.
  - exfalso. apply nth_error_None in Ex. assert (i < length objs)%nat by (apply nth_error_Some; congruence). lia.
  - exfalso. apply nth_error_None in Er. assert (i < length vals)%nat by (apply nth_error_Some; congruence). lia.
Qed.

Lemma vgen_rel : forall m i r s hp refs vals, hsim (hp, refs) vals -> nth_error refs i = Some r -> nth_error vals i = Some s ->
  orel refs vals (vgen m s) (h_search m hp r).
Proof. intros [ord|ord] i r s hp refs vals; [apply bruteforce_rel|apply dlx_rel]. Qed.

(** What a generator does when it is resumed *)
Lemma resume_rel : forall objs p hp pre post vals, okp objs p ->
  length pre = length post ->
  hsim (hp, p_refs p ++ pre ++ objs) (p_vals p ++ post ++ vals) ->
  match resume hp (p_h p) with
  | None => to_come vals (p_v p) = []
  | Some g => exists vg, gyields vg tt = to_come vals (p_v p) /\ orel (pre ++ objs) (post ++ vals) vg g
  end.
Proof.
  intros objs [pr pv h v] hp pre post vals [L K] Lp H. cbn [p_refs p_vals p_h p_v] in *. destruct h as [m r|k|], v as [m' i|sols]; try contradiction; cbn [resume to_come].
  - destruct K as [<- [Hr [-> ->]]]. cbn in H. pose proof (hsim_len _ _ _ H) as L2. rewrite !app_length in L2.
    destruct (nth_error vals i) as [s|] eqn:Es.
    + exists (vgen m s). split; [apply vgen_alone|]. apply (vgen_rel m (length pre + i)); auto; rewrite ?Lp, ?nth_error_shift; auto. rewrite <- Lp. now rewrite nth_error_shift.
    + exfalso. apply nth_error_None in Es. assert (i < length objs)%nat by (apply nth_error_Some; congruence). lia.
  - destruct K as [vg [E K]]. exists vg. split; auto.
  - exact K.
Qed.

Lemma minv_next : forall st vst j, minv st vst -> minv (m_step st (MNext j)) (vm_step vst (MNext j)).
Proof.
  intros [hp objs ss log] [vals vs vlog] j I. pose proof I as [ps [E1 [E2 [F [H E3]]]]]. cbn [m_step vm_step m_heap m_objs m_searches m_log v_objs v_searches v_log] in *. subst ss vs log.
  rewrite !nth_error_map. destruct (nth_error ps j) as [p|] eqn:Ej; cbn [option_map]; [|exact I].
  apply nth_error_split in Ej. destruct Ej as [p1 [p2 [-> <-]]]. apply Forall_app in F. destruct F as [F1 F2].
  assert (Kp : okp objs p) by (inv F2; auto). assert (F3 : Forall (okp objs) p2) by (inv F2; auto). clear F2.
  pose proof (hidden_len _ _ F1) as L1. pose proof (hidden_len _ _ F3) as L2. pose proof (proj1 Kp) as Lp.
  unfold hidden_refs, hidden_vals in H. rewrite !map_app, !concat_app in H. cbn [map concat] in H. rewrite <- !app_assoc in H.
  change (concat (map p_refs p1)) with (hidden_refs p1) in H. change (concat (map p_refs p2)) with (hidden_refs p2) in H.
  change (concat (map p_vals p1)) with (hidden_vals p1) in H. change (concat (map p_vals p2)) with (hidden_vals p2) in H.
  pose proof (hsim_swap _ _ _ _ _ _ _ L1 Lp H) as H'. rewrite (app_assoc (hidden_refs p1)), (app_assoc (hidden_vals p1)) in H'.
  assert (L12 : length (hidden_refs p1 ++ hidden_refs p2) = length (hidden_vals p1 ++ hidden_vals p2)) by (rewrite !app_length; lia).
  pose proof (resume_rel objs p hp _ _ vals Kp L12 H') as R.
  (* the states that the searches may be in afterwards *)
  assert (Fin : forall p' hp' objs' vals' lg, okp objs' p' -> (exists ext, objs' = objs ++ ext) ->
            hsim (hp', p_refs p' ++ (hidden_refs p1 ++ hidden_refs p2) ++ objs') (p_vals p' ++ (hidden_vals p1 ++ hidden_vals p2) ++ vals') ->
            minv (mkM hp' objs' (list_upd (length p1) (p_h p') (map p_h (p1 ++ p :: p2))) (map (fun x => (fst x, Some (snd x))) lg))
                 (mkV vals' (list_upd (length p1) (p_v p') (map p_v (p1 ++ p :: p2))) lg)).
  { intros p' hp' objs' vals' lg K' [ext ->] S'. exists (p1 ++ p' :: p2). cbn. rewrite !map_app. cbn [map].
    rewrite <- (map_length p_h p1) at 1. rewrite upd_mid. rewrite <- (map_length p_v p1). rewrite upd_mid. splits; auto.
    - apply Forall_app. split; [eapply Forall_impl; [|exact F1]; intros; now apply okp_grow|]. constructor; auto. eapply Forall_impl; [|exact F3]; intros; now apply okp_grow.
    - unfold hidden_refs, hidden_vals. rewrite !map_app, !concat_app. cbn [map concat]. rewrite <- !app_assoc. apply hsim_swap; auto; [apply (proj1 K')|].
      rewrite <- !app_assoc in S'. exact S'. }
  assert (Refl : exists ext, objs = objs ++ ext) by (exists []; now rewrite app_nil_r).
  destruct (resume hp (p_h p)) as [[hp'|[c hp'] k|e]|] eqn:Er.
  - destruct R as [vg [Eg O]]. destruct vg as [u|a kk|e]; cbn [orel] in O; try contradiction. cbn [gyields] in Eg. rewrite <- Eg.
    destruct O as [pr [pv [O1 O2]]]. apply (Fin (mkP pr pv Ended (VLeft []))); auto. split; cbn; auto.
  - destruct R as [vg [Eg O]]. destruct vg as [u|a kk|e]; cbn [orel] in O; try contradiction. cbn [gyields] in Eg. rewrite <- Eg.
    destruct O as [pr [pv [O1 [O2 O3]]]].
    assert (Ec : h_contents hp' c = Some a).
    { apply hsim_contents in O2. rewrite !map_app in O2. cbn [map] in O2. rewrite !app_assoc in O2. apply app_inj_tail in O2. tauto. }
    rewrite Ec. rewrite <- !app_assoc in O2.
    change [(length p1, Some a)] with (map (fun x : nat * sudoku => (fst x, Some (snd x))) [(length p1, a)]). rewrite <- map_app.
    apply (Fin (mkP pr pv (Suspended k) (VLeft (gyields (kk tt) tt)))); cbn [p_refs p_vals p_h p_v]; eauto.
    + split; cbn; auto. exists (kk tt). split; auto.
    + rewrite <- !app_assoc. exact O2.
  - destruct R as [vg [Eg O]]. destruct vg as [u|a kk|e']; cbn [orel] in O; try contradiction. cbn [gyields] in Eg. rewrite <- Eg.
    apply (Fin (mkP (p_refs p) (p_vals p) Ended (VLeft []))); auto. split; cbn; auto.
  - rewrite R. assert (Eh : p_h p = Ended) by (destruct (p_h p); try discriminate; auto).
    pose proof (Fin (mkP (p_refs p) (p_vals p) Ended (VLeft [])) hp objs vals vlog) as T. cbn [p_refs p_vals p_h p_v] in T.
    assert (Es : list_upd (length p1) Ended (map p_h (p1 ++ p :: p2)) = map p_h (p1 ++ p :: p2)).
    { rewrite map_app. cbn [map]. rewrite <- (map_length p_h p1) at 1. rewrite upd_mid, Eh. reflexivity. }
    rewrite Es in T. apply T; auto. split; cbn; auto.
Qed.

Lemma minv_run : forall ops st vst, minv st vst -> minv (fold_left m_step ops st) (fold_left vm_step ops vst).
Proof.
  induction ops as [|[o|m i|j] ops IH]; intros st vst I; cbn [fold_left]; auto; apply IH; [apply minv_op|apply minv_search|apply minv_next]; auto.
Qed.

Lemma minv_start : minv (mkM [] [] [] []) (mkV [] [] []).
Proof. exists []. cbn. splits; auto. exists []. splits; auto. split; [intros o []|constructor]. Qed.

Lemma m_run_values : forall ops,
  map (h_contents (m_heap (m_run ops))) (m_objs (m_run ops)) = map Some (v_objs (vm_run ops)) /\
  m_log (m_run ops) = map (fun x => (fst x, Some (snd x))) (v_log (vm_run ops)) /\
  NoDup (m_objs (m_run ops)).
Proof.
  intros ops. destruct (minv_run ops _ _ minv_start) as [ps [_ [_ [F [H E]]]]]. fold (m_run ops) in *. fold (vm_run ops) in *.
  destruct (hsim_drop _ _ _ _ _ (hidden_len _ _ F) H) as [H1 H2]. splits; auto.
Qed.

(** ** What one search delivers *)
Lemma delivered_app : forall {A} j (l m : list (nat * A)), delivered j (l ++ m) = delivered j l ++ delivered j m.
Proof. intros. unfold delivered. now rewrite filter_app, map_app. Qed.

Lemma delivered_some : forall j (l : list (nat * sudoku)), delivered j (map (fun x => (fst x, Some (snd x))) l) = map Some (delivered j l).
Proof. intros j l. unfold delivered. induction l as [|x l IH]; cbn; auto. destruct (Nat.eqb (fst x) j); cbn; now rewrite IH. Qed.

Lemma nexts_cons : forall j op ops, nexts j (op :: ops) = ((match op with MNext k => if Nat.eqb k j then 1 else 0 | _ => 0 end) + nexts j ops)%nat.
Proof. intros j op ops. unfold nexts. cbn [filter]. destruct op as [o|m i|k]; auto. destruct (Nat.eqb k j); auto. Qed.

Lemma left_run : forall ops st j sols, nth_error (v_searches st) j = Some (VLeft sols) ->
  delivered j (v_log (fold_left vm_step ops st)) = delivered j (v_log st) ++ firstn (nexts j ops) sols.
Proof.
  induction ops as [|op ops IH]; intros st j sols E; cbn [fold_left]; [cbn; now rewrite app_nil_r|]. rewrite nexts_cons.
  destruct op as [o|m i|k]; cbn [vm_step].
  - rewrite (IH _ j sols); auto.
  - destruct (nth_error (v_objs st) i); rewrite (IH _ j sols); auto. cbn. rewrite nth_error_app1; auto. apply nth_error_Some. congruence.
  - destruct (Nat.eqb_spec k j) as [->|D].
    + rewrite E. cbn [to_come]. destruct sols as [|x sols].
      * rewrite (IH _ j []); [cbn; now rewrite !firstn_nil|]. cbn. rewrite nth_error_upd, Nat.eqb_refl, E. auto.
      * rewrite (IH _ j sols); [|cbn; rewrite nth_error_upd, Nat.eqb_refl, E; auto]. cbn [v_log Nat.add firstn]. rewrite delivered_app, <- app_assoc. f_equal.
        unfold delivered. cbn. now rewrite Nat.eqb_refl.
    + cbn [Nat.add]. destruct (nth_error (v_searches st) k) as [s|]; [|now apply IH]. destruct (to_come (v_objs st) s) as [|x l].
      * rewrite (IH _ j sols); auto. cbn. rewrite nth_error_upd. destruct (Nat.eqb_spec j k); congruence.
      * rewrite (IH _ j sols); [|cbn; rewrite nth_error_upd; destruct (Nat.eqb_spec j k); congruence]. cbn [v_log]. rewrite delivered_app. unfold delivered at 2. cbn.
        destruct (Nat.eqb_spec k j); [contradiction|]. cbn. now rewrite app_nil_r.
Qed.

(** A search that was not started has delivered nothing. *)
Definition quiet (st : vstate) : Prop := forall j, match nth_error (v_searches st) j with Some (VLeft _) => True | _ => delivered j (v_log st) = [] end.

Lemma quiet_run : forall ops st, quiet st -> quiet (fold_left vm_step ops st).
Proof.
  induction ops as [|op ops IH]; intros st Q; cbn [fold_left]; auto. apply IH. clear IH ops. destruct op as [o|m i|k]; cbn [vm_step].
  - exact Q.
  - destruct (nth_error (v_objs st) i); auto. intros j. cbn. specialize (Q j).
    destruct (nth_error (v_searches st) j) as [[]|] eqn:E; try (rewrite nth_error_app1 by (apply nth_error_Some; congruence); rewrite E; auto).
    apply nth_error_None in E. rewrite nth_error_app2 by auto. destruct (j - length (v_searches st))%nat as [|[]]; cbn; auto.
  - destruct (nth_error (v_searches st) k) as [s|] eqn:E; auto.
    destruct (to_come (v_objs st) s) as [|x l]; intros j; cbn [v_searches v_log]; specialize (Q j); rewrite nth_error_upd; destruct (Nat.eqb_spec j k) as [->|D].
    + rewrite E. auto.
    + auto.
    + rewrite E. auto.
    + rewrite delivered_app. unfold delivered at 2. cbn. destruct (Nat.eqb_spec k j); [congruence|]. cbn. rewrite app_nil_r. auto.
Qed.

Lemma fresh_values : forall ops j m r s, nth_error (m_searches (m_run ops)) j = Some (Fresh m r) -> h_contents (m_heap (m_run ops)) r = Some s ->
  exists i, nth_error (v_searches (vm_run ops)) j = Some (VFresh m i) /\ nth_error (v_objs (vm_run ops)) i = Some s.
Proof.
  intros ops j m r s E C. destruct (minv_run ops _ _ minv_start) as [ps [E1 [E2 [F [H _]]]]]. fold (m_run ops) in *. fold (vm_run ops) in *.
  rewrite <- E1, nth_error_map in E. destruct (nth_error ps j) as [p|] eqn:Ej; [|discriminate]. cbn in E. injection E as E.
  pose proof (proj1 (Forall_forall _ _) F p (nth_error_In _ _ Ej)) as [_ K]. rewrite E in K. destruct (p_v p) as [m' i|] eqn:Ev; [|contradiction].
  destruct K as [<- [K _]]. exists i. rewrite <- E2, nth_error_map, Ej. cbn. rewrite Ev. split; auto.
  destruct (hsim_drop _ _ _ _ _ (hidden_len _ _ F) H) as [X _]. apply (f_equal (fun l => nth_error l i)) in X. rewrite !nth_error_map, K in X. cbn in X.
  rewrite C in X. destruct (nth_error (v_objs (vm_run ops)) i); cbn in X; congruence.
Qed.

Lemma search_run : forall pre post j m r s, nth_error (m_searches (m_run pre)) j = Some (Fresh m r) -> h_contents (m_heap (m_run pre)) r = Some s ->
  delivered j (m_log (m_run (pre ++ MNext j :: post))) = map Some (firstn (S (nexts j post)) (alone m s)).
Proof.
  intros pre post j m r s E C. destruct (fresh_values _ _ _ _ _ E C) as [i [V O]]. destruct (m_run_values (pre ++ MNext j :: post)) as [_ [-> _]].
  rewrite delivered_some. f_equal. unfold vm_run. rewrite fold_left_app. cbn [fold_left]. fold (vm_run pre).
  assert (Q : delivered j (v_log (vm_run pre)) = []).
  { assert (Q : quiet (vm_run pre)) by (apply quiet_run; intros k; destruct k; reflexivity). specialize (Q j). rewrite V in Q. exact Q. }
  cbn [vm_step]. rewrite V. cbn [to_come]. rewrite O. destruct (alone m s) as [|x l].
  - rewrite (left_run _ _ j []); [cbn [v_log]; now rewrite Q, !firstn_nil|]. cbn. now rewrite nth_error_upd, Nat.eqb_refl, V.
  - rewrite (left_run _ _ j l); [|cbn; now rewrite nth_error_upd, Nat.eqb_refl, V]. cbn [v_log firstn]. rewrite delivered_app, Q. unfold delivered. cbn. now rewrite Nat.eqb_refl.
Qed.
