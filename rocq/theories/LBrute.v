(** The backtracking search (C18-C21) and its agreement with dlx (C26). *)
From Verif Require Export LSolve LDlx3.
Local Opaque MSudoku.surrounding_of.

(** * The parts of one step *)
Lemma save_and_remove_ok : forall s r c v (l : list coord), wf s -> field s (r, c) ->
  NoDup l -> ~ In (r, c) l -> (forall q, In q l -> field s q) ->
  exists t, save_and_remove s r c v l
      = Ok (((r, c), cand s (r, c)) :: map (fun q => (q, cand s q)) l, t) /\
    wf t /\ box_width t = box_width s /\ box_height t = box_height s /\
    (forall q, num t q = num s q) /\
    (forall q, field s q -> cand t q =
       if existsb (coord_eqb q) l then sdiff zcmp (cand s q) [v] else cand s q).
Proof.
  intros s r c v l W F ND Hni Hl. unfold save_and_remove.
  rewrite get_candidates_ok by auto. cbn [rbind].
  match goal with |- context [foldM ?f ?m ?a] =>
    destruct (foldM_ind f (fun pre acc => 
       fst acc = ((r, c), cand s (r, c)) :: map (fun q => (q, cand s q)) pre /\
       wf (snd acc) /\ box_width (snd acc) = box_width s /\ box_height (snd acc) = box_height s /\
       (forall q, num (snd acc) q = num s q) /\
       (forall q, field s q -> cand (snd acc) q =
          if existsb (coord_eqb q) pre then sdiff zcmp (cand s q) [v] else cand s q)) m a)
      as [[sv t] [E [E1 H]]] end.
  - cbn [fst snd]; splits; auto.
  - intros pre [i j] post [sv t] El [E1 [Wt [Ew [Eh [Hn Hc]]]]]. cbn [fst snd] in *.
    assert (Hi : In (i, j) l) by (rewrite El; apply in_or_app; simpl; auto).
    assert (Fs : field s (i, j)) by auto.
    assert (Ft : field t (i, j)) by (unfold field; rewrite Ew, Eh; auto).
    assert (Hpre : ~ In (i, j) pre).
    { rewrite El in ND. apply NoDup_remove_2 in ND. intros Hp; apply ND, in_or_app; auto. }
    rewrite get_candidates_ok, remove_candidates_ok by auto. cbn [rbind].
    assert (Ec : cand t (i, j) = cand s (i, j)).
    { rewrite Hc by auto. destruct (existsb (coord_eqb (i, j)) pre) eqn:Ex; auto.
      apply existsb_exists in Ex. destruct Ex as [x [Hx Ex]]. apply coord_eqb_eq in Ex; subst; contradiction. }
    eexists; split; [reflexivity|]. cbn [fst snd].
    assert (Hk : ~ In (i, j) (dkeys sv)).
    { rewrite E1. unfold dkeys. cbn [map fst]. rewrite map_map; cbn [fst]. rewrite map_id.
      intros [Hx|Hx]; [|contradiction]. rewrite Hx in Hni. auto. }
    assert (Sz : zsset (sdiff zcmp (cand t (i, j)) (sof_list zcmp [v]))).
    { apply sdiff_zsset, cand_sset; auto. }
    splits; auto.
    + rewrite (dset_new _ coord_eqb_eq) by auto. rewrite E1, map_app. cbn [map app]. rewrite Ec; auto.
    + apply pcset_wf; auto.
    + intros q Fq. assert (Fq' : field t q) by (unfold field; rewrite Ew, Eh; auto).
      rewrite cand_pcset by auto. rewrite existsb_app; cbn [existsb].
      destruct (coord_eqb q (i, j)) eqn:Eq.
      * apply coord_eqb_eq in Eq; subst q. rewrite orb_true_r. rewrite Ec; auto.
      * rewrite !orb_false_r. auto.
  - cbn [fst snd] in *. exists t. rewrite E. rewrite E1. split; auto.
Qed.

Lemma restore_ok : forall s t (l : list coord), wf s -> wf t ->
  box_width t = box_width s -> box_height t = box_height s ->
  (forall q, In q l -> field s q) ->
  exists u, restore t (map (fun q => (q, cand s q)) l) = Ok u /\
    wf u /\ box_width u = box_width s /\ box_height u = box_height s /\
    (forall q, num u q = num t q) /\
    (forall q, field s q -> cand u q = if existsb (coord_eqb q) l then cand s q else cand t q).
Proof.
  intros s t l W Wt Ew Eh. unfold restore. revert t Wt Ew Eh.
  induction l as [|[i j] l IH]; intros t Wt Ew Eh Hl; cbn [map foldM].
  - exists t; splits; auto.
  - cbn [fst snd]. assert (Fs : field s (i, j)) by (apply Hl; left; auto).
    assert (Ft : field t (i, j)) by (unfold field; rewrite Ew, Eh; auto).
    rewrite set_candidates_ok by auto. cbn [rbind].
    pose proof (cand_sset s (i, j) W Fs) as Sz.
    rewrite (sof_list_id _ zcmp_good) by auto.
    destruct (IH (pcset t (i, j) (cand s (i, j)))) as [u [E [Wu [Euw [Euh [Hn Hc]]]]]]; auto.
    { apply pcset_wf; auto. }
    { intros; apply Hl; right; auto. }
    exists u; splits; auto.
    intros q Fq. rewrite Hc by auto. cbn [existsb].
    assert (Fq' : field t q) by (unfold field; rewrite Ew, Eh; auto).
    destruct (existsb (coord_eqb q) l); [rewrite orb_true_r; auto|]. rewrite orb_false_r.
    rewrite cand_pcset by auto. destruct (coord_eqb q (i, j)) eqn:Eq; auto.
    apply coord_eqb_eq in Eq; subst; auto.
Qed.

Lemma sort_by_len_ok : forall s (l : list coord), wf s -> (forall q, In q l -> field s q) ->
  exists m, sort_by_len s l = Ok m /\ Permutation m l.
Proof.
  intros s l W Hl. unfold sort_by_len.
  rewrite (mapM_ok _ (fun rc => (py_len (cand s rc), rc))).
  - cbn [rbind]. eexists; split; [reflexivity|].
    rewrite (Permutation_map snd (sort_by_perm _ _)). rewrite map_map; cbn [snd]. rewrite map_id; auto.
  - intros [i j] Hx. rewrite get_candidates_ok; auto.
Qed.

(** * The invariant of the search *)
Definition BI (s : sudoku) : Prop :=
  wf s /\ conflict_free s /\ (forall p, field s p -> num s p = 0 -> cand s p = pcalc s p).

Definition nempty (s : sudoku) : nat := length (filter (fun p => num s p =? 0) (coords s)).

Lemma field_dims : forall s t p, box_width s = box_width t -> box_height s = box_height t ->
  (field s p <-> field t p).
Proof. intros s t p E1 E2. unfold field; rewrite E1, E2; tauto. Qed.

Lemma coords_dims : forall s t, box_width s = box_width t -> box_height s = box_height t -> coords s = coords t.
Proof. intros s t E1 E2. unfold coords, indices; rewrite E1, E2; auto. Qed.

Lemma length_filter_change : forall {A} (f g : A -> bool) l x,
  NoDup l -> In x l -> f x = true -> g x = false -> (forall y, In y l -> y <> x -> g y = f y) ->
  length (filter f l) = S (length (filter g l)).
Proof.
  intros A f g l x ND Hx Hf Hg H. induction l as [|a l IH]; [contradiction|].
  inv ND. cbn [filter]. destruct Hx as [->|Hx].
  - rewrite Hf, Hg. cbn [length]. f_equal. f_equal. apply filter_ext_in'.
    intros y Hy. symmetry; apply H; [right; auto|]. intros ->; contradiction.
  - rewrite (H a); [|left; auto|intros ->; contradiction].
    assert (E : length (filter f l) = S (length (filter g l))) by (apply IH; auto; intros; apply H; auto; right; auto).
    destruct (f a); cbn [length]; rewrite E; auto.
Qed.

(** One step: number [v] written into the empty field [p], candidates of the peers updated. *)
Lemma step_BI : forall s t p v, BI s -> field s p -> num s p = 0 -> In v (cand s p) ->
  wf t -> box_width t = box_width s -> box_height t = box_height s ->
  (forall q, field s q -> num t q = if coord_eqb q p then v else num s q) ->
  (forall q, field s q -> cand t q =
       if existsb (coord_eqb q) (sur s p) then sdiff zcmp (cand s q) [v] else cand s q) ->
  BI t /\ nempty s = S (nempty t) /\ v <> 0 /\
  (forall f, completion t f <-> completion s f /\ f p = v).
Proof.
  intros s t p v [W [CF HC]] F H0 Hv Wt Ew Eh Hn Hc.
  assert (Hvp : (1 <= v <= NN s) /\ forall q, field s q -> peers (box_width s) (box_height s) p q -> num s q <> v).
  { rewrite HC in Hv by auto. apply in_pcalc_empty in Hv; auto. }
  destruct Hvp as [Hv1 Hv2].
  assert (Ft : forall q, field t q <-> field s q) by (intros; apply field_dims; auto).
  assert (Hvn : forall q, field s q -> q <> p -> num t q = num s q).
  { intros q Fq Hq. rewrite Hn by auto. rewrite (proj2 (coord_eqb_neq q p)); auto. }
  assert (Hvv : num t p = v) by (rewrite Hn, coord_eqb_refl; auto).
  splits.
  - unfold BI; splits; auto.
    + intros a b Fa Fb P Ha. apply Ft in Fa; apply Ft in Fb. rewrite Ew, Eh in P.
      destruct (coord_eq_dec a p) as [->|Na].
      * rewrite Hvv. destruct (coord_eq_dec b p) as [->|Nb]; [destruct P; congruence|].
        rewrite Hvn by auto. intros E; symmetry in E; revert E. apply Hv2; auto.
      * rewrite (Hvn a) in * by auto. destruct (coord_eq_dec b p) as [->|Nb].
        -- rewrite Hvv. apply Hv2; auto. apply peers_sym; auto.
        -- rewrite Hvn by auto. apply CF; auto.
    + intros q Fq Hq0. apply Ft in Fq.
      destruct (coord_eq_dec q p) as [->|Nq]; [lia|].
      rewrite Hvn in Hq0 by auto.
      assert (Fq' : field t q) by (apply Ft; auto).
      rewrite Hc by auto.
      assert (Hqt : num t q = 0) by (rewrite Hvn; auto).
      apply (sset_ext _ zcmp_good).
      * destruct (existsb _ _); [apply sdiff_zsset|]; apply cand_sset; auto.
      * apply pcalc_sset.
      * intros n. rewrite (in_pcalc_empty t) by auto.
        rewrite Ew, Eh.
        destruct (existsb (coord_eqb q) (sur s p)) eqn:Ex.
        -- rewrite (In_sdiff _ zcmp_good). rewrite HC by auto. rewrite in_pcalc_empty by auto.
           apply existsb_exists in Ex. destruct Ex as [q' [Hq' Ex]]. apply coord_eqb_eq in Ex; subst q'.
           apply in_sur in Hq'; auto. destruct Hq' as [_ Pq].
           split.
           ++ intros [[H1 H2] H3]. split; auto. intros x Fx Px. apply Ft in Fx.
              destruct (coord_eq_dec x p) as [->|Nx].
              ** rewrite Hvv. intros ->; apply H3; left; auto.
              ** rewrite Hvn by auto; auto.
           ++ intros [H1 H2]. split; [split; auto|].
              ** intros x Fx Px. destruct (coord_eq_dec x p) as [->|Nx].
                 --- rewrite H0; lia.
                 --- rewrite <- Hvn by auto. apply H2; auto. apply Ft; auto.
              ** intros [<-|[]]. apply (H2 p); [apply Ft; auto | apply peers_sym; auto | auto].
        -- rewrite HC by auto. rewrite in_pcalc_empty by auto.
           rewrite existsb_false_iff in Ex.
           assert (NP : ~ peers (box_width s) (box_height s) q p).
           { intros P. assert (Hin : In q (sur s p)) by (apply in_sur; auto; split; auto; apply peers_sym; auto).
             specialize (Ex q Hin). rewrite coord_eqb_refl in Ex; discriminate. }
           split; intros [H1 H2]; split; auto; intros x Fx Px.
           ++ apply Ft in Fx. destruct (coord_eq_dec x p) as [->|Nx]; [contradiction|].
              rewrite Hvn by auto; auto.
           ++ destruct (coord_eq_dec x p) as [->|Nx]; [contradiction|].
              rewrite <- Hvn by auto. apply H2; auto. apply Ft; auto.
  - unfold nempty. rewrite (coords_dims t s) by auto.
    apply (length_filter_change _ _ _ p); [apply NoDup_coords | apply in_coords; auto | rewrite H0; auto | rewrite Hvv; apply Z.eqb_neq; lia|].
    intros y Hy Ny. apply in_coords in Hy. rewrite Hvn; auto.
  - lia.
  - intros f; unfold completion. rewrite Ew, Eh. split.
    + intros [H1 H2]. split; [split|].
      * intros q Fq. destruct (coord_eq_dec q p) as [->|Nq].
        -- rewrite H0. split; [congruence|]. intros _. destruct (H1 p) as [H1a _]; [apply Ft; auto|].
           rewrite H1a by lia. rewrite Hvv; auto.
        -- rewrite <- (Hvn q) by auto. apply H1; apply Ft; auto.
      * intros a b Fa Fb; apply H2; apply Ft; auto.
      * destruct (H1 p) as [H1a _]; [apply Ft; auto|]. rewrite H1a, Hvv; auto; lia.
    + intros [[H1 H2] H3]. split.
      * intros q Fq; apply Ft in Fq. destruct (coord_eq_dec q p) as [->|Nq].
        -- rewrite Hvv. split; auto. lia.
        -- rewrite (Hvn q) by auto. apply H1; auto.
      * intros a b Fa Fb; apply H2; apply Ft; auto.
Qed.

Lemma enumerates_union : forall {B} s (P : grid -> Prop) (Q : B -> grid -> Prop) (st : B -> sudoku)
    (ys : B -> list sudoku) l,
  NoDup l -> (forall x, In x l -> box_size (st x) = box_size s) ->
  (forall x, In x l -> enumerates (st x) (Q x) (ys x)) ->
  (forall f, P f <-> exists x, In x l /\ Q x f) ->
  (forall x y a b, In x l -> In y l -> x <> y -> Q x a -> Q y b -> exists p, field s p /\ a p <> b p) ->
  enumerates s P (flat_map ys l).
Proof.
  intros B s P Q st ys l ND Hb He HP HD. unfold enumerates; splits.
  - intros y Hy. apply in_flat_map in Hy. destruct Hy as [x [Hx Hy]].
    destruct (He x Hx) as [H1 _]. destruct (H1 y Hy) as [Wy [By Qy]]. splits; auto; [rewrite By; apply Hb; auto|].
    apply HP; eauto.
  - intros f Pf. apply HP in Pf. destruct Pf as [x [Hx Qf]].
    destruct (He x Hx) as [_ [H2 _]]. destruct (H2 f Qf) as [y [Hy Sy]].
    exists y; split; auto. apply in_flat_map; eauto.
  - clear HP. induction l as [|x l IH]; cbn [flat_map]; [constructor|].
    inv ND. apply FOP_app; splits.
    + destruct (He x) as [_ [_ H3]]; [left; auto|].
      eapply FOP_impl; [|apply H3]. intros a b _ _ [p [Fp Hne]]. exists p; split; auto.
      assert (Hbx : box_size (st x) = box_size s) by (apply Hb; left; auto). unfold box_size in Hbx. injection Hbx as H4 H5. apply (field_dims (st x) s); auto.
    + apply IH; auto.
      * intros; apply Hb; right; auto.
      * intros; apply He; right; auto.
      * intros; eapply HD; eauto; right; auto.
    + intros a b Ha Hb'. apply in_flat_map in Hb'. destruct Hb' as [y [Hy Hb']].
      destruct (He x) as [H1a _]; [left; auto|]. destruct (He y) as [H1b _]; [right; auto|].
      destruct (H1a a Ha) as [_ [_ Qa]]. destruct (H1b b Hb') as [_ [_ Qb]].
      apply (HD x y); auto; [left; auto | right; auto | intros ->; contradiction].
Qed.

Lemma do_bruteforce_ok : forall ord, (forall s l, Permutation (ord s l) l) ->
  forall fuel s, BI s -> (nempty s < fuel)%nat ->
  gresult (do_bruteforce fuel ord s) tt = Ok s /\
  enumerates s (completion s) (gyields (do_bruteforce fuel ord s) tt).
Proof.
  intros ord Ho fuel; induction fuel as [|fuel IH]; intros s HB Hf; [lia|].
  pose proof HB as [W [CF HC]].
  cbn [do_bruteforce]. rewrite glist_empty by auto. cbn [lift gbind].
  destruct (sort_by_len_ok s (filter (fun p => num s p =? 0) (coords s))) as [m [Em Pm]]; auto.
  { intros q Hq; apply filter_In in Hq; destruct Hq; apply in_coords; auto. }
  rewrite Em. cbn [lift gbind].
  destruct m as [|[r c] m].
  - cbn. split; auto. apply Permutation_nil in Pm.
    assert (Hne : forall p, field s p -> num s p <> 0).
    { intros p Fp E. assert (Hin : In p (filter (fun p => num s p =? 0) (coords s))).
      { apply filter_In; split; [apply in_coords; auto | apply Z.eqb_eq; auto]. }
      rewrite Pm in Hin; contradiction. }
    unfold enumerates; splits.
    + intros y [<-|[]]. splits; auto. split.
      * intros p Fp; split; auto. intros E; exfalso; eapply Hne; eauto.
      * intros p q Fp Fq P. apply CF; auto.
    + intros f [H1 H2]. exists s; split; [left; auto|]. intros p Fp.
      symmetry; apply H1; auto.
    + repeat constructor.
  - assert (Fp : field s (r, c) /\ num s (r, c) = 0).
    { assert (Hin : In (r, c) (filter (fun p => num s p =? 0) (coords s))).
      { eapply Permutation_in; [apply Pm | left; auto]. }
      apply filter_In in Hin. destruct Hin as [H1 H2]. split; [apply in_coords; auto | apply Z.eqb_eq; auto]. }
    destruct Fp as [Fp H0].
    rewrite get_candidates_ok by auto. cbn [lift gbind].
    (* the state in which the recursive call for candidate v starts *)
    set (st := fun v => match save_and_remove (pset s (r, c) v) r c v (sur s (r, c)) with
                        | Ok (_, t) => t | Err _ => s end).
    assert (Hst : forall v, In v (cand s (r, c)) -> 
       BI (st v) /\ box_size (st v) = box_size s /\ nempty s = S (nempty (st v)) /\
       (forall f, completion (st v) f <-> completion s f /\ f (r, c) = v) /\
       forall (g := (do* s := lift (setitem s r c v) in
                  do* sur := lift (MSudoku.surrounding_of s r c false) in
                  do* (saved, s) := lift (save_and_remove s r c v sur) in
                  do* s := do_bruteforce fuel ord s in
                  do* s := lift (restore s saved) in
                  lift (setitem s r c 0))),
       gresult (do_bruteforce fuel ord (st v)) tt = Ok (st v) ->
       gresult g tt = Ok s /\ gyields g tt = gyields (do_bruteforce fuel ord (st v)) tt).
    { intros v Hv. set (s1 := pset s (r, c) v).
      assert (W1 : wf s1) by (apply pset_wf; auto).
      assert (F1 : forall q, field s1 q <-> field s q) by (intros; apply pset_field).
      assert (Es : sur s1 (r, c) = sur s (r, c)) by (apply sur_dims; auto).
      destruct (sur_spec s (r, c) W Fp) as [Hnd [Hin _]].
      destruct (save_and_remove_ok s1 r c v (sur s (r, c))) as [t [Et [Wt [Ew [Eh [Hn Hc]]]]]]; auto.
      { intros Hx. apply Hin in Hx. destruct Hx as [_ [Hx _]]; congruence. }
      { intros q Hq. apply F1. apply Hin in Hq; tauto. }
      assert (Ew' : box_width t = box_width s) by (rewrite Ew; reflexivity).
      assert (Eh' : box_height t = box_height s) by (rewrite Eh; reflexivity).
      assert (Hn' : forall q, field s q -> num t q = if coord_eqb q (r, c) then v else num s q).
      { intros q Fq. rewrite Hn. unfold s1. rewrite num_pset; auto. }
      assert (Hc' : forall q, field s q -> cand t q =
                if existsb (coord_eqb q) (sur s (r, c)) then sdiff zcmp (cand s q) [v] else cand s q).
      { intros q Fq. rewrite Hc by (apply F1; auto). unfold s1. rewrite cand_pset; auto. }
      destruct (step_BI s t (r, c) v) as [HBt [Hem [Hv0 Hcomp]]]; auto.
      replace (st v) with t by (unfold st; fold s1; rewrite Et; auto).
      splits; auto; [unfold box_size; congruence|].
      intros g Hrec. unfold g.
      rewrite setitem_ok by auto. cbn [lift gbind]. fold s1.
      rewrite surrounding_ok by (auto; apply F1; auto). cbn [lift gbind]. rewrite Es, Et. cbn [lift gbind].
      rewrite gresult_gbind, gyields_gbind, Hrec. cbn [rbind].
      change ((r, c, cand s1 (r, c)) :: map (fun q => (q, cand s1 q)) (sur s (r, c)))
        with (map (fun q => (q, cand s1 q)) ((r, c) :: sur s (r, c))).
      destruct (restore_ok s1 t ((r, c) :: sur s (r, c))) as [u [Eu [Wu [Euw [Euh [Hnu Hcu]]]]]]; auto.
      { intros q [<-|Hq]; apply F1; auto. apply Hin in Hq; tauto. }
      rewrite Eu. cbn [lift gbind].
      assert (Fu : forall q, field u q <-> field s q) by (intros; apply field_dims; auto).
      assert (Heq : pset u (r, c) 0 = s).
      { apply sudoku_ext; auto.
        - apply pset_wf; auto; apply Fu; auto.
        - intros q Fq. assert (Fs : field s q) by (apply Fu; auto).
          rewrite num_pset by (auto; apply Fu; auto).
          destruct (coord_eqb q (r, c)) eqn:Eq; [apply coord_eqb_eq in Eq; subst; auto|].
          rewrite Hnu, Hn', Eq; auto.
        - intros q Fq. assert (Fs : field s q) by (apply Fu; auto).
          rewrite cand_pset, Hcu by (apply F1; auto). unfold s1. rewrite cand_pset. fold s1.
          destruct (existsb (coord_eqb q) ((r, c) :: sur s (r, c))) eqn:Ex; auto.
          cbn [existsb] in Ex. apply orb_false_iff in Ex. destruct Ex as [_ Ex].
          rewrite Hc', Ex; auto. }
      rewrite setitem_ok by (auto; apply Fu; auto). cbn [lift gresult gyields]. rewrite Heq.
      split; auto. apply app_nil_r. }
    match goal with |- context [gfor ?F ?L ?A] =>
      destruct (gfor_yields F tt (fun v => gyields (do_bruteforce fuel ord (st v)) tt) A L) as [Er Ey] end.
    { intros v Hv. assert (Hv' : In v (cand s (r, c))) by (eapply Permutation_in; [apply (Ho s (cand s (r, c))) | auto]).
      destruct (Hst v Hv') as [HBt [_ [Hem [_ Hg]]]]. apply Hg. apply IH; auto; lia. }
    rewrite Er, Ey. split; auto.
    apply enumerates_union with (Q := fun v => completion (st v)) (st := st).
    + eapply Permutation_NoDup; [symmetry; apply (Ho s (cand s (r, c)))|]. apply (sset_NoDup _ zcmp_good), cand_sset; auto.
    + intros v Hv. apply Hst. eapply Permutation_in; [apply (Ho s (cand s (r, c))) | auto].
    + intros v Hv. assert (Hv' : In v (cand s (r, c))) by (eapply Permutation_in; [apply (Ho s (cand s (r, c))) | auto]).
      destruct (Hst v Hv') as [HBt [_ [Hem _]]]. apply IH; auto; lia.
    + intros f; split.
      * intros Cf. exists (f (r, c)).
        assert (Hin : In (f (r, c)) (cand s (r, c))).
        { rewrite HC by auto. apply in_pcalc_empty; auto. destruct Cf as [C1 C2].
          split; [apply C1; auto|]. intros q Fq P E. destruct (Z.eq_dec (num s q) 0) as [E0|E0].
          - destruct (C1 _ Fp) as [_ Hr]. specialize (Hr H0). lia.
          - apply (C2 (r, c) q); auto. destruct (C1 q Fq) as [Hq _]. rewrite Hq; auto. }
        split; [eapply Permutation_in; [symmetry; apply (Ho s (cand s (r, c))) | auto]|].
        destruct (Hst (f (r, c)) Hin) as [_ [_ [_ [Hc _]]]]. apply Hc; auto.
      * intros [v [Hv Cf]]. assert (Hv' : In v (cand s (r, c))) by (eapply Permutation_in; [apply (Ho s (cand s (r, c))) | auto]).
        destruct (Hst v Hv') as [_ [_ [_ [Hc _]]]]. apply Hc in Cf; tauto.
    + intros x y a b Hx Hy Hne Ca Cb.
      assert (Hx' : In x (cand s (r, c))) by (eapply Permutation_in; [apply (Ho s (cand s (r, c))) | auto]).
      assert (Hy' : In y (cand s (r, c))) by (eapply Permutation_in; [apply (Ho s (cand s (r, c))) | auto]).
      destruct (Hst x Hx') as [_ [_ [_ [Hcx _]]]]. apply Hcx in Ca.
      destruct (Hst y Hy') as [_ [_ [_ [Hcy _]]]]. apply Hcy in Cb.
      exists (r, c); split; auto. destruct Ca as [_ ->], Cb as [_ ->]; auto.
Qed.

Lemma has_conflict_ok : forall s, wf s ->
  exists b, has_conflict s = Ok b /\ (b = false <-> conflict_free s).
Proof.
  intros s W. unfold has_conflict.
  rewrite (anyM_ok _ (fun p => negb (num s p =? 0) && existsb (fun q => num s q =? num s p) (sur s p))).
  - eexists; split; [reflexivity|]. rewrite existsb_false_iff. split.
    + intros H p q Fp Fq P Hp E. specialize (H p (proj2 (in_coords s p) Fp)).
      apply andb_false_iff in H. destruct H as [H|H]; b2p; [contradiction|].
      rewrite existsb_false_iff in H. specialize (H q (proj2 (in_sur s p q W Fp) (conj Fq P))). b2p; congruence.
    + intros CF p Hp. apply in_coords in Hp. apply andb_false_iff.
      destruct (Z.eq_dec (num s p) 0) as [E|E]; [left; rewrite E; auto|right].
      apply existsb_false_iff. intros q Hq. apply in_sur in Hq; auto. destruct Hq as [Fq P].
      apply Z.eqb_neq. intros E'; apply (CF p q); auto.
  - intros [i j] Hp. apply in_coords in Hp. cbn [fst snd]. rewrite getitem_ok by auto. cbn [rbind].
    destruct (num s (i, j) =? 0); cbn [negb andb]; auto.
    rewrite surrounding_ok by auto. cbn [rbind].
    apply anyM_ok. intros [a b] Hq. apply in_sur in Hq; auto. cbn [fst snd].
    rewrite getitem_ok; tauto.
Qed.

Lemma bruteforce_ok : forall ord, (forall s l, Permutation (ord s l) l) -> forall s, wf s ->
  gresult (bruteforce ord s) tt = Ok tt /\
  enumerates s (completion s) (gyields (bruteforce ord s) tt) /\
  (forall y, In y (gyields (bruteforce ord s) tt) -> forall p, field s p -> cand y p = []).
Proof.
  intros ord Ho s W. unfold bruteforce.
  destruct (has_conflict_ok s W) as [b [Eb Hb]]. rewrite Eb. cbn [lift gbind].
  destruct b.
  - cbn [gresult gyields]. splits; auto; [|intros y []]. apply enumerates_nil.
    intros f [C1 C2]. assert (false = true); [|discriminate]. symmetry. apply Hb.
    intros p q Fp Fq P Hp E. destruct (C1 p Fp) as [Ep _], (C1 q Fq) as [Eq _].
    apply (C2 p q); auto. rewrite Ep, Eq; auto. congruence.
  - assert (CF : conflict_free s) by (apply Hb; auto).
    destruct (copy_ok s false W) as [t [E [Wt [Ew [Eh [Hn Hc]]]]]]. rewrite E. cbn [lift gbind].
    destruct (init_candidates_ok t false Wt) as [u [Eu [Wu [Euw [Euh [Hnu Hcu]]]]]].
    rewrite Eu. cbn [lift gbind].
    assert (Fu : forall q, field u q <-> field s q) by (intros; apply field_dims; congruence).
    assert (Ft : forall q, field t q <-> field s q) by (intros; apply field_dims; congruence).
    assert (Hn' : forall q, field s q -> num u q = num s q) by (intros; rewrite Hnu; auto).
    assert (HB : BI u).
    { unfold BI; splits; auto.
      - intros p q Fp Fq P. rewrite Euw, Euh, Ew, Eh in P. rewrite !Hn' by (apply Fu; auto).
        apply CF; auto; apply Fu; auto.
      - intros p Fp _. rewrite Hcu by (apply Ft, Fu; auto). cbn [andb].
        apply pcalc_ext; auto. apply Ft, Fu; auto. }
    destruct (do_bruteforce_ok ord Ho (S (length (coords s))) u HB) as [Er [H1 [H2 H3]]].
    { unfold nempty. rewrite (coords_dims u s) by congruence.
      pose proof (filter_length_le (fun p => num u p =? 0) (coords s)). lia. }
    assert (Hcomp : forall f, completion u f <-> completion s f).
    { intros f. unfold completion. rewrite Euw, Euh, Ew, Eh. split; intros [A1 A2]; split.
      - intros p Fp. rewrite <- Hn' by auto. apply A1, Fu; auto.
      - intros p q Fp Fq; apply A2; apply Fu; auto.
      - intros p Fp. rewrite Hn' by (apply Fu; auto). apply A1, Fu; auto.
      - intros p q Fp Fq; apply A2; apply Fu; auto. }
    match goal with |- context [gforgen ?B ?G (tt, tt)] =>
      destruct (gforgen_rel B G
        (fun y z => wf z /\ box_size z = box_size s /\
           (forall p, field s p -> num z p = num y p) /\ (forall p, field s p -> cand z p = []))
        (fun y => wf y /\ box_size y = box_size s) (fun _ => True) tt u) as [HF [st' [Es' _]]] end; auto.
    + intros st y _ [Wy By]. destruct (copy_ok y false Wy) as [z [Ez [Wz [Ewz [Ehz [Hnz Hcz]]]]]].
      rewrite Ez. cbn. exists st, z. unfold box_size in *. injection By as By1 By2.
      assert (Fy : forall p, field s p -> field y p) by (intros p; apply field_dims; congruence).
      splits; auto. congruence.
    + intros y Hy. destruct (H1 y Hy) as [Wy [By _]]. split; auto. rewrite By. unfold box_size; congruence.
    + rewrite gresult_gbind, gyields_gbind, Es'. cbn [rbind gresult gyields]. rewrite app_nil_r.
      splits; auto.
      * unfold enumerates; splits.
        -- intros z Hz. destruct (Forall2_In_r _ _ _ _ HF Hz) as [y [Hy [Wz [Bz [Hnz _]]]]].
           splits; auto. destruct (H1 y Hy) as [_ [_ Cy]]. apply Hcomp in Cy. destruct Cy as [A1 A2].
           split.
           ++ intros p Fp. rewrite Hnz by auto. apply A1; auto.
           ++ intros p q Fp Fq P. rewrite !Hnz by auto. apply A2; auto.
        -- intros f Cf. apply Hcomp in Cf. destruct (H2 f Cf) as [y [Hy Sy]].
           destruct (Forall2_In_l _ _ _ _ HF Hy) as [z [Hz [Wz [Bz [Hnz _]]]]].
           exists z; split; auto. intros p Fp.
           assert (Fs : field s p) by (unfold box_size in Bz; injection Bz as B1 B2; apply (field_dims z s); auto).
           rewrite Hnz by auto. apply Sy. destruct (H1 y Hy) as [_ [By _]]. unfold box_size in By; injection By as B1 B2.
           apply (field_dims y u); auto. apply Fu; auto.
        -- eapply Forall2_FOP; [apply HF | apply H3 |].
           intros a b z z' Ha Hb' [_ [_ [Hz _]]] [_ [_ [Hz' _]]] [p [Fp Hne]].
           apply Fu in Fp. exists p; split; auto. rewrite Hz, Hz'; auto.
      * intros z Hz. destruct (Forall2_In_r _ _ _ _ HF Hz) as [y [_ [_ [_ [_ Hcz]]]]]; auto.
Qed.

(** * The properties *)
Lemma C18_proof : forall ord s, (forall t l, Permutation (ord t l) l) -> wf s ->
  forall y, In y (gyields (bruteforce ord s) tt) ->
    wf y /\ box_size y = box_size s /\ complete y /\ conflict_free y /\ extends s (num y) /\
    (forall p, field s p -> num s p = 0 -> 1 <= num y p <= box_width s * box_height s) /\
    (forall p, field s p -> cand y p = []).
Proof.
  intros ord s Ho W y Hy. destruct (bruteforce_ok ord Ho s W) as [_ [[H1 _] Hc]].
  destruct (H1 y Hy) as [Wy [By [C1 C2]]].
  unfold box_size in By; injection By as B1 B2.
  assert (Fy : forall p, field y p <-> field s p) by (intros; apply field_dims; auto).
  splits; auto.
  - unfold box_size; congruence.
  - intros p Fp. apply Fy in Fp. destruct (C1 p Fp) as [A1 A2].
    destruct (Z.eq_dec (num s p) 0) as [E|E]; [specialize (A2 E); lia|]. rewrite A1; auto.
  - intros p q Fp Fq P _. rewrite B1, B2 in P. apply C2; auto; apply Fy; auto.
  - intros p Fp. destruct (Z.eq_dec (num s p) 0) as [E|E]; auto. right. symmetry; apply C1; auto.
  - intros p Fp. apply C1; auto.
Qed.

Lemma C19_proof : forall ord s, (forall t l, Permutation (ord t l) l) -> wf s ->
  gresult (bruteforce ord s) tt = Ok tt /\
  enumerates s (completion s) (gyields (bruteforce ord s) tt).
Proof.
  intros ord s Ho W. destruct (bruteforce_ok ord Ho s W) as [H1 [H2 _]]; auto.
Qed.

Lemma C20_proof : forall ord s, (forall t l, Permutation (ord t l) l) -> wf s ->
  ~ conflict_free s -> bruteforce ord s = Ret tt.
Proof.
  intros ord s Ho W H. unfold bruteforce. destruct (has_conflict_ok s W) as [b [Eb Hb]]. rewrite Eb.
  destruct b; [reflexivity|]. exfalso; apply H, Hb; auto.
Qed.

Lemma C21_proof : forall ord s fuel, (forall t l, Permutation (ord t l) l) -> wf s -> conflict_free s ->
  (forall r c, field s (r, c) -> num s (r, c) = 0 -> get_candidates s r c = calc_candidates s r c) ->
  (length (coords s) < fuel)%nat ->
  gresult (do_bruteforce fuel ord s) tt = Ok s /\
  enumerates s (completion s) (gyields (do_bruteforce fuel ord s) tt).
Proof.
  intros ord s fuel Ho W CF HC Hf. apply do_bruteforce_ok; auto.
  - unfold BI; splits; auto. intros [r c] F E. specialize (HC r c F E).
    rewrite get_candidates_ok, calc_candidates_ok in HC by auto. congruence.
  - unfold nempty. pose proof (filter_length_le (fun p => num s p =? 0) (coords s)). lia.
Qed.

(** Two enumerations of the same grids have the same length. *)
Lemma enumerates_length : forall s P ys zs,
  enumerates s P ys -> enumerates s P zs -> length ys = length zs.
Proof.
  assert (G : forall s P ys zs, enumerates s P ys -> enumerates s P zs -> (length ys <= length zs)%nat).
  { intros s P ys zs [Y1 [Y2 Y3]] [Z1 [Z2 Z3]].
    rewrite <- (map_length (fun y => map (num y) (coords s)) ys).
    rewrite <- (map_length (fun y => map (num y) (coords s)) zs).
    apply NoDup_incl_length.
    - clear - Y3. induction ys as [|y ys IH]; cbn [map]; [constructor|].
      inv Y3. constructor; auto. intros Hin. apply in_map_iff in Hin. destruct Hin as [z [Ez Hz]].
      rewrite Forall_forall in H1. destruct (H1 z Hz) as [p [Fp Hne]]. apply Hne.
      assert (G : forall l, map (num z) l = map (num y) l -> In p l -> num y p = num z p).
      { induction l as [|a l IHl]; [contradiction|]. cbn [map]. intros E [->|Hp]; inversion E; auto. }
      apply (G (coords s)); auto. apply in_coords; auto.
    - intros m Hm. apply in_map_iff in Hm. destruct Hm as [y [<- Hy]].
      destruct (Y1 y Hy) as [_ [_ Py]]. destruct (Z2 _ Py) as [z [Hz Sz]].
      apply in_map_iff. exists z; split; auto. apply map_ext_in. intros p Hp. apply in_coords in Hp.
      apply Sz. destruct (Z1 z Hz) as [_ [Bz _]]. unfold box_size in Bz; injection Bz as B1 B2.
      apply (field_dims z s); auto. }
  intros s P ys zs HY HZ. pose proof (G s P ys zs HY HZ). pose proof (G s P zs ys HZ HY). lia.
Qed.

Lemma completion_solution : forall s f, in_range s -> (completion s f <-> solution s f).
Proof.
  intros s f R. split.
  - intros [C1 C2]. split; [split|]; auto.
    + intros p Fp. destruct (C1 p Fp) as [A1 A2]. destruct (Z.eq_dec (num s p) 0) as [E|E]; auto.
      rewrite A1 by auto. specialize (R p Fp). lia.
    + intros p Fp. destruct (Z.eq_dec (num s p) 0) as [E|E]; auto. right. symmetry; apply C1; auto.
  - intros [[V1 V2] X]. split; auto. intros p Fp. split; auto.
    intros E. destruct (X p Fp); congruence.
Qed.

Lemma C26_proof : forall ord ord' s,
  (forall p l, Permutation (ord p l) l) -> (forall t l, Permutation (ord' t l) l) ->
  wf s -> in_range s ->
  enumerates s (solution s) (gyields (dlx ord s) tt) /\
  enumerates s (solution s) (gyields (bruteforce ord' s) tt) /\
  length (gyields (dlx ord s) tt) = length (gyields (bruteforce ord' s) tt).
Proof.
  intros ord ord' s Ho Ho' W R.
  destruct (C23_proof ord s Ho W) as [_ HD]. destruct (C19_proof ord' s Ho' W) as [_ [B1 [B2 B3]]].
  assert (HB : enumerates s (solution s) (gyields (bruteforce ord' s) tt)).
  { unfold enumerates; splits; auto.
    - intros y Hy. destruct (B1 y Hy) as [? [? ?]]. splits; auto. apply completion_solution; auto.
    - intros f Sf; apply B2, completion_solution; auto. }
  splits; auto. eapply enumerates_length; eauto.
Qed.

Lemma C26_refuted_proof : exists s, wf s /\
  forall ord ord', (forall p l, Permutation (ord p l) l) -> (forall t l, Permutation (ord' t l) l) ->
  gyields (dlx ord s) tt = [] /\ gyields (bruteforce ord' s) tt = [s].
Proof.
  set (s := of_rows 1 1 [[7]]). exists s.
  assert (W : wf s) by (apply wfb_ok; vm_compute; reflexivity).
  split; [exact W|]. intros ord ord2 Ho Ho2. split.
  - apply (C24_proof ord s Ho W). intros [_ R]. specialize (R (0, 0)).
    assert (F : field s (0, 0)) by (vm_compute; intuition congruence). specialize (R F). vm_compute in R; intuition congruence.
  - vm_compute. reflexivity.
Qed.
