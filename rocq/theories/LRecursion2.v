(** Proofs about the depth of the recursive searches, continued: bruteforce and dlx. *)
From Verif Require Export LRecursion.

(** One candidate: the state of the recursive call and what is left afterwards *)
Lemma brute_body : forall s r c v, BI s -> field s (r, c) -> num s (r, c) = 0 -> In v (cand s (r, c)) ->
  exists t, BI t /\ nempty s = S (nempty t) /\
  forall (D : sudoku -> gen unit sudoku sudoku) (g := (do* s := lift (setitem s r c v) in
                  do* sur := lift (MSudoku.surrounding_of s r c false) in
                  do* (saved, s) := lift (save_and_remove s r c v sur) in
                  do* s := D s in
                  do* s := lift (restore s saved) in
                  lift (setitem s r c 0))),
    gyields g tt = gyields (D t) tt /\
    (gresult (D t) tt = Ok t -> gresult g tt = Ok s) /\ (forall e, gresult (D t) tt = Err e -> gresult g tt = Err e).
Proof.
  intros s r c v HB Fp H0 Hv. pose proof HB as [W [CF HC]]. set (s1 := pset s (r, c) v).
  assert (W1 : wf s1) by (apply pset_wf; auto).
  assert (F1 : forall q, field s1 q <-> field s q) by (intros; apply pset_field).
  assert (Es : sur s1 (r, c) = sur s (r, c)) by (apply sur_dims; auto).
  destruct (sur_spec s (r, c) W Fp) as [Hnd [Hin _]].
  destruct (save_and_remove_ok s1 r c v (sur s (r, c))) as [t [Et [Wt [Ew [Eh [Hn Hc]]]]]]; auto.
  { intros Hx. apply Hin in Hx. destruct Hx as [_ [Hx _]]; congruence. }
  { intros q Hq. apply F1. apply Hin in Hq; tauto. }
  assert (Ew' : box_width t = box_width s) by (rewrite Ew; reflexivity).
  assert (Eh' : box_height t = box_height s) by (rewrite Eh; reflexivity).
  assert (Hn' : forall q, field s q -> num t q = if coord_eqb q (r, c) then v else num s q).
  { intros q Fq. rewrite Hn. unfold s1. rewrite num_pset; auto. }
  assert (Hc' : forall q, field s q -> cand t q =
            if existsb (coord_eqb q) (sur s (r, c)) then sdiff zcmp (cand s q) [v] else cand s q).
  { intros q Fq. rewrite Hc by (apply F1; auto). unfold s1. rewrite cand_pset; auto. }
  destruct (step_BI s t (r, c) v) as [HBt [Hem [Hv0 Hcomp]]]; auto.
  exists t. split; [auto|]. split; [auto|]. intros D g. unfold g.
  rewrite setitem_ok by auto. cbn [lift gbind]. fold s1.
  rewrite surrounding_ok by (auto; apply F1; auto). cbn [lift gbind]. rewrite Es, Et. cbn [lift gbind].
  rewrite gresult_gbind, gyields_gbind. split; [|split].
  - destruct (gresult (D t) tt) as [x|e]; [|apply app_nil_r].
    match goal with |- context [gbind (lift ?m) ?f] => destruct m; cbn [lift gbind gyields]; [|apply app_nil_r] end. rewrite gyields_lift. apply app_nil_r.
  - intros Hrec. rewrite Hrec. cbn [rbind].
    change ((r, c, cand s1 (r, c)) :: map (fun q => (q, cand s1 q)) (sur s (r, c)))
      with (map (fun q => (q, cand s1 q)) ((r, c) :: sur s (r, c))).
    destruct (restore_ok s1 t ((r, c) :: sur s (r, c))) as [u [Eu [Wu [Euw [Euh [Hnu Hcu]]]]]]; auto.
    { intros q [<-|Hq]; apply F1; auto. apply Hin in Hq; tauto. }
    rewrite Eu. cbn [lift gbind].
    assert (Fu : forall q, field u q <-> field s q) by (intros; apply field_dims; auto).
    assert (Heq : pset u (r, c) 0 = s).
    { apply sudoku_ext; auto.
      - apply pset_wf; auto; apply Fu; auto.
      - intros q Fq. assert (Fs : field s q) by (apply Fu; auto).
        rewrite num_pset by (auto; apply Fu; auto).
        destruct (coord_eqb q (r, c)) eqn:Eq; [apply coord_eqb_eq in Eq; subst; auto|].
        rewrite Hnu, Hn', Eq; auto.
      - intros q Fq. assert (Fs : field s q) by (apply Fu; auto).
        rewrite cand_pset, Hcu by (apply F1; auto). unfold s1. rewrite cand_pset. fold s1.
        destruct (existsb (coord_eqb q) ((r, c) :: sur s (r, c))) eqn:Ex; auto.
        cbn [existsb] in Ex. apply orb_false_iff in Ex. destruct Ex as [_ Ex].
        rewrite Hc', Ex; auto. }
    rewrite setitem_ok by (auto; apply Fu; auto). cbn [lift gresult]. rewrite Heq. reflexivity.
  - intros e Hrec. rewrite Hrec. reflexivity.
Qed.
Lemma for_nothing : forall {A S B} (f : S -> B -> gen unit A S) st l,
  (forall x, In x l -> gyields (f st x) tt = [] /\ (gresult (f st x) tt = Ok st \/ gresult (f st x) tt = Err OutOfFuel)) ->
  gyields (gfor f l st) tt = [] /\ (gresult (gfor f l st) tt = Ok st \/ gresult (gfor f l st) tt = Err OutOfFuel).
Proof.
  intros A S B f st l; induction l as [|x l IH]; intros H; cbn [gfor gyields gresult]; auto.
  rewrite gyields_gbind, gresult_gbind. destruct (H x (or_introl eq_refl)) as [-> [-> | ->]]; cbn [rbind app]; auto.
  apply IH. intros y Hy. apply H. right. auto.
Qed.
Lemma brute_short : forall ord, (forall s l, Permutation (ord s l) l) -> forall fuel s, BI s -> (fuel <= nempty s)%nat ->
  gyields (do_bruteforce fuel ord s) tt = [] /\ (gresult (do_bruteforce fuel ord s) tt = Ok s \/ gresult (do_bruteforce fuel ord s) tt = Err OutOfFuel).
Proof.
  intros ord Ho fuel; induction fuel as [|fuel IH]; intros s HB Hf; [auto|].
  pose proof HB as [W [CF HC]].
  cbn [do_bruteforce]. rewrite glist_empty by auto. cbn [lift gbind].
  destruct (sort_by_len_ok s (filter (fun p => num s p =? 0) (coords s))) as [m [Em Pm]]; auto.
  { intros q Hq; apply filter_In in Hq; destruct Hq; apply in_coords; auto. }
  rewrite Em. cbn [lift gbind].
  destruct m as [|[r c] m].
  - apply Permutation_nil in Pm. unfold nempty in Hf. rewrite Pm in Hf. cbn in Hf. lia.
  - assert (Fp : field s (r, c) /\ num s (r, c) = 0).
    { assert (Hin : In (r, c) (filter (fun p => num s p =? 0) (coords s))).
      { eapply Permutation_in; [apply Pm | left; auto]. }
      apply filter_In in Hin. destruct Hin as [H1 H2]. split; [apply in_coords; auto | apply Z.eqb_eq; auto]. }
    destruct Fp as [Fp H0].
    rewrite get_candidates_ok by auto. cbn [lift gbind]. apply for_nothing. intros v Hv.
    assert (Hv' : In v (cand s (r, c))) by (eapply Permutation_in; [apply (Ho s (cand s (r, c))) | auto]).
    destruct (brute_body s r c v HB Fp H0 Hv') as [t [Bt [Nt D]]]. destruct (D (do_bruteforce fuel ord)) as [D1 [D2 D3]].
    destruct (IH t Bt ltac:(lia)) as [Y [R|R]]; (split; [rewrite D1; exact Y|]); [left|right]; auto.
Qed.

Section Brute.
Context (ord : sudoku -> zset -> list Z) (Ho : forall s l, Permutation (ord s l) l) (s : sudoku) (W : wf s).
Lemma brute_start : has_conflict s = Ok true /\ ~ conflict_free s \/
  has_conflict s = Ok false /\ exists t u, copy s false = Ok t /\ init_candidates t false = Ok u /\ BI u /\ nempty u = nempty s /\ length (coords u) = length (coords s).
Proof.
  destruct (has_conflict_ok s W) as [b [Eb Hb]]. destruct b; [left; split; auto; intros C; apply Hb in C; discriminate|]. right. split; auto.
  assert (CF : conflict_free s) by (apply Hb; auto).
  destruct (copy_ok s false W) as [t [E [Wt [Ew [Eh [Hn Hc]]]]]].
  destruct (init_candidates_ok t false Wt) as [u [Eu [Wu [Euw [Euh [Hnu Hcu]]]]]]. exists t, u. split; [auto|]. split; [auto|].
  assert (Fu : forall q, field u q <-> field s q) by (intros; apply field_dims; congruence).
  assert (Ft : forall q, field t q <-> field s q) by (intros; apply field_dims; congruence).
  assert (Hn' : forall q, field s q -> num u q = num s q) by (intros; rewrite Hnu; auto).
  split.
  - unfold BI; splits; auto.
    + intros p q Fp Fq P. rewrite Euw, Euh, Ew, Eh in P. rewrite !Hn' by (apply Fu; auto). apply CF; auto; apply Fu; auto.
    + intros p Fp _. rewrite Hcu by (apply Ft, Fu; auto). cbn [andb]. apply pcalc_ext; auto. apply Ft, Fu; auto.
  - unfold nempty. rewrite (coords_dims u s) by congruence. split; auto. f_equal. apply filter_ext_in. intros p Hp. apply in_coords in Hp. rewrite Hn'; auto.
Qed.
Lemma brute_enough : forall room, (nempty s < room)%nat -> same_run (bruteforce_within room ord s) (bruteforce ord s).
Proof.
  intros room H. unfold bruteforce_within, bruteforce. destruct brute_start as [[-> _]|[-> [t [u [E1 [E2 [B [N L]]]]]]]]; cbn [lift gbind]; [apply same_refl|].
  rewrite E1. cbn [lift gbind]. rewrite E2. cbn [lift gbind]. apply same_bind; [|intros; apply same_refl].
  destruct (do_bruteforce_ok ord Ho room u B ltac:(lia)) as [R _].
  destruct (do_bruteforce_ok ord Ho (S (length (coords s))) u B) as [R' _].
  { unfold nempty in *. pose proof (filter_length_le (fun p => num u p =? 0) (coords u)). lia. }
  assert (X : same_run (do_bruteforce room ord u) (do_bruteforce (S (length (coords s))) ord u)).
  { destruct (Nat.le_ge_cases room (S (length (coords s)))) as [C|C].
    - apply less_ok; [apply brute_less; auto|congruence].
    - destruct (less_ok _ _ (brute_less ord _ _ u C)) as [Y1 Y2]; [congruence|]. split; congruence. }
  apply same_forgen; [apply X|]. intros e. rewrite R, R'. split; discriminate.
Qed.
Lemma brute_mono : forall room room', (room <= room')%nat -> less (bruteforce_within room ord s) (bruteforce_within room' ord s).
Proof.
  intros room room' H. unfold bruteforce_within. apply less_bind; [apply less_refl|]. intros [|]; [apply less_refl|]. apply less_bind; [apply less_refl|].
  intros t. apply less_bind; [apply less_refl|]. intros u. apply less_bind; [|intros; apply less_refl]. apply less_forgen. apply brute_less; auto.
Qed.
Lemma brute_little : forall room, (room <= nempty s)%nat -> gyields (bruteforce_within room ord s) tt = [] /\
  (forall f, completion s f -> gresult (bruteforce_within room ord s) tt = Err OutOfFuel).
Proof.
  intros room H. assert (Y : gyields (bruteforce_within room ord s) tt = []).
  { unfold bruteforce_within. destruct brute_start as [[-> _]|[-> [t [u [E1 [E2 [B [N L]]]]]]]]; cbn [lift gbind]; [reflexivity|].
    rewrite E1. cbn [lift gbind]. rewrite E2. cbn [lift gbind]. destruct (brute_short ord Ho room u B ltac:(lia)) as [Z _].
    rewrite gyields_gbind. match goal with |- context [gforgen ?b ?g ?st] => destruct (forgen_for b g st) as [X1 X2] end.
    rewrite X1, X2, Z. cbn [gfor gbind]. destruct (gresult (do_bruteforce room ord u) tt); reflexivity. }
  split; auto. intros f C. destruct (bruteforce_ok ord Ho s W) as [_ [[_ [E _]] _]]. destruct (E f C) as [y [Hy _]].
  pose proof (brute_enough (S (nempty s)) ltac:(lia)) as [S1 _].
  destruct (brute_mono room (S (nempty s)) ltac:(lia)) as [[X1 _]|[X _]]; auto.
  rewrite <- S1, <- X1, Y in Hy. destruct Hy.
Qed.
End Brute.

(** * dlx *)
Lemma givens_len : forall s l cov X X', wf s -> (forall p, In p l -> field s p) -> XI (box_height s) (box_width s) cov X ->
  select_givens s (build_Y (box_height s) (box_width s)) l X = Ok (Some X') -> length X = (4 * length (givens s l) + length X')%nat.
Proof.
  intros s l; induction l as [|[r c] l IH]; intros cov X X' W Hl HX.
  - cbn. intros E. injection E as <-. auto.
  - cbn [select_givens]. rewrite getitem_ok by (auto; apply Hl; left; auto). cbn [rbind fst snd].
    unfold givens; cbn [filter]. destruct (num s (r, c) =? 0) eqn:E; cbn [negb].
    + apply (IH cov); auto. intros; apply Hl; right; auto.
    + change (grows (num s) ((r, c) :: filter (fun p => negb (num s p =? 0)) l)) with ((r, c, num s (r, c)) :: givens s l).
      destruct (select X (build_Y (box_height s) (box_width s)) (r, c, num s (r, c))) as [[cols X1]|e] eqn:Es; [|destruct e; discriminate].
      intros E'.
      destruct (in_dec xrow_eq_dec (r, c, num s (r, c)) (all_rows (box_height s * box_width s))) as [V|V].
      * assert (D : disj (keys_of (box_height s) (box_width s) (r, c, num s (r, c))) cov).
        { intros k Hk Hc. rewrite (select_err _ _ (wf_h _ W) (wf_w _ W) cov X) in Es; auto; [discriminate|]. intros [_ D]; apply (D k); auto. }
        destruct (select_ok _ _ (wf_h _ W) (wf_w _ W) cov X _ HX V D) as [cols' [X2 [E2 [_ [HX2 L]]]]]. rewrite Es in E2. injection E2 as <- <-.
        assert (L2 := IH _ X1 X' W (fun p Hp => Hl p (or_intror Hp)) HX2 E'). cbn [length]. lia.
      * rewrite (select_err _ _ (wf_h _ W) (wf_w _ W) cov X) in Es; auto; [discriminate|]. intros [D _]; apply V; auto.
Qed.
Lemma exact_length : forall s l, wf s -> Exact (box_height s) (box_width s) [] (givens s (coords s) ++ l) -> length l = nempty s.
Proof.
  intros s l W E. assert (P : Permutation (map fst (givens s (coords s) ++ l)) (coords s)).
  { apply NoDup_Permutation; [|apply NoDup_coords|].
    - pose proof (gl_spec _ _ _ E) as G. pose proof (Exact_NoDup _ _ _ _ E) as N. revert N G. generalize (givens s (coords s) ++ l). intros m N G.
      assert (I : forall x y, In x m -> In y m -> fst x = fst y -> x = y).
      { intros [p a] [q b] Hx Hy Q. cbn in Q. subst q. apply G in Hx, Hy. destruct Hx as [_ ->], Hy as [_ ->]. auto. }
      clear G E. induction m as [|x m IH]; cbn [map]; constructor; inversion N; subst.
      + intros Hi. apply in_map_iff in Hi. destruct Hi as [y [Q Hy]]. assert (y = x) by (apply I; [right; auto|left; auto|auto]). subst. contradiction.
      + apply IH; auto. intros a b Ha Hb. apply I; right; auto.
    - intros p. rewrite in_coords, in_map_iff. split.
      + intros [[q m] [Q Hi]]. cbn in Q. subst q. apply (gl_spec _ _ _ E) in Hi. apply Hi.
      + intros Fp. exists (p, gl (givens s (coords s) ++ l) p). split; auto. apply (gl_spec _ _ _ E). auto. }
  apply Permutation_length in P. rewrite map_length, app_length in P. unfold givens, grows in P. rewrite map_length in P.
  pose proof (Permutation_length (filter_partition (fun p => num s p =? 0) (coords s))) as Q. rewrite app_length in Q. cbv beta in Q. unfold nempty. unfold xrow, coord in *. lia.
Qed.
Lemma depth_bound : forall ord Y room X sol l, In l (gyields (xsolve room ord Y X sol) tt) -> (length l < length sol + room)%nat.
Proof.
  intros ord Y room; induction room as [|room IH]; intros X sol l H; [destruct H|]. cbn [xsolve] in H. destruct X as [|e X].
  - cbn in H. destruct H as [<-|[]]. lia.
  - rewrite gyields_gbind, gyields_lift, gresult_lift in H. cbn [app] in H. destruct (dget _ _ _) as [rows|x]; [|destruct H].
    revert H. generalize (e :: X). induction (ord sol rows) as [|r rs IHr]; intros Z H; [destruct H|]. cbn [gfor] in H.
    rewrite gyields_gbind in H. apply in_app_or in H. destruct H as [H|H].
    + rewrite gyields_gbind, gyields_lift, gresult_lift in H. cbn [app] in H. destruct (select Z Y r) as [[cols Z']|x]; [|destruct H].
      rewrite gyields_gbind in H. apply in_app_or in H. destruct H as [H|H].
      * apply IH in H. rewrite app_length in H. cbn in H. lia.
      * destruct (gresult _ _); [rewrite gyields_lift in H|]; destruct H.
    + destruct (gresult _ _) as [Z'|x]; [|destruct H]. apply (IHr Z'); auto.
Qed.
Section Dlx.
Context (ord : list xrow -> list xrow -> list xrow) (Ho : forall p s, Permutation (ord p s) s) (s : sudoku) (W : wf s).
Lemma dlx_start : exists X, exact_cover (all_keys (box_height s * box_width s)) (build_Y (box_height s) (box_width s)) = Ok X /\
  (select_givens s (build_Y (box_height s) (box_width s)) (coords s) X = Ok None \/
   exists X' cov, select_givens s (build_Y (box_height s) (box_width s)) (coords s) X = Ok (Some X') /\
     XI (box_height s) (box_width s) cov X' /\ length X' = (4 * nempty s)%nat /\
     forall l0, Exact (box_height s) (box_width s) cov l0 <-> Exact (box_height s) (box_width s) [] (givens s (coords s) ++ l0)).
Proof.
  destruct (exact_cover_ok _ _ (wf_h _ W) (wf_w _ W)) as [X [E [HX LX]]]. exists X. split; auto.
  destruct (select_givens_ok s (coords s) [] X W) as [o [Eo H]]; auto.
  { intros; apply in_coords; auto. }
  destruct o as [X'|]; [right|left; auto]. destruct H as [cov [HX' [_ Hcov]]]. exists X', cov. split; [auto|]. split; [auto|]. split; [|auto].
  pose proof (givens_len s (coords s) [] X X' W ltac:(intros; apply in_coords; auto) HX Eo) as L.
  rewrite LX, all_keys_length in L by (pose proof (NN_pos s W); lia). pose proof (length_coords s) as Lc. rewrite (Z.mul_comm (box_width s)) in Lc.
  unfold givens, grows in L. rewrite map_length in L. pose proof (Permutation_length (filter_partition (fun p => num s p =? 0) (coords s))) as Q.
  rewrite app_length in Q. cbv beta in Q. unfold nempty. lia.
Qed.
Lemma do_dlx_enough : forall room room', (nempty s < room)%nat -> (nempty s < room')%nat -> same_run (do_dlx_within room ord s) (do_dlx_within room' ord s).
Proof.
  assert (X : forall room room', (nempty s < room)%nat -> (nempty s < room')%nat -> (room <= room')%nat -> same_run (do_dlx_within room ord s) (do_dlx_within room' ord s)).
  { intros room room' H H' C. unfold do_dlx_within. cbv zeta. destruct dlx_start as [X [-> D]]. cbn [lift gbind]. destruct D as [-> |[X' [cov [-> [HX [L _]]]]]]; cbn [lift gbind]; try apply same_refl.
    destruct (xsolve_ok _ _ (wf_h _ W) (wf_w _ W) ord Ho room cov [] X' HX ltac:(lia) ltac:(lia)) as [ls [X2 [E2 _]]].
    apply same_bind; [|intros; apply same_refl].
    destruct (less_ok _ _ (xsolve_less ord (build_Y (box_height s) (box_width s)) room room' X' [] C)) as [Y1 Y2]; [congruence|].
    apply same_forgen; auto. intros e. rewrite Y2. tauto. }
  intros room room' H H'. destruct (Nat.le_ge_cases room room') as [C|C]; [auto|]. destruct (X room' room H' H C). split; auto.
Qed.
Lemma do_dlx_mono : forall room room', (room <= room')%nat -> less (do_dlx_within room ord s) (do_dlx_within room' ord s).
Proof.
  intros room room' H. unfold do_dlx_within. cbv zeta. apply less_bind; [apply less_refl|]. intros X. apply less_bind; [apply less_refl|].
  intros [Z|]; [|apply less_refl]. apply less_bind; [|intros; apply less_refl]. apply less_forgen. apply xsolve_less; auto.
Qed.
Lemma do_dlx_little : forall room, (room <= nempty s)%nat -> gyields (do_dlx_within room ord s) tt = [].
Proof.
  intros room H. unfold do_dlx_within. cbv zeta. destruct dlx_start as [X [-> D]]. cbn [lift gbind]. destruct D as [-> |[X' [cov [-> [HX [L Hc]]]]]]; cbn [lift gbind]; [reflexivity|].
  set (Y := build_Y (box_height s) (box_width s)) in *.
  assert (Z : gyields (xsolve room ord Y X' []) tt = []).
  { destruct (xsolve_ok _ _ (wf_h _ W) (wf_w _ W) ord Ho (S (nempty s)) cov [] X' HX ltac:(lia) ltac:(lia)) as [ls [X2 [E2 [_ [Y2 [HL _]]]]]]. fold Y in Y2.
    assert (P : exists r, gyields (xsolve (S (nempty s)) ord Y X' []) tt = gyields (xsolve room ord Y X' []) tt ++ r).
    { destruct (xsolve_less ord Y room (S (nempty s)) X' [] ltac:(lia)) as [[A _]|[_ A]]; auto. exists []. rewrite app_nil_r. auto. }
    destruct P as [r P]. pose proof (depth_bound ord Y room X' []) as B. destruct (gyields (xsolve room ord Y X' []) tt) as [|l rest] eqn:E; auto. exfalso.
    specialize (B l (or_introl eq_refl)). cbn [length] in B. rewrite Y2 in P.
    assert (I : In l (map (app []) ls)) by (rewrite P; left; auto). apply in_map_iff in I. destruct I as [l' [El I]]. cbn in El. subst l'.
    specialize (HL l I). apply Hc in HL. apply exact_length in HL; auto. lia. }
  rewrite gyields_gbind. match goal with |- context [gforgen ?b ?g ?st] => destruct (forgen_for b g st) as [X1 X2] end.
  rewrite X1, X2, Z. cbn [gfor gbind]. destruct (gresult (xsolve room ord Y X' []) tt); reflexivity.
Qed.
End Dlx.
Section Dlx2.
Context (ord : list xrow -> list xrow -> list xrow) (Ho : forall p s, Permutation (ord p s) s) (s : sudoku) (W : wf s).
Lemma dlx_copy : exists t, copy s false = Ok t /\ wf t /\ nempty t = nempty s /\ length (coords t) = length (coords s).
Proof.
  destruct (copy_ok s false W) as [t [E [Wt [Ew [Eh [Hn Hc]]]]]]. exists t. split; [auto|]. split; [auto|]. unfold nempty. rewrite (coords_dims t s) by congruence.
  split; auto. f_equal. apply filter_ext_in. intros p Hp. apply in_coords in Hp. rewrite Hn; auto.
Qed.
Lemma dlx_enough : forall room, (nempty s < room)%nat -> same_run (dlx_within room ord s) (dlx ord s).
Proof.
  intros room H. unfold dlx_within, dlx. destruct dlx_copy as [t [-> [Wt [N L]]]]. cbn [lift gbind]. apply same_bind; [|intros; apply same_refl].
  destruct (do_dlx_enough ord Ho t Wt room (S (length (coords t)))) as [Y1 Y2]; [lia| |].
  { unfold nempty. pose proof (filter_length_le (fun p => num t p =? 0) (coords t)). lia. }
  apply same_forgen; [exact Y1|]. intros e. change (do_dlx ord t) with (do_dlx_within (S (length (coords t))) ord t). rewrite Y2. tauto.
Qed.
Lemma dlx_mono : forall room room', (room <= room')%nat -> less (dlx_within room ord s) (dlx_within room' ord s).
Proof.
  intros room room' H. unfold dlx_within. apply less_bind; [apply less_refl|]. intros t. apply less_bind; [|intros; apply less_refl]. apply less_forgen. apply do_dlx_mono; auto.
Qed.
Lemma dlx_little : forall room, (room <= nempty s)%nat -> gyields (dlx_within room ord s) tt = [] /\
  (forall f, solution s f -> gresult (dlx_within room ord s) tt = Err OutOfFuel).
Proof.
  intros room H. assert (Y : gyields (dlx_within room ord s) tt = []).
  { unfold dlx_within. destruct dlx_copy as [t [-> [Wt [N L]]]]. cbn [lift gbind].
    rewrite gyields_gbind. match goal with |- context [gforgen ?b ?g ?st] => destruct (forgen_for b g st) as [X1 X2] end.
    rewrite X1, X2, (do_dlx_little ord Ho t Wt room ltac:(lia)). cbn [gfor gbind]. destruct (gresult (do_dlx_within room ord t) tt); reflexivity. }
  split; auto. intros f C. destruct (dlx_ok ord Ho s W) as [_ [[_ [E _]] _]]. destruct (E f C) as [y [Hy _]].
  pose proof (dlx_enough (S (nempty s)) ltac:(lia)) as [S1 _].
  destruct (dlx_mono room (S (nempty s)) ltac:(lia)) as [[X1 _]|[X _]]; auto.
  rewrite <- S1, <- X1, Y in Hy. destruct Hy.
Qed.
End Dlx2.
