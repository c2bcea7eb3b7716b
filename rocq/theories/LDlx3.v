(** The property lemmas about dlx and is_unique (C22-C25, C27). *)
From Verif Require Export LDlx2 SpecDlx LCheck.

Lemma select_inv : forall R C cov X r cols X1, 1 <= R -> 1 <= C -> XI R C cov X ->
  select X (build_Y R C) r = Ok (cols, X1) ->
  vrow R C r /\ disj (keys_of R C r) cov /\ cols_of R C cov (keys_of R C r) cols /\
  XI R C (rev (keys_of R C r) ++ cov) X1.
Proof.
  intros R C cov X r cols X1 HR HC HX E.
  destruct (in_dec xrow_eq_dec r (all_rows (R * C))) as [V|V].
  - destruct (existsb (fun j => existsb (xkey_eqb j) cov) (keys_of R C r)) eqn:Ex.
    + apply existsb_exists in Ex. destruct Ex as [j [Hj Ex]]. apply existsb_exists in Ex.
      destruct Ex as [k [Hk Ek]]. apply xkey_eqb_eq in Ek; subst.
      rewrite (select_err R C HR HC cov) in E; auto; [discriminate|].
      intros [_ D]; apply (D k); auto.
    + assert (D : disj (keys_of R C r) cov).
      { intros j Hj Hc. rewrite existsb_false_iff in Ex. specialize (Ex j Hj).
        rewrite existsb_false_iff in Ex. specialize (Ex j Hc). apply xkey_eqb_neq in Ex; auto. }
      destruct (select_ok R C HR HC cov X r HX V D) as [cols' [X' [E' [Hc [HX' _]]]]].
      rewrite E' in E; inv E. splits; auto.
  - rewrite (select_err R C HR HC cov) in E; auto; [discriminate|]. intros [D _]; apply V; auto.
Qed.

Lemma reachable_XI : forall w h X, 1 <= w -> 1 <= h -> reachable_X w h X -> exists cov, XI h w cov X.
Proof.
  intros w h X Hw Hh H; induction H as [X E|X r cols X1 H IH E|X r cols X1 X2 H IH E1 E2].
  - destruct (exact_cover_ok h w Hh Hw) as [X' [E' [HX _]]]. rewrite E' in E; inv E. eauto.
  - destruct IH as [cov HX]. destruct (select_inv h w cov X r cols X1 Hh Hw HX E) as [_ [_ [_ H1]]]; eauto.
  - destruct IH as [cov HX]. destruct (select_inv h w cov X r cols X1 Hh Hw HX E1) as [V [D [Hc H1]]].
    destruct (deselect_ok h w Hh Hw cov X1 r cols H1 V Hc) as [X' [E' HX']].
    rewrite E' in E2; inv E2. eauto.
Qed.

Lemma C25_proof : forall w h X r cols X1, 1 <= w -> 1 <= h -> reachable_X w h X ->
  select X (build_Y h w) r = Ok (cols, X1) ->
  exists X2, deselect X1 (build_Y h w) r cols = Ok X2 /\
    forall k, dget xkey_eqb X2 k = dget xkey_eqb X k.
Proof.
  intros w h X r cols X1 Hw Hh HR E. destruct (reachable_XI w h X Hw Hh HR) as [cov HX].
  destruct (select_inv h w cov X r cols X1 Hh Hw HX E) as [V [D [Hc H1]]].
  destruct (deselect_ok h w Hh Hw cov X1 r cols H1 V Hc) as [X' [E' HX']].
  exists X'; split; auto. intros k. eapply XI_get_eq; eauto.
Qed.

(** select fails with KeyError, never otherwise, on reachable states. *)
Lemma C25_select_proof : forall w h X r, 1 <= w -> 1 <= h -> reachable_X w h X ->
  (exists cols X1, select X (build_Y h w) r = Ok (cols, X1)) \/
  select X (build_Y h w) r = Err KeyError.
Proof.
  intros w h X r Hw Hh HR. destruct (reachable_XI w h X Hw Hh HR) as [cov HX].
  destruct (in_dec xrow_eq_dec r (all_rows (h * w))) as [V|V].
  - destruct (existsb (fun j => existsb (xkey_eqb j) cov) (keys_of h w r)) eqn:Ex.
    + apply existsb_exists in Ex. destruct Ex as [j [Hj Ex]]. apply existsb_exists in Ex.
      destruct Ex as [k [Hk Ek]]. apply xkey_eqb_eq in Ek; subst.
      right. apply (select_err h w Hh Hw cov); auto. intros [_ D]; apply (D k); auto.
    + assert (D : disj (keys_of h w r) cov).
      { intros j Hj Hc. rewrite existsb_false_iff in Ex. specialize (Ex j Hj).
        rewrite existsb_false_iff in Ex. specialize (Ex j Hc). apply xkey_eqb_neq in Ex; auto. }
      destruct (select_ok h w Hh Hw cov X r HX V D) as [cols [X' [E' _]]]. left; eauto.
  - right. apply (select_err h w Hh Hw cov); auto. intros [D _]; apply V; auto.
Qed.

Lemma C22_proof : forall ord s, (forall p l, Permutation (ord p l) l) -> wf s ->
  forall y, In y (gyields (dlx ord s) tt) ->
    wf y /\ box_size y = box_size s /\
    latin (box_width s) (box_height s) (num y) /\ extends s (num y) /\
    (forall p, field s p -> cand y p = []).
Proof.
  intros ord s Ho W y Hy. destruct (dlx_ok ord Ho s W) as [_ [[H1 _] Hc]].
  destruct (H1 y Hy) as [Wy [By [V X]]]. splits; auto.
  apply valid_iff_latin; auto; apply W.
Qed.

Lemma C23_proof : forall ord s, (forall p l, Permutation (ord p l) l) -> wf s ->
  gresult (dlx ord s) tt = Ok tt /\
  enumerates s (solution s) (gyields (dlx ord s) tt).
Proof.
  intros ord s Ho W. destruct (dlx_ok ord Ho s W) as [H1 [H2 _]]; auto.
Qed.

Lemma no_solution_conflict : forall s, wf s ->
  ~ (conflict_free s /\ in_range s) -> forall f, ~ solution s f.
Proof.
  intros s W H f [[V1 V2] X]. apply H. split.
  - intros p q Fp Fq P Hp. destruct (X p Fp) as [E|E]; [contradiction|].
    destruct (X q Fq) as [E'|E']; [congruence|]. rewrite E, E'. apply V2; auto.
  - intros p Fp. destruct (X p Fp) as [E|E]; rewrite E; [pose proof (NN_pos s W); lia|].
    specialize (V1 p Fp). lia.
Qed.

Lemma enumerates_none : forall s P ys, enumerates s P ys -> (forall f, ~ P f) -> ys = [].
Proof.
  intros s P [|y ys] [H1 _] Hn; auto. exfalso. destruct (H1 y) as [_ [_ Hp]]; [left; auto|].
  eapply Hn; eauto.
Qed.

Lemma C24_proof : forall ord s, (forall p l, Permutation (ord p l) l) -> wf s ->
  ~ (conflict_free s /\ in_range s) ->
  gyields (dlx ord s) tt = [] /\ gresult (dlx ord s) tt = Ok tt.
Proof.
  intros ord s Ho W H. destruct (C23_proof ord s Ho W) as [H1 H2]. split; auto.
  eapply enumerates_none; eauto. apply no_solution_conflict; auto.
Qed.

Lemma C27_proof : forall ord s, (forall p l, Permutation (ord p l) l) -> wf s ->
  exists b, is_unique ord s = Ok b /\ (b = true <-> unique_solution s).
Proof.
  intros ord s Ho W. destruct (C23_proof ord s Ho W) as [Hr [H1 [H2 H3]]].
  unfold is_unique. pose proof (gnext_spec (dlx ord s)) as HN.
  destruct (gyields (dlx ord s) tt) as [|y ys] eqn:Ey.
  - rewrite HN, Hr. eexists; split; [reflexivity|]. split; [discriminate|].
    intros [f [Sf _]]. destruct (H2 f Sf) as [y [[] _]].
  - destruct HN as [g' [En [Ey' Er']]]. rewrite En.
    pose proof (gnext_spec g') as HN'. rewrite Ey' in HN'.
    destruct ys as [|z ys].
    + rewrite HN', Er', Hr. eexists; split; [reflexivity|]. split; auto. intros _.
      destruct (H1 y) as [Wy [By Sy]]; [left; auto|].
      exists (num y); split; auto. intros g Sg p Fp.
      destruct (H2 g Sg) as [y' [[<-|[]] Sh]]. symmetry; apply Sh.
      unfold field. inv By. rewrite H0, H4; auto.
    + destruct HN' as [g'' [En' _]]. rewrite En'. eexists; split; [reflexivity|].
      split; [discriminate|]. intros [f [Sf Hu]].
      destruct (H1 y) as [_ [_ Sy]]; [left; auto|]. destruct (H1 z) as [_ [_ Sz]]; [right; left; auto|].
      inversion H3 as [|? ? HF _]; subst. rewrite Forall_forall in HF. destruct (HF z) as [p [Fp Hne]]; [left; auto|].
      exfalso; apply Hne. rewrite (Hu _ Sy p Fp), (Hu _ Sz p Fp); auto.
Qed.
