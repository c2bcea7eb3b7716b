(** bruteforce and dlx on the heap of objects (MHeapSolve.v). *)
From Verif Require Import LBase LHeap.
From Verif Require Export MHeapSolve.

(** ** Operations on the i-th known object *)
Lemma hsim_nth : forall hp refs vals i s, hsim (hp, refs) vals -> nth_error vals i = Some s ->
  exists os o, hinv hp os /\ map o_ref os = refs /\ map o_val os = vals /\ nth_error os i = Some o /\ o_val o = s /\ nth_error refs i = Some (o_ref o).
Proof.
  intros hp refs vals i s [os [HI [E1 E2]]] Hi. cbn [fst snd] in *. rewrite <- E2, nth_error_map in Hi.
  destruct (nth_error os i) as [o|] eqn:Ho; [|discriminate]. cbn in Hi. inv Hi. exists os, o. splits; auto. rewrite nth_error_map, Ho. reflexivity.
Qed.

Lemma hsim_len : forall hp refs vals, hsim (hp, refs) vals -> length refs = length vals.
Proof. intros hp refs vals [os [_ [E1 E2]]]. cbn [snd] in E1. subst. now rewrite !map_length. Qed.

Lemma hsim_contents : forall hp refs vals, hsim (hp, refs) vals -> map (h_contents hp) refs = map Some vals.
Proof.
  intros hp refs vals [os [[I1 I2] [E1 E2]]]. cbn [fst snd] in *. rewrite <- E1, <- E2, !map_map.
  apply map_ext_in. intros o Ho. eapply layout_contents. apply (I1 o Ho).
Qed.

Lemma hsim_copy : forall hp refs vals i r s, hsim (hp, refs) vals -> nth_error refs i = Some r -> nth_error vals i = Some s ->
  match copy s false with
  | Ok t => exists c hp', h_copy hp r false = Ok (c, hp') /\ hsim (hp', refs ++ [c]) (vals ++ [t])
  | Err e => h_copy hp r false = Err e
  end.
Proof.
  intros hp refs vals i r s H Hr Hs. destruct (hsim_nth _ _ _ _ _ H Hs) as [os [o [HI [E1 [E2 [Ho [<- E3]]]]]]].
  rewrite E3 in Hr. inv Hr. pose proof (h_copy_ok hp os i o false HI Ho) as R. destruct (copy (o_val o) false) as [t|e]; auto.
  destruct R as [c [fp [hp' [R1 R2]]]]. exists c, hp'. split; auto. exists (os ++ [(c, fp, t)]). cbn [fst snd]. rewrite !map_app. auto.
Qed.

Section Read.
Variables (hp : heap) (refs : list nat) (vals : list sudoku) (i r : nat) (s : sudoku).
Hypothesis HS : hsim (hp, refs) vals.
Hypothesis Hr : nth_error refs i = Some r.
Hypothesis Hs : nth_error vals i = Some s.

Lemma hs_get : forall row col, h_getitem hp r row col = getitem s row col.
Proof.
  intros row col. destruct (hsim_nth _ _ _ _ _ HS Hs) as [os [o [HI [E1 [E2 [Ho [<- E3]]]]]]]. rewrite E3 in Hr. inv Hr.
  apply (h_getitem_ok hp os i o HI Ho).
Qed.
Lemma hs_cands : forall row col, h_get_candidates hp r row col = get_candidates s row col.
Proof.
  intros row col. destruct (hsim_nth _ _ _ _ _ HS Hs) as [os [o [HI [E1 [E2 [Ho [<- E3]]]]]]]. rewrite E3 in Hr. inv Hr.
  apply (h_get_candidates_ok hp os i o HI Ho).
Qed.
Lemma hs_deref : exists na ca, deref_sudoku hp r = Ok (box_width s, box_height s, na, ca).
Proof.
  destruct (hsim_nth _ _ _ _ _ HS Hs) as [os [o [HI [E1 [E2 [Ho [<- E3]]]]]]]. rewrite E3 in Hr. inv Hr.
  destruct (o_layout hp os i o HI Ho) as [na [ca [nrs [crs [F [H1 _]]]]]]. exists na, ca. unfold deref_sudoku. rewrite H1. reflexivity.
Qed.
Lemma hs_contents : h_contents hp r = Some s.
Proof.
  destruct (hsim_nth _ _ _ _ _ HS Hs) as [os [o [HI [E1 [E2 [Ho [<- E3]]]]]]]. rewrite E3 in Hr. inv Hr.
  eapply layout_contents, (o_layout hp os i o HI Ho).
Qed.
Lemma hs_iter : h_iter hp r = Ok (coords s).
Proof. destruct hs_deref as [na [ca E]]. unfold h_iter. rewrite E. reflexivity. Qed.
Lemma hs_numbers : h_numbers hp r = Ok (numbers s).
Proof. destruct hs_deref as [na [ca E]]. unfold h_numbers. rewrite E. reflexivity. Qed.
Lemma hs_sur : forall row col b, h_surrounding_of hp r row col b = surrounding_of s row col b.
Proof. intros. destruct hs_deref as [na [ca E]]. unfold h_surrounding_of. rewrite E. reflexivity. Qed.

Lemma foldM_ext : forall {A S} (f g : S -> A -> res S) l a, (forall a x, f a x = g a x) -> foldM f l a = foldM g l a.
Proof. intros A S f g l. induction l as [|x l IH]; intros a E; cbn; auto. rewrite E. destruct (g a x); cbn; auto. Qed.
Lemma anyM_ext : forall {A} (f g : A -> res bool) l, (forall x, f x = g x) -> anyM f l = anyM g l.
Proof. intros A f g l E. induction l as [|x l IH]; cbn; auto. rewrite E, IH. reflexivity. Qed.
Lemma mapM_ext : forall {A B} (f g : A -> res B) l, (forall x, f x = g x) -> mapM f l = mapM g l.
Proof. intros A B f g l E. induction l as [|x l IH]; cbn; auto. rewrite E, IH. reflexivity. Qed.

Lemma hs_calc : forall row col, h_calc_candidates hp r row col = calc_candidates s row col.
Proof.
  intros row col. unfold h_calc_candidates, calc_candidates. rewrite hs_get. destruct (getitem s row col); cbn [rbind]; auto.
  destruct (negb _); auto. rewrite hs_numbers. cbn [rbind]. rewrite hs_sur. destruct (surrounding_of s row col false); cbn [rbind]; auto.
  apply foldM_ext. intros. now rewrite hs_get.
Qed.
Lemma hs_conflict : h_has_conflict hp r = has_conflict s.
Proof.
  unfold h_has_conflict, has_conflict. rewrite hs_iter. cbn [rbind]. apply anyM_ext. intros x. rewrite hs_get.
  destruct (getitem s (fst x) (snd x)); cbn [rbind]; auto. destruct (negb _); auto. rewrite hs_sur.
  destruct (surrounding_of s (fst x) (snd x) false); cbn [rbind]; auto. apply anyM_ext. intros. now rewrite hs_get.
Qed.
Lemma hs_sort : forall l, h_sort_by_len hp r l = sort_by_len s l.
Proof.
  intros l. unfold h_sort_by_len, sort_by_len. rewrite (mapM_ext _ (fun rc => let* c := get_candidates s (fst rc) (snd rc) in Ok (py_len c, rc))); auto.
  intros x. now rewrite hs_cands.
Qed.
Lemma hs_empty : glist (h_empty hp r) hp = glist (empty s) s.
Proof.
  unfold h_empty, empty. rewrite hs_iter. cbn [lift gbind]. unfold coord. generalize (coords s). unfold coord. intros l. induction l as [|x l IH]; auto.
  cbn [gfor]. rewrite hs_get. destruct (getitem s (fst x) (snd x)) as [v|e]; cbn [lift gbind]; auto.
  destruct (v =? 0); cbn [yield gbind]; auto. unfold glist in *. cbn [gresult gyields].
  set (G1 := gfor _ l hp) in *. set (G2 := gfor _ l s) in *. clearbody G1 G2.
  destruct (gresult G1 hp) as [a|a], (gresult G2 s) as [b|b]; cbn [rbind] in *; congruence.
Qed.
Lemma hs_order : forall ord c, h_order ord hp r c = Ok (ord s c).
Proof. intros. unfold h_order. now rewrite hs_contents. Qed.
Lemma hs_givens : forall Y l X, h_select_givens hp r Y l X = select_givens s Y l X.
Proof.
  intros Y l. induction l as [|x l IH]; intros X; cbn; auto. rewrite hs_get. destruct (getitem s (fst x) (snd x)) as [v|e]; cbn [rbind]; auto.
  destruct (negb _); auto. destruct (select X Y (fst x, snd x, v)) as [[a b]|[]]; auto.
Qed.
End Read.

(** ** Writes to the private object *)
Definition rsim (w : nat) (refs : list nat) (vals : list sudoku) (rh : res heap) (rs : res sudoku) : Prop :=
  match rs with
  | Ok s => exists hp, rh = Ok hp /\ hsim (hp, w :: refs) (s :: vals)
  | Err e => rh = Err e
  end.

Lemma rsim_of : forall hp w refs s vals (fh : heap -> nat -> res heap) fs, hsim (hp, w :: refs) (s :: vals) ->
  (forall os o, hinv hp os -> nth_error os 0 = Some o -> refines os 0 o (fh hp (o_ref o)) (fs (o_val o))) ->
  rsim w refs vals (fh hp w) (fs s).
Proof.
  intros hp w refs s vals fh fs [os [HI [E1 E2]]] F. destruct os as [|o os]; [discriminate|]. cbn in E1, E2. injection E1 as <- <-. injection E2 as <- <-.
  specialize (F (o :: os) o HI eq_refl). unfold rsim. unfold refines in F. destruct (fs (o_val o)) as [t|e]; auto.
  destruct F as [hp' [F1 F2]]. exists hp'. split; auto. exists (with_val o t :: os). cbn in *. auto.
Qed.

Lemma hs_set : forall hp w refs s vals r c v, hsim (hp, w :: refs) (s :: vals) -> rsim w refs vals (h_setitem hp w r c v) (setitem s r c v).
Proof. intros. apply (rsim_of hp w refs s vals (fun hp w => h_setitem hp w r c v) (fun s => setitem s r c v)); auto. intros. now apply h_setitem_ok. Qed.
Lemma hs_setc : forall hp w refs s vals r c v, hsim (hp, w :: refs) (s :: vals) -> rsim w refs vals (h_set_candidates hp w r c v) (set_candidates s r c v).
Proof. intros. apply (rsim_of hp w refs s vals (fun hp w => h_set_candidates hp w r c v) (fun s => set_candidates s r c v)); auto. intros. now apply h_set_candidates_ok. Qed.
Lemma hs_rem : forall hp w refs s vals r c v, hsim (hp, w :: refs) (s :: vals) -> rsim w refs vals (h_remove_candidates hp w r c v) (remove_candidates s r c v).
Proof. intros. apply (rsim_of hp w refs s vals (fun hp w => h_remove_candidates hp w r c v) (fun s => remove_candidates s r c v)); auto. intros. now apply h_remove_candidates_ok. Qed.

Lemma rsim_foldM : forall {A} w refs vals (fh : heap -> A -> res heap) fs,
  (forall hp s x, hsim (hp, w :: refs) (s :: vals) -> rsim w refs vals (fh hp x) (fs s x)) ->
  forall l hp s, hsim (hp, w :: refs) (s :: vals) -> rsim w refs vals (foldM fh l hp) (foldM fs l s).
Proof.
  intros A w refs vals fh fs F. induction l as [|x l IH]; intros hp s H; cbn [foldM]; [exists hp; auto|].
  pose proof (F hp s x H) as R. destruct (fs s x) as [s'|e]; cbn [rsim rbind] in *; [|now rewrite R].
  destruct R as [hp' [-> R]]. cbn [rbind]. now apply IH.
Qed.

Lemma hs_init : forall hp w refs s vals b, hsim (hp, w :: refs) (s :: vals) -> rsim w refs vals (h_init_candidates hp w b) (init_candidates s b).
Proof.
  intros hp w refs s vals b H. unfold h_init_candidates, init_candidates. rewrite (hs_iter hp (w :: refs) (s :: vals) 0 w s H eq_refl eq_refl). cbn [rbind].
  apply rsim_foldM; auto. clear hp s H. intros hp s x H. rewrite (hs_get hp (w :: refs) (s :: vals) 0 w s H eq_refl eq_refl).
  destruct (getitem s (fst x) (snd x)) as [v|e]; cbn [rbind]; [|reflexivity]. destruct (_ || _); [|exists hp; auto].
  rewrite (hs_calc hp (w :: refs) (s :: vals) 0 w s H eq_refl eq_refl). destruct (calc_candidates s (fst x) (snd x)) as [c|e]; cbn [rbind]; [|reflexivity].
  now apply hs_setc.
Qed.

Lemma hs_restore : forall hp w refs s vals l, hsim (hp, w :: refs) (s :: vals) -> rsim w refs vals (h_restore hp w l) (restore s l).
Proof. intros. unfold h_restore, restore. apply rsim_foldM; auto. intros. now apply hs_setc. Qed.

Lemma hs_write : forall hp w refs s vals l, hsim (hp, w :: refs) (s :: vals) -> rsim w refs vals (h_write_rows hp w l) (write_rows s l).
Proof. intros. unfold h_write_rows, write_rows. apply rsim_foldM; auto. intros hp' s' [[r c] n] H'. now apply hs_set. Qed.

Lemma hs_save : forall hp w refs s vals row col n sur, hsim (hp, w :: refs) (s :: vals) ->
  match save_and_remove s row col n sur with
  | Ok (saved, t) => exists hp', h_save_and_remove hp w row col n sur = Ok (saved, hp') /\ hsim (hp', w :: refs) (t :: vals)
  | Err e => h_save_and_remove hp w row col n sur = Err e
  end.
Proof.
  intros hp w refs s vals row col n sur H. unfold save_and_remove, h_save_and_remove. rewrite (hs_cands hp (w :: refs) (s :: vals) 0 w s H eq_refl eq_refl).
  destruct (get_candidates s row col) as [c|e]; cbn [rbind]; auto. generalize [((row, col), c)]. revert hp s H.
  induction sur as [|x sur IH]; intros hp s H l; cbn [foldM]; [eauto|].
  rewrite (hs_cands hp (w :: refs) (s :: vals) 0 w s H eq_refl eq_refl). destruct (get_candidates s (fst x) (snd x)) as [c'|e]; cbn [rbind]; auto.
  pose proof (hs_rem hp w refs s vals (fst x) (snd x) [n] H) as R. destruct (remove_candidates s (fst x) (snd x) [n]) as [t|e]; cbn [rsim rbind] in *; [|now rewrite R].
  destruct R as [hp' [-> R]]. cbn [rbind]. now apply IH.
Qed.

(** ** Generators working on a private object *)
Fixpoint grel {R} (w : nat) (post : R -> list nat -> list sudoku -> heap -> Prop) (refs : list nat) (vals : list sudoku)
  (vg : gen unit sudoku R) (hg : gen heap (nat * heap) heap) : Prop :=
  match vg, hg with
  | Ret r, Ret hp => post r refs vals hp
  | Raise e, Raise e' => e' = e
  | Yield a k, Yield (r, hp) k' => r = w /\ hsim (hp, w :: refs) (a :: vals) /\
      forall refs' vals' hp', hsim (hp', w :: refs') (a :: vals') -> grel w post refs' vals' (k tt) (k' hp')
  | _, _ => False
  end.

Definition holds (w : nat) (s : sudoku) (refs : list nat) (vals : list sudoku) (hp : heap) : Prop := hsim (hp, w :: refs) (s :: vals).
Definition alive (w : nat) (_ : unit) (refs : list nat) (vals : list sudoku) (hp : heap) : Prop := exists s, hsim (hp, w :: refs) (s :: vals).

Lemma grel_bind : forall {R R'} w (post : R -> list nat -> list sudoku -> heap -> Prop) (post' : R' -> list nat -> list sudoku -> heap -> Prop) f f' vg hg refs vals,
  grel w post refs vals vg hg ->
  (forall r refs vals hp, post r refs vals hp -> grel w post' refs vals (f r) (f' hp)) ->
  grel w post' refs vals (gbind vg f) (gbind hg f').
Proof.
  intros R R' w post post' f f'. induction vg as [r|a k IH|e]; intros [hp|[r' hp] k'|e'] refs vals H F; cbn in *; try contradiction; auto.
  destruct H as [H1 [H2 H3]]. splits; auto.
Qed.

Lemma grel_lift : forall w refs vals rh rs, rsim w refs vals rh rs -> grel w (holds w) refs vals (lift rs) (lift rh).
Proof. intros w refs vals rh [s|e] H; cbn in H; [destruct H as [hp [-> H]]; exact H|now subst rh]. Qed.

Lemma grel_gfor : forall {B} w (f : sudoku -> B -> gen unit sudoku sudoku) f',
  (forall x s hp refs vals, hsim (hp, w :: refs) (s :: vals) -> grel w (holds w) refs vals (f s x) (f' hp x)) ->
  forall l s hp refs vals, hsim (hp, w :: refs) (s :: vals) -> grel w (holds w) refs vals (gfor f l s) (gfor f' l hp).
Proof.
  intros B w f f' F. induction l as [|x l IH]; intros s hp refs vals H; cbn [gfor]; [exact H|].
  eapply grel_bind; [apply F, H|]. intros; now apply IH.
Qed.

Lemma do_bruteforce_rel : forall ord w fuel s hp refs vals, hsim (hp, w :: refs) (s :: vals) ->
  grel w (holds w) refs vals (do_bruteforce fuel ord s) (h_do_bruteforce fuel ord hp w).
Proof.
  intros ord w. induction fuel as [|fuel IH]; intros s hp refs vals H; cbn [do_bruteforce h_do_bruteforce]; [reflexivity|].
  rewrite (hs_empty hp (w :: refs) (s :: vals) 0 w s H eq_refl eq_refl). destruct (glist (empty s) s) as [l|e]; cbn [lift gbind]; [|reflexivity].
  rewrite (hs_sort hp (w :: refs) (s :: vals) 0 w s H eq_refl eq_refl). destruct (sort_by_len s l) as [[|[row col] m]|e]; cbn [lift gbind]; [| |reflexivity].
  - cbn. splits; auto.
  - rewrite (hs_cands hp (w :: refs) (s :: vals) 0 w s H eq_refl eq_refl). destruct (get_candidates s row col) as [c|e]; cbn [lift gbind]; [|reflexivity].
    rewrite (hs_order hp (w :: refs) (s :: vals) 0 w s H eq_refl eq_refl). cbn [lift gbind].
    apply grel_gfor; auto. clear - IH. intros n s hp refs vals H.
    eapply grel_bind; [apply grel_lift, hs_set, H|]. clear - IH. intros s refs vals hp H. unfold holds in H.
    rewrite (hs_sur hp (w :: refs) (s :: vals) 0 w s H eq_refl eq_refl). destruct (surrounding_of s row col false) as [sur|e]; cbn [lift gbind]; [|reflexivity].
    pose proof (hs_save hp w refs s vals row col n sur H) as R. destruct (save_and_remove s row col n sur) as [[saved t]|e]; cbn [lift gbind]; [|rewrite R; reflexivity].
    destruct R as [hp' [-> R]]. cbn [lift gbind]. eapply grel_bind; [apply IH, R|]. clear. intros s refs vals hp H.
    eapply grel_bind; [apply grel_lift, hs_restore, H|]. clear. intros s refs vals hp H. apply grel_lift, hs_set, H.
Qed.

Lemma do_dlx_rel : forall ord w s hp refs vals, hsim (hp, w :: refs) (s :: vals) ->
  grel w (alive w) refs vals (do_dlx ord s) (h_do_dlx ord hp w).
Proof.
  intros ord w s hp refs vals H. unfold do_dlx, h_do_dlx. destruct (hs_deref hp (w :: refs) (s :: vals) 0 w s H eq_refl eq_refl) as [na [ca E]]. rewrite E. cbn [lift gbind].
  destruct (exact_cover _ _) as [X|e]; cbn [lift gbind]; [|reflexivity]. change (h_coords (box_width s) (box_height s)) with (coords s).
  rewrite (hs_givens hp (w :: refs) (s :: vals) 0 w s H eq_refl eq_refl). destruct (select_givens s _ _ X) as [[X'|]|e]; cbn [lift gbind]; [|exists s; exact H|reflexivity].
  generalize (xsolve (S (length (coords s))) ord (build_Y (box_height s) (box_width s)) X' []). intros g. clear - H.
  revert s hp refs vals H. induction g as [r|rows k IH|e]; intros s hp refs vals H; cbn [gclosed gforgen gbind]; [exists s; exact H| |reflexivity].
  cbn [fst]. pose proof (hs_write hp w refs s vals rows H) as R. destruct (write_rows s rows) as [t|e]; cbn [rsim] in R; [|rewrite R; reflexivity].
  destruct R as [hp' [-> R]]. cbn [lift gbind yield]. cbn [grel]. split; [reflexivity|]. split; [exact R|]. intros refs' vals' hp'' H'. cbn [gbind fst]. apply (IH tt), H'.
Qed.

(** ** What the consumer sees *)
Fixpoint orel (refs : list nat) (vals : list sudoku) (vg : gen unit sudoku unit) (hg : gen heap (nat * heap) heap) : Prop :=
  match vg, hg with
  | Ret _, Ret hp => exists pr pv, hsim (hp, pr ++ refs) (pv ++ vals) /\ length pr = length pv
  | Raise e, Raise e' => e' = e
  | Yield a k, Yield (c, hp) k' => exists pr pv, length pr = length pv /\ hsim (hp, pr ++ refs ++ [c]) (pv ++ vals ++ [a]) /\
      forall refs' vals' hp', hsim (hp', pr ++ refs') (pv ++ vals') -> orel refs' vals' (k tt) (k' hp')
  | _, _ => False
  end.

Lemma copies_rel : forall {R} w (post : R -> list nat -> list sudoku -> heap -> Prop) vg hg refs vals,
  (forall r refs vals hp, post r refs vals hp -> alive w tt refs vals hp) ->
  grel w post refs vals vg hg ->
  orel refs vals (do* _ := gforgen (fun st solution => do* c := lift (copy solution false) in do* _ := yield c in Ret st) vg (tt, tt) in Ret tt)
    (h_copies hg).
Proof.
  intros R w post. induction vg as [r|a k IH|e]; intros [hp|[r' hp] k'|e'] refs vals P H; cbn [grel] in H; try contradiction.
  - cbn. destruct (P _ _ _ _ H) as [s Hs]. exists [w], [s]. auto.
  - destruct H as [-> [H1 H2]]. cbn [gforgen h_copies].
    pose proof (hsim_copy hp (w :: refs) (a :: vals) 0 w a H1 eq_refl eq_refl) as C. destruct (copy a false) as [t|e]; cbn [lift gbind]; [|rewrite C; reflexivity].
    destruct C as [c [hp' [-> C]]]. cbn [lift gbind yield orel]. exists [w], [a]. split; [reflexivity|]. split; [exact C|]. intros refs' vals' hp'' H'. cbn [gbind fst]. apply IH; auto.
  - subst e'. reflexivity.
Qed.

Lemma hsim_rot : forall hp refs vals c t, length refs = length vals -> hsim (hp, refs ++ [c]) (vals ++ [t]) -> hsim (hp, c :: refs) (t :: vals).
Proof.
  intros hp refs vals c t L [os [[I1 I2] [E1 E2]]]. cbn [fst snd] in *. destruct os as [|o0 os0 _] using rev_ind; [destruct refs; discriminate|].
  rewrite map_app in E1, E2. apply app_inj_tail in E1, E2. destruct E1 as [E1 E3], E2 as [E2 E4]. exists (o0 :: os0). splits; cbn [map fst snd]; try congruence.
  split; [intros o Ho; apply I1, in_app_iff; cbn in *; tauto|]. cbn [map concat]. rewrite map_app, concat_app in I2. cbn [map concat] in I2. rewrite app_nil_r in I2.
  eapply Permutation_NoDup; [apply Permutation_app_comm|exact I2].
Qed.

Lemma dlx_rel : forall ord i r s hp refs vals, hsim (hp, refs) vals -> nth_error refs i = Some r -> nth_error vals i = Some s ->
  orel refs vals (dlx ord s) (h_dlx ord hp r).
Proof.
  intros ord i r s hp refs vals H Hr Hs. unfold dlx, h_dlx. pose proof (hsim_copy hp refs vals i r s H Hr Hs) as C.
  destruct (copy s false) as [t|e]; cbn [lift gbind]; [|rewrite C; reflexivity]. destruct C as [c [hp' [-> C]]]. cbn [lift gbind].
  apply (copies_rel c (alive c)); [intros [] ? ? ? ?; auto|]. apply do_dlx_rel, hsim_rot; auto. eapply hsim_len; eauto.
Qed.

Lemma bruteforce_rel : forall ord i r s hp refs vals, hsim (hp, refs) vals -> nth_error refs i = Some r -> nth_error vals i = Some s ->
  orel refs vals (bruteforce ord s) (h_bruteforce ord hp r).
Proof.
  intros ord i r s hp refs vals H Hr Hs. unfold bruteforce, h_bruteforce. rewrite (hs_conflict hp refs vals i r s H Hr Hs).
  destruct (has_conflict s) as [[]|e]; cbn [lift gbind]; [exists [], []; auto| |reflexivity].
  pose proof (hsim_copy hp refs vals i r s H Hr Hs) as C. pose proof (hsim_len _ _ _ H) as L.
  destruct (copy s false) as [t|e]; cbn [lift gbind]; [|rewrite C; reflexivity]. destruct C as [c [hp' [-> C]]]. cbn [lift gbind].
  apply (hsim_rot _ _ _ _ _ L) in C. pose proof (hs_init hp' c refs t vals false C) as R.
  destruct (init_candidates t false) as [u|e]; cbn [rsim] in R; [|rewrite R; reflexivity]. destruct R as [hp2 [-> R]]. cbn [lift gbind].
  rewrite (hs_iter hp2 (c :: refs) (u :: vals) (S i) r s R Hr Hs). cbn [lift gbind].
  apply (copies_rel c (holds c)); [intros x ? ? ? Hx; exists x; exact Hx|]. now apply do_bruteforce_rel.
Qed.

(** ** Consumers *)
Definition shift (n : nat) (op : hop) : hop :=
  match op with
  | ONew b => ONew b
  | OCopy i inc => OCopy (n + i) inc
  | OSet i r c v => OSet (n + i) r c v
  | OSetC i r c v => OSetC (n + i) r c v
  | ORemC i r c v => ORemC (n + i) r c v
  end.

Lemma nth_error_shift : forall {A} (p l : list A) i, nth_error (p ++ l) (length p + i) = nth_error l i.
Proof. intros. rewrite nth_error_app2 by lia. f_equal. lia. Qed.
Lemma list_upd_shift : forall {A} (p l : list A) i x, list_upd (length p + i) x (p ++ l) = p ++ list_upd i x l.
Proof. induction p as [|y p IH]; intros l i x; cbn; auto. now rewrite IH. Qed.

Lemma h_step_shift : forall p hp objs op, h_step (hp, p ++ objs) (shift (length p) op) = (fst (h_step (hp, objs) op), p ++ snd (h_step (hp, objs) op)).
Proof.
  intros p hp objs op. destruct op; cbn [shift h_step].
  - destruct (h_new hp box_size) as [a hp']. cbn. now rewrite app_assoc.
  - rewrite nth_error_shift. destruct (nth_error objs i); auto. destruct (h_copy hp n include_candidates) as [[b hp']|]; cbn; auto. now rewrite app_assoc.
  - rewrite nth_error_shift. destruct (nth_error objs i); auto. destruct (h_setitem _ _ _ _ _); auto.
  - rewrite nth_error_shift. destruct (nth_error objs i); auto. destruct (h_set_candidates _ _ _ _ _); auto.
  - rewrite nth_error_shift. destruct (nth_error objs i); auto. destruct (h_remove_candidates _ _ _ _ _); auto.
Qed.
Lemma v_step_shift : forall p l op, v_step (p ++ l) (shift (length p) op) = p ++ v_step l op.
Proof.
  intros p l op. destruct op; cbn [shift v_step].
  - now rewrite app_assoc.
  - rewrite nth_error_shift. destruct (nth_error l i); auto. destruct (copy s include_candidates); auto. now rewrite app_assoc.
  - rewrite nth_error_shift. destruct (nth_error l i); auto. destruct (setitem _ _ _ _); cbn [v_update]; auto using list_upd_shift.
  - rewrite nth_error_shift. destruct (nth_error l i); auto. destruct (set_candidates _ _ _ _); cbn [v_update]; auto using list_upd_shift.
  - rewrite nth_error_shift. destruct (nth_error l i); auto. destruct (remove_candidates _ _ _ _); cbn [v_update]; auto using list_upd_shift.
Qed.

(** What the consumer does leaves the private objects alone. *)
Lemma frame_run : forall pr pv ops hp objs l, length pr = length pv -> hsim (hp, pr ++ objs) (pv ++ l) ->
  hsim (fst (fold_left h_step ops (hp, objs)), pr ++ snd (fold_left h_step ops (hp, objs))) (pv ++ fold_left v_step ops l).
Proof.
  intros pr pv. induction ops as [|op ops IH]; intros hp objs l L H; cbn [fold_left]; auto.
  pose proof (sim_step _ _ (shift (length pr) op) H) as S. rewrite h_step_shift, L, v_step_shift in S.
  destruct (h_step (hp, objs) op) as [hp' objs']. apply IH; auto.
Qed.

Lemma hsim_nodup : forall hp refs vals, hsim (hp, refs) vals -> NoDup refs.
Proof.
  intros hp refs vals [os [[I1 I2] [E1 E2]]]. cbn [fst snd] in *. subst refs. clear E2.
  induction os as [|o os IH]; cbn; [constructor|]. cbn in I2. apply NoDup_app_iff in I2. destruct I2 as [N1 [N2 N3]].
  constructor; [|apply IH; auto; intros x Hx; apply I1; right; auto].
  intros X. apply in_map_iff in X. destruct X as [o' [E Ho']].
  assert (Hr : forall x, In x (o :: os) -> In (o_ref x) (o_fp x)).
  { intros x Hx. destruct (I1 x Hx) as [na [ca [nrs [crs [F _]]]]]. rewrite F. left. auto. }
  apply (N3 (o_ref o)); [apply Hr; left; auto|]. apply in_concat. exists (o_fp o'). split; [apply in_map; auto|].
  rewrite <- E. apply Hr. right; auto.
Qed.

Lemma app_inj_len : forall {A} (a b c d : list A), length a = length b -> a ++ c = b ++ d -> c = d.
Proof. induction a as [|x a IH]; intros [|y b] c d L E; cbn in *; try discriminate; auto. injection E as _ E. apply (IH b); auto. Qed.

Lemma hsim_drop : forall pr pv hp refs vals, length pr = length pv -> hsim (hp, pr ++ refs) (pv ++ vals) -> map (h_contents hp) refs = map Some vals /\ NoDup refs.
Proof.
  intros pr pv hp refs vals L H. split.
  - apply hsim_contents in H. rewrite !map_app in H. eapply app_inj_len; [|exact H]. now rewrite !map_length.
  - apply hsim_nodup in H. apply NoDup_app_iff in H. tauto.
Qed.

Lemma consume_rel : forall plan vg hg hp refs vals pr pv,
  length pr = length pv -> hsim (hp, pr ++ refs) (pv ++ vals) -> orel refs vals vg hg ->
  let (ys, st) := h_consume plan hg (hp, refs) in
  ys = map Some (firstn (length plan) (gyields vg tt)) /\
  map (h_contents (fst st)) (snd st) = map Some (v_consume plan (gyields vg tt) vals) /\ NoDup (snd st).
Proof.
  induction plan as [|ops plan IH]; intros vg hg hp refs vals pr pv L H O.
  - cbn. split; auto. eapply hsim_drop; eauto.
  - destruct vg as [r|a k|e], hg as [hp'|[c hp'] k'|e']; cbn [orel] in O; try contradiction.
    + cbn. split; auto. destruct O as [pr' [pv' [O1 O2]]]. eapply hsim_drop; eauto.
    + destruct O as [pr' [pv' [L' [O1 O2]]]]. cbn [h_consume snd].
      pose proof (frame_run pr' pv' ops hp' (refs ++ [c]) (vals ++ [a]) L' O1) as F.
      destruct (fold_left h_step ops (hp', refs ++ [c])) as [hp2 objs2] eqn:E. cbn [fst snd] in *.
      specialize (IH (k tt) (k' hp2) hp2 objs2 _ pr' pv' L' F (O2 _ _ _ F)).
      destruct (h_consume plan (k' hp2) (hp2, objs2)) as [ys st]. destruct IH as [I1 [I2 I3]].
      cbn [gyields length firstn map v_consume]. splits; auto. f_equal; auto.
      apply hsim_contents in O1. rewrite !map_app in O1. cbn [map] in O1. rewrite !app_assoc in O1. apply app_inj_tail in O1. tauto.
    + cbn. split; auto. eapply hsim_drop; eauto.
Qed.

Lemma nth_same : forall {A B} (l : list A) (m : list B) i x, length l = length m -> nth_error m i = Some x -> exists y, nth_error l i = Some y.
Proof. intros A B l m i x L H. destruct (nth_error l i) eqn:E; eauto. apply nth_error_None in E. assert (i < length m)%nat by (apply nth_error_Some; congruence). lia. Qed.

Lemma run_search : forall (vg : sudoku -> gen unit sudoku unit) (hg : heap -> nat -> gen heap (nat * heap) heap) ops i s plan r,
  (forall i r s hp refs vals, hsim (hp, refs) vals -> nth_error refs i = Some r -> nth_error vals i = Some s -> orel refs vals (vg s) (hg hp r)) ->
  content (h_run ops) i = Some s -> nth_error (snd (h_run ops)) i = Some r ->
  let (ys, st) := h_consume plan (hg (fst (h_run ops)) r) (h_run ops) in
  ys = map Some (firstn (length plan) (gyields (vg s) tt)) /\
  map (h_contents (fst st)) (snd st) = map Some (v_consume plan (gyields (vg s) tt) (v_run ops)) /\ NoDup (snd st).
Proof.
  intros vg hg ops i s plan r F C Hr. rewrite content_values in C. pose proof (h_run_sim ops) as H. destruct (h_run ops) as [hp refs]. cbn [fst snd] in *.
  apply (consume_rel plan (vg s) _ hp refs (v_run ops) [] []); auto. eapply F; eauto.
Qed.

Lemma collect_all : forall n sols l, v_consume (repeat [] n) sols l = l ++ firstn n sols.
Proof.
  induction n as [|n IH]; intros [|s sols] l; cbn [repeat v_consume firstn fold_left]; rewrite ?app_nil_r; auto.
  rewrite IH, <- app_assoc. reflexivity.
Qed.
