(** Lemmas for C133: bruteforce with arbitrary objects. *)
From Verif Require Export LObjects LBrute.

Local Opaque MSudoku.surrounding_of.

(** * Two generators in step *)
Fixpoint gsim {A B R R'} (Q : A -> B -> Prop) (P : R -> R' -> Prop) (g : gen unit A R) (g' : gen unit B R') : Prop :=
  match g, g' with
  | Ret r, Ret r' => P r r'
  | Yield a k, Yield b k' => Q a b /\ gsim Q P (k tt) (k' tt)
  | Raise e, Raise e' => e = e'
  | _, _ => False
  end.
Lemma gsim_bind : forall {A B R R' T T'} (Q : A -> B -> Prop) (P : R -> R' -> Prop) (P' : T -> T' -> Prop) g g' f f',
  gsim Q P g g' -> (forall r r', P r r' -> gsim Q P' (f r) (f' r')) -> gsim Q P' (gbind g f) (gbind g' f').
Proof.
  intros A B R R' T T' Q P P' g; induction g as [r|a k IH|e]; intros [r'|b k'|e'] f f' G H; cbn [gsim gbind] in *; try contradiction; auto.
  destruct G as [G1 G2]. split; auto.
Qed.
Lemma gsim_for : forall {A B S S' X} (Q : A -> B -> Prop) (I : S -> S' -> Prop) (f : S -> X -> gen unit A S) f' l s s',
  I s s' -> (forall s s' x, In x l -> I s s' -> gsim Q I (f s x) (f' s' x)) -> gsim Q I (gfor f l s) (gfor f' l s').
Proof.
  intros A B S S' X Q I f f' l; induction l as [|x l IH]; intros s s' H F; cbn [gfor]; [exact H|].
  eapply gsim_bind; [apply F; [left; auto|exact H]|]. intros r r' H'. apply IH; auto. intros; apply F; auto. right; auto.
Qed.
Lemma gsim_end : forall {A B R R'} (Q : A -> B -> Prop) (P : R -> R' -> Prop) g g' r', gsim Q P g g' -> gresult g' tt = Ok r' ->
  (exists r, gresult g tt = Ok r /\ P r r') /\ Forall2 Q (gyields g tt) (gyields g' tt).
Proof.
  intros A B R R' Q P g; induction g as [r|a k IH|e]; intros [r0|b k'|e'] r' G E; cbn [gsim gresult gyields] in *; try contradiction; try discriminate.
  - injection E as ->. split; eauto.
  - destruct G as [G1 G2]. destruct (IH tt (k' tt) r' G2 E) as [H1 H2]. split; auto.
Qed.
Lemma gsim_forgen : forall {A B C D R R'} (Q : A -> B -> Prop) (P : R -> R' -> Prop) (Q' : C -> D -> Prop)
    (body : unit * unit -> A -> gen unit C (unit * unit)) (body' : unit * unit -> B -> gen unit D (unit * unit)) g g' st,
  gsim Q P g g' -> (forall a b st, Q a b -> gsim Q' (fun _ _ => True) (body st a) (body' st b)) ->
  gsim Q' (fun _ _ => True) (gforgen body g st) (gforgen body' g' st).
Proof.
  intros A B C D R R' Q P Q' body body' g; induction g as [r|a k IH|e]; intros [r'|b k'|e'] st G H; cbn [gsim gforgen] in *; try contradiction; auto.
  destruct G as [G1 G2]. eapply gsim_bind; [apply H; exact G1|]. intros [[] []] [[] []] _. cbn [fst]. apply IH; auto.
Qed.

(** * The candidates at the start *)
Lemma stands_num : forall O s t x y, stands O s t -> wf x -> wf y -> box_size x = box_size s -> box_size y = box_size t ->
  (forall p, field s p -> num x p = num s p) -> (forall p, field t p -> num y p = num t p) -> stands O x y.
Proof.
  intros O s t x y H Wx Wy Bx By Nx Ny. pose proof H as [W [Wt [B [T [E K]]]]].
  pose proof Bx as Bx'. unfold box_size in Bx'. injection Bx' as Ew Eh.
  assert (Fs : forall p, field x p <-> field s p) by (intros; unfold field; rewrite Ew, Eh; tauto).
  assert (Ft : forall p, field s p -> field t p) by (intros; apply (stands_field O s t); auto).
  split; auto. split; auto. split; [congruence|]. rewrite Ew, Eh. split; [|split].
  - intros p Fp. apply Fs in Fp. rewrite Nx, Ny by auto. auto.
  - intros p q Fp Fq. apply Fs in Fp, Fq. rewrite !Nx, !Ny by auto. auto.
  - intros p Fp. apply Fs in Fp. rewrite Nx, Ny by auto. auto.
Qed.

Lemma init_o_ok : forall O s t, stands O s t -> exists x, init_candidates_o O s = Ok x /\ wf x /\
  box_width x = box_width s /\ box_height x = box_height s /\ (forall p, num x p = num s p) /\
  (forall p, field s p -> num t p = 0 -> cand x p = pcalc t p).
Proof.
  intros O s t H. pose proof H as [W [Wt [B [T [E K]]]]]. unfold init_candidates_o.
  match goal with |- context [foldM ?f ?l ?a] =>
    destruct (foldM_ind f (fun pre x => wf x /\ box_width x = box_width s /\ box_height x = box_height s /\
      (forall p, num x p = num s p) /\ (forall p, field s p -> In p pre -> num t p = 0 -> cand x p = pcalc t p)) l a)
      as [x [Ex [Wx [Ew [Eh [Hn Hc]]]]]] end.
  - splits; auto. intros p _ [].
  - intros pre [r c] post x Hl [Wx [Ew [Eh [Hn Hc]]]].
    assert (F : field s (r, c)) by (apply in_coords; rewrite Hl; apply in_or_app; simpl; auto).
    assert (Fx : field x (r, c)) by (unfold field; rewrite Ew, Eh; auto).
    assert (Hx : stands O x t) by (apply (stands_num O s t); auto; unfold box_size; congruence).
    assert (Ft : field t (r, c)) by (apply (stands_field O s t); auto).
    cbn [fst snd]. rewrite (C133_candidates_proof O x t r c (pcalc t (r, c))) by (auto; apply calc_candidates_ok; auto).
    cbn [rbind]. rewrite Hn, (T _ F).
    assert (G : exists l, match (if negb (num t (r, c) =? 0) then inl (num s (r, c)) else inr (pcalc t (r, c))) with
                          | inl v => let* k := okey O v in Ok (match k with Some n => [n] | None => [] end)
                          | inr l => Ok l
                          end = Ok l /\ (num t (r, c) = 0 -> l = pcalc t (r, c))).
    { destruct (num t (r, c) =? 0) eqn:Z; cbn [negb].
      - eexists; split; [reflexivity|auto].
      - apply Z.eqb_neq in Z. destruct (K _ F) as [K0|[K0 _]]; rewrite K0; cbn [rbind]; eexists; (split; [reflexivity|tauto]). }
    destruct G as [l [-> Hl']]. cbn [rbind]. rewrite set_candidates_ok by auto. eexists; split; [reflexivity|].
    assert (Zl : zsset (sof_list zcmp l)) by (apply (sof_list_sset _ zcmp_good)).
    split; [apply pcset_wf; auto|]. split; auto. split; auto. split; auto.
    intros p Fp Hp Z. rewrite cand_pcset by (auto; unfold field; rewrite Ew, Eh; auto).
    destruct (coord_eqb p (r, c)) eqn:Ep.
    + apply coord_eqb_eq in Ep. subst p. rewrite Hl' by auto. apply (sof_list_id _ zcmp_good), pcalc_sset.
    + apply in_app_or in Hp. destruct Hp as [Hp|[<-|[]]]; auto. rewrite coord_eqb_refl in Ep. discriminate.
  - exists x. splits; auto. intros p Fp. apply Hc; auto. apply in_coords; auto.
Qed.

Lemma has_conflict_o_eq : forall O s t, stands O s t -> has_conflict_o O s = has_conflict t.
Proof.
  intros O s t H. pose proof H as [W [Wt [B [T [E K]]]]]. pose proof (stands_dims O s t H) as [Ew Eh].
  unfold has_conflict_o, has_conflict. rewrite (stands_coords O s t H).
  rewrite (anyM_ok _ (fun p => if negb (num t p =? 0) then existsb (fun q => num t q =? num t p) (sur s p) else false)).
  2:{ intros [r c] Hp. apply in_coords in Hp. cbn [fst snd]. rewrite getitem_ok by auto. cbn [rbind]. rewrite (T _ Hp).
      destruct (num t (r, c) =? 0) eqn:Z; cbn [negb]; auto. rewrite surrounding_ok by auto. cbn [rbind].
      apply anyM_ok. intros [i j] Hq. apply in_sur in Hq; auto. cbn [fst snd]. rewrite getitem_ok by tauto. cbn [rbind].
      rewrite E; auto; [tauto|]. rewrite (T _ Hp), Z. auto. }
  symmetry. apply anyM_ok. intros [r c] Hp. apply in_coords in Hp. assert (Ft : field t (r, c)) by (apply (stands_field O s t); auto).
  cbn [fst snd]. rewrite getitem_ok by auto. cbn [rbind]. destruct (num t (r, c) =? 0); cbn [negb]; auto.
  rewrite surrounding_ok by auto. cbn [rbind]. rewrite (sur_dims t s) by auto.
  apply anyM_ok. intros [i j] Hq. apply in_sur in Hq; auto. cbn [fst snd]. rewrite getitem_ok by (auto; apply (stands_field O s t); tauto). auto.
Qed.

Section Brute.
Variable O : objects.
Variable ord : zset -> list Z.
Hypothesis Ord : forall l, Permutation (ord l) l.
Hypothesis Ints : forall n, truth O (oint O n) = negb (n =? 0).
Variables s t : sudoku.
Hypothesis St : stands O s t.

Let W : wf s := proj1 St.
Let Wt : wf t := proj1 (proj2 St).

(** The working sudokus. *)
Definition dims (x : sudoku) : Prop := wf x /\ box_width x = box_width s /\ box_height x = box_height s.
Lemma dims_field : forall x p, dims x -> (field x p <-> field s p).
Proof. intros x p [_ [E1 E2]]. unfold field. rewrite E1, E2. tauto. Qed.
Lemma dims_coords : forall x, dims x -> coords x = coords s.
Proof. intros x [_ [E1 E2]]. unfold coords, indices. rewrite E1, E2. auto. Qed.

Record twin (x y : sudoku) : Prop := {
  tw_x : dims x;
  tw_y : dims y;
  tw_given : forall p, field s p -> num t p <> 0 -> num y p = num t p /\ num x p = num s p;
  tw_other : forall p, field s p -> num t p = 0 ->
     (num y p = 0 /\ truth O (num x p) = false) \/ (num y p <> 0 /\ num x p = oint O (num y p));
  tw_cand : forall p, field s p -> num y p = 0 -> cand x p = cand y p;
  tw_pos : forall p n, field s p -> num y p = 0 -> In n (cand y p) -> n <> 0
}.

Lemma twin_truth : forall x y p, twin x y -> field s p -> truth O (num x p) = negb (num y p =? 0).
Proof.
  intros x y p T Fp. pose proof (proj1 (proj2 (proj2 (proj2 St))) p Fp) as Tr.
  destruct (Z.eq_dec (num t p) 0) as [Z|Z].
  - destruct (tw_other _ _ T p Fp Z) as [[A B]|[A B]].
    + rewrite A, B. reflexivity.
    + rewrite B. apply Ints.
  - destruct (tw_given _ _ T p Fp Z) as [A B]. rewrite A, B, Tr. reflexivity.
Qed.

Lemma twin_empty : forall x y, twin x y ->
  glist (empty_o O x) x = Ok (filter (fun p => num y p =? 0) (coords s)) /\
  glist (empty y) y = Ok (filter (fun p => num y p =? 0) (coords s)).
Proof.
  intros x y T. destruct (tw_x _ _ T) as [Wx Dx]. destruct (tw_y _ _ T) as [Wy Dy]. split.
  - rewrite empty_o_list by auto. rewrite (dims_coords x (tw_x _ _ T)). f_equal. apply filter_ext_in.
    intros p Hp. apply in_coords in Hp. rewrite (twin_truth x y p T Hp), negb_involutive. auto.
  - rewrite glist_empty by auto. rewrite (dims_coords y (tw_y _ _ T)). auto.
Qed.

Lemma sort_same : forall x y l, dims x -> dims y -> (forall q, In q l -> field s q /\ cand x q = cand y q) ->
  sort_by_len x l = sort_by_len y l.
Proof.
  intros x y l Dx Dy H. unfold sort_by_len. pose proof Dx as [Wx _]. pose proof Dy as [Wy _].
  rewrite (mapM_ok _ (fun rc => (py_len (cand x rc), rc))).
  2:{ intros [i j] Hq. cbn [fst snd]. rewrite get_candidates_ok; auto. apply dims_field; auto. apply H; auto. }
  rewrite (mapM_ok (fun rc => let* c := get_candidates y (fst rc) (snd rc) in Ok (py_len c, rc)) (fun rc => (py_len (cand x rc), rc))).
  2:{ intros [i j] Hq. cbn [fst snd]. destruct (H _ Hq) as [F E]. rewrite get_candidates_ok; auto; [|apply dims_field; auto].
      cbn [rbind]. rewrite E. auto. }
  reflexivity.
Qed.

(** The saved candidates; [E]: the fields that were empty. *)
Definition saved_ok (E : coord -> Prop) (a b : coord * zset) : Prop :=
  fst a = fst b /\ field s (fst a) /\ zsset (snd a) /\ zsset (snd b) /\
  (E (fst a) -> snd a = snd b /\ forall n, In n (snd b) -> n <> 0).

Lemma dset_saved : forall E k c c' l l', Forall2 (saved_ok E) l l' -> saved_ok E (k, c) (k, c') ->
  Forall2 (saved_ok E) (dset coord_eqb l k c) (dset coord_eqb l' k c').
Proof.
  intros E k c c' l l' H K; induction H as [|[a v] [b v'] l l' A H IH]; cbn [dset]; auto.
  pose proof A as [A1 _]. cbn [fst] in A1. subst b. destruct (coord_eqb k a) eqn:Ek; auto.
  constructor; auto. apply coord_eqb_eq in Ek. subst a. exact K.
Qed.
Lemma dset_keys : forall k c p (l : list (coord * zset)), In p (map fst l) -> In p (map fst (dset coord_eqb l k c)).
Proof.
  intros k c p l; induction l as [|[a v] l IH]; cbn [dset map In fst]; auto.
  intros [<-|H].
  - destruct (coord_eqb k a); cbn [map In fst]; auto.
  - destruct (coord_eqb k a); cbn [map In fst]; auto.
Qed.

Definition alike (E : coord -> Prop) (x y : sudoku) : Prop :=
  forall p, field s p -> E p -> cand x p = cand y p /\ forall n, In n (cand y p) -> n <> 0.

Lemma save_ok : forall (E : coord -> Prop) n l x y a b, dims x -> dims y -> (forall p, In p l -> field s p) ->
  alike E x y -> Forall2 (saved_ok E) a b ->
  let f := fun '(saved, s) ij =>
           let* c := get_candidates s (fst ij) (snd ij) in
           let saved := dset coord_eqb saved ij c in
           let* s := remove_candidates s (fst ij) (snd ij) [n] in
           Ok (saved, s) in
  exists a' b' x' y', foldM f l (a, x) = Ok (a', x') /\ foldM f l (b, y) = Ok (b', y') /\
    dims x' /\ dims y' /\ (forall p, num x' p = num x p) /\ (forall p, num y' p = num y p) /\ alike E x' y' /\
    Forall2 (saved_ok E) a' b' /\ (forall p, In p (map fst a) -> In p (map fst a')).
Proof.
  intros E n l; induction l as [|[i j] l IH]; intros x y a b Dx Dy Hl A F f; cbn [foldM].
  - exists a, b, x, y. splits; auto.
  - pose proof Dx as [Wx [Ex Gx]]. pose proof Dy as [Wy [Ey Gy]].
    assert (Fp : field s (i, j)) by (apply Hl; left; auto).
    assert (Fx : field x (i, j)) by (apply dims_field; auto). assert (Fy : field y (i, j)) by (apply dims_field; auto).
    set (x1 := pcset x (i, j) (sdiff zcmp (cand x (i, j)) (sof_list zcmp [n]))).
    set (y1 := pcset y (i, j) (sdiff zcmp (cand y (i, j)) (sof_list zcmp [n]))).
    assert (Zx : zsset (sdiff zcmp (cand x (i, j)) (sof_list zcmp [n]))) by (apply sdiff_zsset; apply cand_sset; auto).
    assert (Zy : zsset (sdiff zcmp (cand y (i, j)) (sof_list zcmp [n]))) by (apply sdiff_zsset; apply cand_sset; auto).
    assert (D1 : dims x1) by (split; [apply pcset_wf; auto|auto]).
    assert (D2 : dims y1) by (split; [apply pcset_wf; auto|auto]).
    assert (S1 : f (a, x) (i, j) = Ok (dset coord_eqb a (i, j) (cand x (i, j)), x1)).
    { unfold f. cbn [fst snd]. rewrite get_candidates_ok by auto. cbn [rbind]. rewrite remove_candidates_ok by auto. reflexivity. }
    assert (S2 : f (b, y) (i, j) = Ok (dset coord_eqb b (i, j) (cand y (i, j)), y1)).
    { unfold f. cbn [fst snd]. rewrite get_candidates_ok by auto. cbn [rbind]. rewrite remove_candidates_ok by auto. reflexivity. }
    rewrite S1, S2. cbn [rbind].
    destruct (IH x1 y1 (dset coord_eqb a (i, j) (cand x (i, j))) (dset coord_eqb b (i, j) (cand y (i, j)))) as
      [a' [b' [x' [y' [H1 [H2 [H3 [H4 [H5 [H6 [H7 [H8 H9]]]]]]]]]]]]; auto.
    + intros p Hp. apply Hl. right; auto.
    + intros p Fp' Ep. destruct (A p Fp' Ep) as [A1 A2].
      assert (Fpx : field x p) by (apply dims_field; auto). assert (Fpy : field y p) by (apply dims_field; auto).
      unfold x1, y1. rewrite !cand_pcset by auto. destruct (coord_eqb p (i, j)) eqn:Ek; auto.
      apply coord_eqb_eq in Ek. subst p. rewrite A1. split; auto. intros m Hm. apply (In_sdiff _ zcmp_good) in Hm. apply A2; tauto.
    + apply dset_saved; auto. split; [reflexivity|]. cbn [fst snd]. split; auto. split; [apply cand_sset; auto|].
      split; [apply cand_sset; auto|]. intros Ep. apply A; auto.
    + exists a', b', x', y'. splits; auto. intros p Hp. apply H9. apply dset_keys; auto.
Qed.

Lemma restore_ok : forall (E : coord -> Prop) l l', Forall2 (saved_ok E) l l' -> forall x y, dims x -> dims y ->
  exists x' y', restore x l = Ok x' /\ restore y l' = Ok y' /\ dims x' /\ dims y' /\
    (forall p, num x' p = num x p) /\ (forall p, num y' p = num y p) /\
    (forall p, field s p -> E p -> In p (map fst l) \/ (cand x p = cand y p /\ forall n, In n (cand y p) -> n <> 0) ->
       cand x' p = cand y' p /\ forall n, In n (cand y' p) -> n <> 0).
Proof.
  intros E l l' H; induction H as [|[k c] [k' c'] l l' A H IH]; intros x y Dx Dy.
  - exists x, y. splits; auto. intros p Fp Ep [X|X]; [destruct X|auto].
  - pose proof A as [A1 [A2 [A3 [A4 A5]]]]. cbn [fst snd] in *. subst k'. destruct k as [i j].
    pose proof Dx as [Wx [Ex Gx]]. pose proof Dy as [Wy [Ey Gy]].
    assert (Fx : field x (i, j)) by (apply dims_field; auto). assert (Fy : field y (i, j)) by (apply dims_field; auto).
    unfold restore. cbn [foldM fst snd]. rewrite !set_candidates_ok by auto. cbn [rbind].
    rewrite (sof_list_id _ zcmp_good c), (sof_list_id _ zcmp_good c') by auto.
    assert (D1 : dims (pcset x (i, j) c)) by (split; [apply pcset_wf; auto|auto]).
    assert (D2 : dims (pcset y (i, j) c')) by (split; [apply pcset_wf; auto|auto]).
    destruct (IH _ _ D1 D2) as [x' [y' [H1 [H2 [H3 [H4 [H5 [H6 H7]]]]]]]]. unfold restore in H1, H2.
    exists x', y'. splits; auto. intros p Fp Ep X. apply H7; auto.
    destruct (coord_eq_dec p (i, j)) as [->|D].
    + right. rewrite !cand_pcset, coord_eqb_refl by auto. auto.
    + cbn [map In fst] in X. destruct X as [[X|X]|X]; [congruence|left; auto|right].
      rewrite !cand_pcset by (auto; apply dims_field; auto). rewrite (proj2 (coord_eqb_neq _ _) D). auto.
Qed.

Lemma do_bruteforce_sim : forall fuel x y, twin x y ->
  gsim (fun a b => twin a b /\ forall p, field s p -> num b p <> 0)
       (fun r r' => twin r r' /\ forall p, field s p -> num r' p = num y p)
       (do_bruteforce_o O fuel ord x) (do_bruteforce fuel (fun _ => ord) y).
Proof.
  intros fuel; induction fuel as [|fuel IH]; intros x y T; cbn [do_bruteforce_o do_bruteforce]; [reflexivity|].
  destruct (twin_empty x y T) as [E1 E2]. rewrite E1, E2. cbn [lift gbind].
  pose proof (tw_x _ _ T) as Dx. pose proof (tw_y _ _ T) as Dy. pose proof Dx as [Wx [Ex Gx]]. pose proof Dy as [Wy [Ey Gy]].
  set (l := filter (fun p => num y p =? 0) (coords s)).
  assert (Hl : forall q, In q l <-> field s q /\ num y q = 0).
  { intros q. unfold l. rewrite filter_In, in_coords, Z.eqb_eq. tauto. }
  rewrite (sort_same x y l Dx Dy).
  2:{ intros q Hq. apply Hl in Hq. split; [tauto|]. apply (tw_cand _ _ T); tauto. }
  destruct (sort_by_len_ok y l Wy) as [m [Em Pm]].
  { intros q Hq. apply Hl in Hq. apply dims_field; tauto. }
  rewrite Em. cbn [lift gbind]. destruct m as [|[r c] m].
  - cbn [yield gbind gsim]. split; [split; auto|split; auto].
    intros p Fp Z. apply Permutation_nil in Pm. assert (X : In p l) by (apply Hl; auto). rewrite Pm in X. destruct X.
  - assert (Hrc : field s (r, c) /\ num y (r, c) = 0).
    { apply Hl. eapply Permutation_in; [exact Pm|left; auto]. }
    destruct Hrc as [Fs Z0]. assert (Fx : field x (r, c)) by (apply dims_field; auto). assert (Fy : field y (r, c)) by (apply dims_field; auto).
    rewrite !get_candidates_ok by auto. cbn [lift gbind]. rewrite (tw_cand _ _ T _ Fs Z0).
    assert (Gt : num t (r, c) = 0).
    { destruct (Z.eq_dec (num t (r, c)) 0) as [Z|Z]; auto. destruct (tw_given _ _ T _ Fs Z). congruence. }
    apply gsim_for with (I := fun r0 r' => twin r0 r' /\ forall p, field s p -> num r' p = num y p); [split; auto|].
    intros x0 y0 n Hn [T0 Num].
    assert (Pn : n <> 0).
    { apply (tw_pos _ _ T _ n Fs Z0). eapply Permutation_in; [apply Ord|exact Hn]. }
    clear x Dx Wx Ex Gx E1 Fx T E2 Em Hn. pose proof (tw_x _ _ T0) as Dx. pose proof (tw_y _ _ T0) as Dy0.
    pose proof Dx as [Wx [Ex Gx]]. pose proof Dy0 as [Wy0 [Ey0 Gy0]].
    assert (Fx : field x0 (r, c)) by (apply dims_field; auto). assert (Fy0 : field y0 (r, c)) by (apply dims_field; auto).
    rewrite !setitem_ok by auto. cbn [lift gbind].
    set (x1 := pset x0 (r, c) (oint O n)). set (y1 := pset y0 (r, c) n).
    assert (D1 : dims x1) by (split; [apply pset_wf; auto|auto]).
    assert (D2 : dims y1) by (split; [apply pset_wf; auto|auto]).
    pose proof D1 as [W1 [Ew1 Eh1]]. pose proof D2 as [W2 [Ew2 Eh2]].
    assert (F1 : field x1 (r, c)) by (apply dims_field; auto). assert (F2 : field y1 (r, c)) by (apply dims_field; auto).
    rewrite !surrounding_ok by auto. cbn [lift gbind]. rewrite (sur_dims x1 s), (sur_dims y1 s) by auto.
    set (Em := fun p => num y0 p = 0).
    destruct (save_ok Em n (sur s (r, c)) x1 y1 [((r, c), cand x1 (r, c))] [((r, c), cand y1 (r, c))] D1 D2) as
      [a [b [x2 [y2 [H1 [H2 [H3 [H4 [H5 [H6 [H7 [H8 H9]]]]]]]]]]]].
    { intros p Hp. apply in_sur in Hp; tauto. }
    { intros p Fp Ep. unfold x1, y1. rewrite !cand_pset. split; [apply (tw_cand _ _ T0); auto|].
      intros k Hk. apply (tw_pos _ _ T0 p k Fp Ep Hk). }
    { constructor; [|constructor]. split; [reflexivity|]. cbn [fst snd]. split; auto.
      split; [apply cand_sset; auto|]. split; [apply cand_sset; auto|].
      intros Ep. unfold x1, y1. rewrite !cand_pset. split; [apply (tw_cand _ _ T0); auto|].
      intros k Hk. apply (tw_pos _ _ T0 _ k Fs Ep Hk). }
    assert (Sx : save_and_remove x1 r c n (sur s (r, c)) = Ok (a, x2)).
    { unfold save_and_remove. rewrite get_candidates_ok by auto. exact H1. }
    assert (Sy : save_and_remove y1 r c n (sur s (r, c)) = Ok (b, y2)).
    { unfold save_and_remove. rewrite get_candidates_ok by auto. exact H2. }
    rewrite Sx, Sy. cbn [lift gbind].
    assert (N1 : forall p, field s p -> num x1 p = if coord_eqb p (r, c) then oint O n else num x0 p).
    { intros p Fp. apply num_pset; auto. apply dims_field; auto. }
    assert (N2 : forall p, field s p -> num y1 p = if coord_eqb p (r, c) then n else num y0 p).
    { intros p Fp. apply num_pset; auto. apply dims_field; auto. }
    assert (T2 : twin x2 y2).
    { constructor; auto.
      - intros p Fp Np. rewrite H5, H6, N1, N2 by auto. destruct (coord_eqb p (r, c)) eqn:Ek.
        + apply coord_eqb_eq in Ek. congruence.
        + apply (tw_given _ _ T0); auto.
      - intros p Fp Np. rewrite H5, H6, N1, N2 by auto. destruct (coord_eqb p (r, c)) eqn:Ek; auto.
        apply (tw_other _ _ T0); auto.
      - intros p Fp Np. rewrite H6, N2 in Np by auto. destruct (coord_eqb p (r, c)); [contradiction|]. apply H7; auto.
      - intros p k Fp Np Hk. rewrite H6, N2 in Np by auto. destruct (coord_eqb p (r, c)); [contradiction|]. apply (H7 p); auto. }
    eapply gsim_bind; [apply (IH x2 y2 T2)|]. intros x3 y3 [T3 Num3].
    destruct (restore_ok Em a b H8 x3 y3 (tw_x _ _ T3) (tw_y _ _ T3)) as [x4 [y4 [R1 [R2 [R3 [R4 [R5 [R6 R7]]]]]]]].
    rewrite R1, R2. cbn [lift gbind]. pose proof R3 as [W4 [Ew4 Eh4]]. pose proof R4 as [V4 [Fw4 Fh4]].
    assert (F4 : field x4 (r, c)) by (apply dims_field; auto). assert (F5 : field y4 (r, c)) by (apply dims_field; auto).
    rewrite !setitem_ok by auto. cbn [lift gsim].
    assert (M1 : forall p, field s p -> num (pset x4 (r, c) (oint O 0)) p = if coord_eqb p (r, c) then oint O 0 else num x3 p).
    { intros p Fp. rewrite num_pset by (auto; apply dims_field; auto). rewrite R5. auto. }
    assert (M2 : forall p, field s p -> num (pset y4 (r, c) 0) p = num y0 p).
    { intros p Fp. rewrite num_pset by (auto; apply dims_field; auto). rewrite R6.
      destruct (coord_eqb p (r, c)) eqn:Ek.
      - apply coord_eqb_eq in Ek. subst p. rewrite Num; auto.
      - rewrite Num3, H6, N2, Ek; auto. }
    assert (Y3 : forall p, field s p -> num y3 p = if coord_eqb p (r, c) then n else num y0 p).
    { intros p Fp. rewrite Num3, H6, N2; auto. }
    assert (Back : forall p, field s p -> num y0 p = 0 -> cand x4 p = cand y4 p /\ forall k, In k (cand y4 p) -> k <> 0).
    { intros p Fp Ep. apply R7; auto. destruct (coord_eq_dec p (r, c)) as [->|D].
      - left. apply H9. left. reflexivity.
      - right. assert (Z3 : num y3 p = 0) by (rewrite Y3, (proj2 (coord_eqb_neq _ _) D) by auto; exact Ep).
        split; [apply (tw_cand _ _ T3); auto|]. intros k Hk. apply (tw_pos _ _ T3 p k Fp Z3 Hk). }
    split; [constructor|].
    + split; [apply pset_wf; auto|auto].
    + split; [apply pset_wf; auto|auto].
    + intros p Fp Np. rewrite M1, M2 by auto. destruct (coord_eqb p (r, c)) eqn:Ek.
      * apply coord_eqb_eq in Ek. congruence.
      * split; [apply (tw_given _ _ T0); auto|apply (tw_given _ _ T3); auto].
    + intros p Fp Np. rewrite M1, M2 by auto. destruct (coord_eqb p (r, c)) eqn:Ek.
      * apply coord_eqb_eq in Ek. subst p. left. rewrite Num by auto. split; auto. apply Ints.
      * pose proof (tw_other _ _ T3 p Fp Np) as X. rewrite Y3, Ek in X by auto. exact X.
    + intros p Fp Np. rewrite M2 in Np by auto. rewrite !cand_pset. apply Back; auto.
    + intros p k Fp Np. rewrite M2 in Np by auto. rewrite cand_pset. apply Back; auto.
    + intros p Fp. rewrite M2 by auto. apply Num; auto.
Qed.
End Brute.

Lemma C133_bruteforce_proof : forall O ord s t, (forall l, Permutation (ord l) l) ->
  (forall n, truth O (oint O n) = negb (n =? 0)) -> stands O s t ->
  gresult (bruteforce_o O ord s) tt = Ok tt /\
  Forall2 (fills_in O s) (gyields (bruteforce_o O ord s) tt) (gyields (bruteforce (fun _ => ord) t) tt).
Proof.
  intros O ord s t Ho Ints H. pose proof H as [W [Wt [B [T [_ K]]]]]. pose proof (stands_dims O s t H) as [Bw Bh].
  destruct (C19_proof (fun _ => ord) t (fun _ => Ho) Wt) as [Er _].
  assert (G : gsim (fills_in O s) (fun _ _ => True) (bruteforce_o O ord s) (bruteforce (fun _ => ord) t)).
  { unfold bruteforce_o, bruteforce. rewrite (has_conflict_o_eq O s t H).
    destruct (has_conflict_ok t Wt) as [b [-> _]]. cbn [lift gbind]. destruct b; [exact I|].
    destruct (copy_ok s false W) as [s1 [Es1 [Ws1 [Ew1 [Eh1 [Hn1 _]]]]]]. rewrite Es1. cbn [lift gbind].
    destruct (copy_ok t false Wt) as [t1 [Et1 [Wt1 [Ewt [Eht [Hnt _]]]]]]. rewrite Et1. cbn [lift gbind].
    pose proof (stands_copy O _ _ _ _ _ _ H Es1 Et1) as H1.
    destruct (init_o_ok O s1 t1 H1) as [x [Ex [Wx [Ewx [Ehx [Hnx Hcx]]]]]]. rewrite Ex. cbn [lift gbind].
    destruct (init_candidates_ok t1 false Wt1) as [y [Ey [Wy [Ewy [Ehy [Hny Hcy]]]]]]. rewrite Ey. cbn [lift gbind].
    rewrite (stands_coords O s t H).
    assert (Fs1 : forall p, field s p -> field s1 p) by (intros p; unfold field; rewrite Ew1, Eh1; auto).
    assert (Ft : forall p, field s p -> field t p) by (intros p; apply (stands_field O s t); auto).
    assert (Ft1 : forall p, field s p -> field t1 p) by (intros p F; unfold field; rewrite Ewt, Eht; apply Ft; auto).
    assert (Tw : twin O s t x y).
    { constructor.
      - split; auto. split; congruence.
      - split; auto. split; congruence.
      - intros p F Z. rewrite Hny, Hnx, Hn1, Hnt by auto. auto.
      - intros p F Z. left. rewrite Hny, Hnx, Hn1, Hnt by auto. split; auto. rewrite T, Z by auto. auto.
      - intros p F Z. rewrite Hny, Hnt in Z by auto. rewrite Hcx, Hcy by (auto; rewrite Hnt; auto). auto.
      - intros p n F Z. rewrite Hny, Hnt in Z by auto. rewrite Hcy by auto. cbn [andb]. intros Hn.
        apply in_pcalc_empty in Hn; auto; [lia|]. rewrite Hnt; auto. }
    eapply gsim_bind with (P := fun _ _ => True).
    - eapply gsim_forgen.
      + apply (do_bruteforce_sim O ord Ho Ints s t H); exact Tw.
      + intros a b st [Tab Full]. destruct (tw_x _ _ _ _ _ Tab) as [Wa [Ewa Eha]]. destruct (tw_y _ _ _ _ _ Tab) as [Wb [Ewb Ehb]].
        destruct (copy_ok a false Wa) as [a1 [Ea1 [Wa1 [Ewa1 [Eha1 [Hna1 _]]]]]]. rewrite Ea1. cbn [lift gbind].
        destruct (copy_ok b false Wb) as [b1 [Eb1 [Wb1 [Ewb1 [Ehb1 [Hnb1 _]]]]]]. rewrite Eb1. cbn [lift gbind yield gsim].
        split; auto. split; auto. split; [unfold box_size; congruence|]. intros p F.
        rewrite Hna1 by (unfold field; rewrite Ewa, Eha; auto). rewrite Hnb1 by (unfold field; rewrite Ewb, Ehb; auto).
        rewrite (T p F). destruct (Z.eq_dec (num t p) 0) as [Z|Z].
        * rewrite Z. cbn [negb Z.eqb]. destruct (tw_other _ _ _ _ _ Tab p F Z) as [[A _]|[_ A]]; auto. exfalso. apply (Full p); auto.
        * rewrite (proj2 (Z.eqb_neq _ _) Z). cbn [negb]. apply (tw_given _ _ _ _ _ Tab); auto.
    - intros _ _ _. exact I. }
  destruct (gsim_end _ _ _ _ _ G Er) as [[[] [Hr _]] HF]. auto.
Qed.

(** * An object that is not hashable *)
Lemma foldM_fails : forall {A S} (f : S -> A -> res S) (P : S -> Prop) e l p acc, In p l -> P acc ->
  (forall acc x, In x l -> P acc -> f acc x = Err e \/ exists acc', f acc x = Ok acc' /\ P acc') ->
  (forall acc, P acc -> f acc p = Err e) -> foldM f l acc = Err e.
Proof.
  intros A S f P e l p; induction l as [|x l IH]; intros acc Hp Pa H He; [destruct Hp|]. cbn [foldM].
  destruct (H acc x) as [E|[acc' [E Pa']]]; [left; auto|auto|rewrite E; auto|].
  destruct Hp as [<-|Hp].
  - rewrite He by auto. auto.
  - rewrite E. cbn [rbind]. apply IH; auto. intros; apply H; auto. right; auto.
Qed.
Lemma foldM_either : forall {A S} (f : S -> A -> res S) e l acc,
  (forall acc x, In x l -> f acc x = Err e \/ exists acc', f acc x = Ok acc') -> foldM f l acc = Err e \/ exists acc', foldM f l acc = Ok acc'.
Proof.
  intros A S f e l; induction l as [|x l IH]; intros acc H; cbn [foldM]; [right; eauto|].
  destruct (H acc x) as [E|[acc' E]]; [left; auto|rewrite E; auto|rewrite E; cbn [rbind]]. apply IH. intros; apply H; right; auto.
Qed.

Lemma C133_bruteforce_unhashable_proof : forall O ord s p, wf s ->
  (forall q r, field s q -> field s r -> peers (box_width s) (box_height s) q r -> truth O (num s q) = true -> oeq O (num s r) (num s q) = false) ->
  (forall q e, field s q -> okey O (num s q) = Err e -> e = TypeError) ->
  field s p -> truth O (num s p) = true -> okey O (num s p) = Err TypeError ->
  gyields (bruteforce_o O ord s) tt = [] /\ gresult (bruteforce_o O ord s) tt = Err TypeError.
Proof.
  intros O ord s p W N Te Fp Tp Kp. unfold bruteforce_o.
  assert (HC : has_conflict_o O s = Ok false).
  { unfold has_conflict_o. rewrite (anyM_ok _ (fun _ => false)).
    - f_equal. apply existsb_false_iff. auto.
    - intros [r c] Hq. apply in_coords in Hq. cbn [fst snd]. rewrite getitem_ok by auto. cbn [rbind].
      destruct (truth O (num s (r, c))) eqn:Tq; auto. rewrite surrounding_ok by auto. cbn [rbind].
      rewrite (anyM_ok _ (fun _ => false)); [f_equal; apply existsb_false_iff; auto|].
      intros [i j] Hi. apply in_sur in Hi; auto. cbn [fst snd]. rewrite getitem_ok by tauto. cbn [rbind]. f_equal. apply N; tauto. }
  rewrite HC. cbn [lift gbind]. destruct (copy_ok s false W) as [s1 [E1 [W1 [Ew1 [Eh1 [Hn1 _]]]]]]. rewrite E1. cbn [lift gbind].
  assert (F1 : forall q, field s1 q <-> field s q) by (intros; unfold field; rewrite Ew1, Eh1; tauto).
  assert (EI : init_candidates_o O s1 = Err TypeError).
  { unfold init_candidates_o.
    apply (foldM_fails _ (fun x => wf x /\ box_width x = box_width s /\ box_height x = box_height s /\ forall q, field s q -> num x q = num s q) TypeError (coords s1) p).
    - apply in_coords, F1; auto.
    - splits; auto.
    - intros x [r c] Hq [Wx [Ew [Eh Hn]]]. apply in_coords in Hq. apply F1 in Hq. cbn [fst snd].
      assert (Fx : forall q, field x q <-> field s q) by (intros; unfold field; rewrite Ew, Eh; tauto).
      assert (Fx' : field x (r, c)) by (apply Fx; auto).
      assert (St : forall l, exists x', set_candidates x r c l = Ok x' /\ wf x' /\ box_width x' = box_width s /\ box_height x' = box_height s /\ forall q, field s q -> num x' q = num s q).
      { intros l. rewrite set_candidates_ok by auto. eexists; split; [reflexivity|]. split; [apply pcset_wf; auto; apply (sof_list_sset _ zcmp_good)|]. auto. }
      unfold calc_candidates_o. rewrite getitem_ok by auto. cbn [rbind]. rewrite Hn by auto.
      destruct (truth O (num s (r, c))).
      + destruct (okey O (num s (r, c))) as [k|e] eqn:K; cbn [rbind]; [|left; f_equal; eapply Te; eauto].
        rewrite K. cbn [rbind]. right. apply St.
      + rewrite surrounding_ok by auto. cbn [rbind].
        match goal with |- context [foldM ?f ?l ?a] => destruct (foldM_either f TypeError l a) as [E|[l' E]] end.
        * intros acc [i j] Hi. apply in_sur in Hi; auto. assert (Fi : field s (i, j)) by (apply Fx; tauto).
          cbn [fst snd]. rewrite getitem_ok by tauto. cbn [rbind]. rewrite Hn by auto.
          destruct (okey O (num s (i, j))) as [[k|]|e] eqn:K; cbn [rbind]; [right; eauto|right; eauto|left; f_equal; eapply Te; eauto].
        * rewrite E. left. auto.
        * rewrite E. cbn [rbind]. right. apply St.
    - intros x [Wx [Ew [Eh Hn]]]. destruct p as [r c]. cbn [fst snd].
      assert (Fx' : field x (r, c)) by (unfold field; rewrite Ew, Eh; auto).
      unfold calc_candidates_o. rewrite getitem_ok by auto. cbn [rbind]. rewrite Hn, Tp, Kp by auto. auto. }
  rewrite EI. auto.
Qed.
