(** solve() on sudokus that need not have a solution. *)
From Verif Require Import LSolvers5.

Section Any.
Variables w h : Z.
Hypothesis Hw : 1 <= w.
Hypothesis Hh : 1 <= h.
Variable o : oracle.
Hypothesis Ho : oracle_ok o.

Definition ended (t u : sudoku) : Prop :=
  ok_sudoku w h u /\
  (forall p, cell w h p -> num t p <> 0 -> num u p = num t p) /\
  (forall p, cell w h p -> cand u p <> []) /\
  ((forall f, ~ solution u f) \/ exists f, solution u f /\ forall p, cell w h p -> num u p = f p).

Lemma round_keeps : forall t st u, ok_sudoku w h t -> round_result w h none t st u ->
  ok_sudoku w h u /\ (forall p, cell w h p -> num t p <> 0 -> num u p = num t p).
Proof.
  intros t st u Ot R. pose proof Ot as [W [Ew Eh]].
  inversion R as [st' u' Ns Su C Hn' Hc Hx | cls st' u' Hin Ns Hc St Su C
                     | f st' u' Ns Hc St Sol Ou Hn' Hb C | Hc St Hd]; subst.
  - split; [apply (SInv_ok _ _ _ _ Su)|]. intros; auto.
  - split; [apply (SInv_ok _ _ _ _ Su)|]. intros p Cp Np.
    destruct (DED_deductive cls Hin) as [N1 [N2 _]].
    eapply chain_num; eauto. eapply some_chain; eauto.
  - split; auto. intros p Cp Np. rewrite Hn' by auto.
    destruct Sol as [_ E]. destruct (E p) as [X|X]; auto. congruence.
  - split; auto.
Qed.

Lemma loop_any : forall fuel t, ok_sudoku w h t ->
  solve_loop fuel o t = Err OutOfFuel \/
  exists l u, solve_loop fuel o t = Ok (l, u) /\ ended t u.
Proof.
  induction fuel as [|fuel IH]; intros t Ot; [left; reflexivity|].
  destruct (round_ok w h Hw Hh o Ho none (none_valid w h) t (none_WInv _ _ _ Ot)) as [st [u [E R]]].
  destruct (round_keeps t st u Ot R) as [Ou K].
  cbn [solve_loop]. rewrite E. cbn [rbind]. destruct st as [|x st].
  - right. exists [], u. split; auto.
    inversion R as [st' u' Ns Su C Hn' Hc Hx | cls st' u' Hin Ns Hc St Su C
                     | f st' u' Ns Hc St Sol Ou' Hn' Hb C | Hc St Hd]; subst; try congruence.
    split; [|split; [|split]]; auto.
  - destruct (IH u Ou) as [X|[l [v [X [Ov [Kv [Cv Dv]]]]]]]; rewrite X; cbn [rbind]; [left; auto|].
    right. exists ((x :: st) ++ l), v. split; auto. split; [|split; [|split]]; auto.
    intros p Cp Np. rewrite Kv; auto. rewrite K; auto.
Qed.
End Any.

Lemma C88_proof : forall o s fuel, oracle_ok o -> wf s ->
  solve fuel o s = Err OutOfFuel \/
  exists l u, solve fuel o s = Ok (l, u) /\ like s u /\
    (forall p, field s p -> num s p <> 0 -> num u p = num s p) /\
    (forall p, field s p -> cand u p <> []) /\
    (valid_grid (box_width s) (box_height s) (num u) <-> exists f, solution s f) /\
    ((exists f, solution u f) <-> exists f, solution s f).
Proof.
  intros o s fuel Ho W.
  assert (O : ok_sudoku (box_width s) (box_height s) s) by (apply ok_intro; auto).
  destruct (solve_start (box_width s) (box_height s) o s O)
    as [s0 [[_ E0] [O0 [N0 [D0 W0]]]]]. rewrite E0.
  destruct (loop_any _ _ (wf_w _ W) (wf_h _ W) o Ho fuel s0 O0) as [X|[l [u [X [Ou [K [C D]]]]]]]; [left; auto|].
  right. exists l, u. split; auto. pose proof Ou as [Wu [Ewu Ehu]].
  assert (K' : forall p, field s p -> num s p <> 0 -> num u p = num s p).
  { intros p Fp Np. rewrite <- (N0 p Fp). apply K; auto. rewrite N0; auto. }
  assert (Up : forall f, solution u f -> solution s f).
  { intros f [V Ef]. split; [rewrite <- Ewu, <- Ehu; auto|]. intros p Fp.
    destruct (Z.eq_dec (num s p) 0) as [Z0|Z0]; auto. right.
    assert (Fu : field u p) by (unfold field; rewrite Ewu, Ehu; auto).
    destruct (Ef p Fu) as [Y|Y]; rewrite (K' p Fp Z0) in Y; auto. congruence. }
  assert (Dn : (exists f, solution s f) -> valid_grid (box_width s) (box_height s) (num u)).
  { intros Hs. destruct (C40_proof o s Ho W Hs) as [l' [u' [A1 [_ [_ [_ [A2 _]]]]]]].
    assert (u' = u).
    { specialize (A1 (fuel_bound s + fuel)%nat ltac:(lia)). rewrite E0 in A1.
      assert (M : forall n k t r, solve_loop n o t = Ok r -> solve_loop (k + n) o t = Ok r).
      { clear. induction n as [|n IH]; intros k t r H; [discriminate|].
        replace (k + S n)%nat with (S (k + n)) by lia. cbn [solve_loop] in *.
        destruct (solve_round o SOLVERS t) as [[l1 t1]|]; [|discriminate]. cbn [rbind] in *.
        destruct l1; auto. destruct (solve_loop n o t1) as [[l2 t2]|] eqn:E; [|discriminate].
        rewrite (IH k t1 _ E). auto. }
      rewrite (M fuel (fuel_bound s) s0 _ X) in A1. congruence. }
    subst u'. apply A2. }
  assert (Vs : valid_grid (box_width s) (box_height s) (num u) -> solution u (num u)).
  { intros V. split; [rewrite Ewu, Ehu; auto|]. intros p Fp; auto. }
  split; [apply like_ok; auto|]. split; [exact K'|]. split; [exact C|]. split.
  - split; auto. intros V. exists (num u). apply Up, Vs, V.
  - split; [intros [f Hf]; exists f; auto|]. intros H. exists (num u). apply Vs, Dn, H.
Qed.

(** * Finitely many states *)

Lemma not_NoDup_dup : forall {A} (dec : forall a b : A, {a = b} + {a <> b}) (l : list A), ~ NoDup l ->
  exists a l1 l2 l3, l = l1 ++ a :: l2 ++ a :: l3.
Proof.
  intros A dec l; induction l as [|x l IH]; intros N; [destruct N; constructor|].
  destruct (in_dec dec x l) as [H|H].
  - apply in_split in H. destruct H as [l2 [l3 ->]]. exists x, [], l2, l3. reflexivity.
  - destruct IH as [a [l1 [l2 [l3 ->]]]]; [intros Nd; apply N; constructor; auto|].
    exists a, (x :: l1), l2, l3. reflexivity.
Qed.

Fixpoint words {A} (n : nat) (l : list A) : list (list A) :=
  match n with
  | O => [[]]
  | S n => map (fun p => fst p :: snd p) (list_prod l (words n l))
  end.
Lemma length_words : forall {A} n (l : list A), length (words n l) = (length l ^ n)%nat.
Proof.
  intros A n l; induction n as [|n IH]; cbn [words]; auto.
  rewrite map_length, prod_length, IH. reflexivity.
Qed.
Lemma in_words : forall {A} (l k : list A), (forall x, In x k -> In x l) -> In k (words (length k) l).
Proof.
  intros A l k; induction k as [|x k IH]; intros H; cbn [words length]; [left; auto|].
  apply in_map_iff. exists (x, k). split; auto. apply in_prod; [apply H; left; auto|].
  apply IH. intros; apply H; right; auto.
Qed.

Fixpoint subs {A} (l : list A) : list (list A) :=
  match l with
  | [] => [[]]
  | x :: l => map (cons x) (subs l) ++ subs l
  end.
Lemma length_subs : forall {A} (l : list A), length (subs l) = (2 ^ length l)%nat.
Proof.
  intros A l; induction l as [|x l IH]; cbn [subs length]; auto.
  rewrite app_length, map_length, IH. cbn [Nat.pow]. lia.
Qed.
Lemma in_subs : forall l c, StronglySorted Z.lt l -> StronglySorted Z.lt c ->
  (forall x, In x c -> In x l) -> In c (subs l).
Proof.
  induction l as [|y l IH]; intros c Sl Sc H; cbn [subs].
  - destruct c as [|x c]; [left; auto|]. destruct (H x (or_introl eq_refl)).
  - inversion Sl as [|? ? Sl' Fl]; subst. rewrite Forall_forall in Fl. apply in_app_iff.
    destruct c as [|x c].
    + right. apply IH; auto. intros x [].
    + inversion Sc as [|? ? Sc' Fc]; subst. rewrite Forall_forall in Fc.
      destruct (H x (or_introl eq_refl)) as [->|Hx].
      * left. apply in_map_iff. exists c. split; auto. apply IH; auto.
        intros z Hz. pose proof (Fc z Hz). destruct (H z (or_intror Hz)) as [->|]; auto. lia.
      * right. apply IH; auto. intros z [<-|Hz]; auto.
        pose proof (Fl x Hx). pose proof (Fc z Hz). destruct (H z (or_intror Hz)) as [->|]; auto. lia.
Qed.

(** The numbers that can occur. *)
Definition alphabet (s : sudoku) : list Z := sof_list zcmp (0 :: numbers s ++ map (num s) (coords s)).
Definition state_key (s t : sudoku) : list (Z * zset) := map (fun p => (num t p, cand t p)) (coords s).
Definition lettered (s t : sudoku) : Prop :=
  forall p, field s p -> In (num t p) (alphabet s) /\ forall x, In x (cand t p) -> In x (alphabet s).

Lemma in_alphabet : forall s x, In x (alphabet s) <->
  x = 0 \/ 1 <= x <= box_width s * box_height s \/ exists p, field s p /\ num s p = x.
Proof.
  intros s x. unfold alphabet. rewrite (In_sof_list zcmp zcmp_good). cbn [In].
  rewrite in_app_iff, in_map_iff, in_numbers. unfold NN. split.
  - intros [H|[H|[p [E H]]]]; auto. right; right. exists p. split; auto. apply in_coords; auto.
  - intros [H|[H|[p [H E]]]]; auto. right; right. exists p. split; auto. apply in_coords; auto.
Qed.

Lemma alphabet_length : forall s, (length (alphabet s) <= let n := Z.to_nat (box_width s * box_height s) in n + n * n + 1)%nat.
Proof.
  intros s. cbv zeta. unfold alphabet.
  assert (L : length (0 :: numbers s ++ map (num s) (coords s)) =
     (Z.to_nat (box_width s * box_height s) + Z.to_nat (box_width s * box_height s) * Z.to_nat (box_width s * box_height s) + 1)%nat).
  { cbn [length]. rewrite app_length, map_length, length_coords. unfold numbers, NN. rewrite length_py_range2.
    replace (box_width s * box_height s + 1 - 1) with (box_width s * box_height s) by lia. lia. }
  rewrite <- L. apply (sset_incl_length zcmp zcmp_good).
  - apply (sof_list_sset zcmp zcmp_good).
  - intros x Hx. rewrite (In_sof_list zcmp zcmp_good) in Hx; auto.
Qed.

Lemma alphabet_sorted : forall s, StronglySorted Z.lt (alphabet s).
Proof. intros s. exact (sof_list_sset zcmp zcmp_good _). Qed.

Lemma key_in : forall s t, wf s -> wf t -> box_width t = box_width s -> box_height t = box_height s -> lettered s t ->
  In (state_key s t) (words (length (coords s)) (list_prod (alphabet s) (subs (alphabet s)))).
Proof.
  intros s t W Wt Ew Eh L. unfold state_key.
  rewrite <- (map_length (fun p => (num t p, cand t p))). apply in_words.
  intros x Hx. apply in_map_iff in Hx. destruct Hx as [p [<- Hp]]. apply in_coords in Hp.
  destruct (L p Hp) as [L1 L2]. apply in_prod; auto.
  apply in_subs; auto; [apply alphabet_sorted|]. apply cand_sset; auto.
  unfold field; rewrite Ew, Eh; auto.
Qed.

Lemma keys_bound : forall s,
  (length (words (length (coords s)) (list_prod (alphabet s) (subs (alphabet s)))) <= states_bound s)%nat.
Proof.
  intros s. rewrite length_words, prod_length, length_subs, length_coords. unfold states_bound.
  pose proof (alphabet_length s) as A. cbv zeta in *. change (NN s) with (box_width s * box_height s).
  apply Nat.pow_le_mono_l. apply Nat.mul_le_mono; auto. apply Nat.pow_le_mono_r; auto.
Qed.

Lemma key_inj : forall s t u, wf t -> wf u -> box_width t = box_width s -> box_height t = box_height s ->
  box_width u = box_width s -> box_height u = box_height s ->
  state_key s t = state_key s u -> t = u.
Proof.
  intros s t u Wt Wu E1 E2 E3 E4 K.
  assert (H : forall p, field s p -> (num t p, cand t p) = (num u p, cand u p)).
  { intros p Fp. apply in_coords in Fp. revert Fp. unfold state_key in K.
    generalize dependent (coords s). induction l as [|q l IH]; intros K; [intros []|].
    cbn [map] in K. intros [<-|Hp]; [congruence|]. apply IH; auto. congruence. }
  apply sudoku_ext; auto; try congruence; intros p Fp;
    (assert (Fs : field s p) by (unfold field in *; rewrite E1, E2 in Fp; auto)); specialize (H p Fs); congruence.
Qed.

Section Cycle.
Variable o : oracle.
Hypothesis Ho : oracle_ok o.
Variable s : sudoku.
Hypothesis W : wf s.
Notation w := (box_width s).
Notation h := (box_height s).

(** What holds in every round when [s] has no solution. *)
Definition state_ok (t : sudoku) : Prop :=
  ok_sudoku w h t /\ lettered s t /\ (forall p, field s p -> num s p <> 0 -> num t p = num s p).

Lemma link_lettered : forall cls t st u, deductive cls -> lettered s t -> link w h none cls t st u -> lettered s u.
Proof.
  intros cls t st u [D1 [D2 D3]] L [_ [_ [L1 [_ [L5 [L2 [L3 _]]]]]]] p Fp.
  destruct L3 as [_ [_ [_ L3]]]. unfold effective in L2. rewrite <- L1 in D1, D2.
  assert (Sing : forall q v, In v (alphabet s) -> (forall r, cell w h r -> num u r = if coord_eqb r q then v else num t r) ->
     (forall x, In x (cand u q) <-> x = v) ->
     (forall r x, cell w h r -> r <> q -> (In x (cand u r) <-> In x (cand t r) /\ ~ (peers w h q r /\ x = v))) ->
     In (num u p) (alphabet s) /\ (forall x, In x (cand u p) -> In x (alphabet s))).
  { intros q v Hv A1 A2 A3. split.
    - rewrite A1 by auto. destruct (coord_eqb p q); auto. apply L; auto.
    - intros x Hx. destruct (coord_eq_dec p q) as [->|N].
      + apply A2 in Hx. subst; auto.
      + apply A3 in Hx; auto. apply (L p Fp). apply Hx. }
  destruct (st_class st); try congruence;
    try (destruct L3 as [A1 A2]; split; [rewrite A1 by auto; apply L; auto|];
         intros x Hx; apply A2 in Hx; auto; apply (L p Fp), Hx).
  - destruct L3 as [q [v [A1 [A2 [A3 [A4 A5]]]]]]. destruct L2 as [q' [v' [B1 [B2 [B3 [B4 B5]]]]]].
    apply (Sing q v); auto.
    assert (Ep : q' = q) by congruence. assert (Ev : v' = v) by congruence. subst q' v'.
    assert (Cq : cell w h q) by (apply L5; rewrite A1; left; auto).
    apply (L q Cq). rewrite B5; left; auto.
  - destruct L3 as [q [v [A1 [A2 [A3 [A4 A5]]]]]]. destruct L2 as [q' [v' [B1 [B2 [B3 [B4 B5]]]]]].
    apply (Sing q v); auto. assert (Ev : v' = v) by congruence. subst v'. apply in_alphabet. auto.
Qed.

Lemma chain_lettered : forall cls t l u, deductive cls -> lettered s t -> chain (link w h none cls) t l u -> lettered s u.
Proof.
  intros cls t l u D L C. induction C as [t|t st t' l u Lk C IH]; auto. apply IH. eapply link_lettered; eauto.
Qed.

Lemma up_solution : forall t, state_ok t -> forall f, solution t f -> solution s f.
Proof.
  intros t [[Wt [Ewt Eht]] [_ K]] f [V Ef]. split; [rewrite <- Ewt, <- Eht; auto|]. intros p Fp.
  destruct (Z.eq_dec (num s p) 0) as [Z0|Z0]; auto. right.
  assert (Ft : field t p) by (unfold field; rewrite Ewt, Eht; auto).
  destruct (Ef p Ft) as [Y|Y]; rewrite (K p Fp Z0) in Y; auto. congruence.
Qed.

Hypothesis Hno : forall f, ~ solution s f.

Lemma round_state : forall t, state_ok t ->
  exists st u, solve_round o SOLVERS t = Ok (st, u) /\ state_ok u.
Proof.
  intros t St. pose proof St as [Ot [L K]].
  destruct (round_ok w h (wf_w _ W) (wf_h _ W) o Ho none (none_valid w h) t (none_WInv _ _ _ Ot)) as [st [u [E R]]].
  exists st, u. split; auto. destruct (round_keeps w h (wf_w _ W) (wf_h _ W) t st u Ot R) as [Ou Ku].
  split; [|split]; auto.
  - pose proof Ot as [Wt [Ewt Eht]].
    inversion R as [st' u' Ns Su C Hn' Hc Hx | cls st' u' Hin Ns Hc Stt Su C
                     | f st' u' Ns Hc Stt Sol Ou' Hn' Hb C | Hc Stt Hd]; subst.
    + intros p Fp. rewrite Hn', Hc by auto. split; [apply L; auto|]. intros x.
      destruct (cand t p) as [|y c] eqn:Ec.
      * destruct (Z.eq_dec (num t p) 0) as [Z0|Z0].
        -- rewrite in_pcalc_empty; auto; [|unfold field; rewrite Ewt, Eht; auto].
           unfold NN. rewrite Ewt, Eht. intros [X _]. apply in_alphabet; auto.
        -- rewrite in_pcalc_filled by auto. intros ->. apply L; auto.
      * rewrite <- Ec. apply L; auto.
    + eapply chain_lettered; eauto. apply DED_deductive; auto.
    + exfalso. apply (Hno f). eapply up_solution; eauto.
    + auto.
  - intros p Fp Np. rewrite Ku; auto. rewrite K; auto.
Qed.

(** The states of [n] rounds that all find a step. *)
Inductive path : sudoku -> list sudoku -> sudoku -> Prop :=
| path_nil : forall t, path t [] t
| path_cons : forall t st x l u v, solve_round o SOLVERS t = Ok (x :: st, u) -> path u l v -> path t (t :: l) v.

Lemma path_app : forall t a u b v, path t a u -> path u b v -> path t (a ++ b) v.
Proof. intros t a u b v P Q. induction P as [t|t st x l u v' E P IH]; auto. cbn [app]. econstructor; eauto. Qed.

Lemma path_split : forall t a x b v, path t (a ++ x :: b) v -> path t a x /\ path x (x :: b) v.
Proof.
  intros t a. revert t. induction a as [|y a IH]; intros t x b v P.
  - cbn [app] in P. inversion P; subst. split; [constructor|auto].
  - cbn [app] in P. inversion P as [|? st z ? u ? E P']; subst. destruct (IH _ _ _ _ P') as [P1 P2].
    split; auto. econstructor; eauto.
Qed.

Lemma path_fuel : forall t l u, path t l u -> forall fuel,
  solve_loop (length l + fuel) o t = Err OutOfFuel <-> solve_loop fuel o u = Err OutOfFuel.
Proof.
  intros t l u P. induction P as [t|t st x l u v E P IH]; intros fuel; [reflexivity|].
  cbn [length plus solve_loop]. rewrite E. cbn [rbind]. rewrite <- IH.
  destruct (solve_loop (length l + fuel) o u) as [[l2 s2]|e]; cbn [rbind]; split; congruence.
Qed.

Lemma fuel_mono : forall k n t, solve_loop (k + n) o t = Err OutOfFuel -> solve_loop n o t = Err OutOfFuel.
Proof.
  intros k n; revert k; induction n as [|n IH]; intros k t H; [reflexivity|].
  replace (k + S n)%nat with (S (k + n)) in H by lia. cbn [solve_loop] in *.
  destruct (solve_round o SOLVERS t) as [[l1 t1]|]; cbn [rbind] in *; [|auto].
  destruct l1 as [|x l1]; auto. specialize (IH k t1).
  destruct (solve_loop (k + n) o t1) as [[l2 t2]|e]; cbn [rbind] in H; [discriminate|].
  rewrite IH; auto.
Qed.

Lemma cycle_forever : forall t l fuel, l <> [] -> path t l t -> solve_loop fuel o t = Err OutOfFuel.
Proof.
  intros t l fuel N P. assert (L : (1 <= length l)%nat) by (destruct l; [congruence|simpl; lia]).
  assert (G : forall k, solve_loop (k * length l) o t = Err OutOfFuel).
  { induction k as [|k IH]; [reflexivity|]. cbn [Nat.mul]. apply (path_fuel t l t P); auto. }
  specialize (G fuel). assert (F : (fuel * length l = (fuel * length l - fuel) + fuel)%nat) by nia.
  rewrite F in G. eapply fuel_mono; eauto.
Qed.

Lemma out_path : forall n t, state_ok t -> solve_loop n o t = Err OutOfFuel ->
  exists l u, path t l u /\ length l = n /\ (forall x, In x l -> state_ok x).
Proof.
  induction n as [|n IH]; intros t St H.
  - exists [], t. split; [constructor|]. split; auto. intros x [].
  - destruct (round_state t St) as [st [u [E Su]]]. cbn [solve_loop] in H. rewrite E in H. cbn [rbind] in H.
    destruct st as [|x st]; [discriminate|].
    assert (Hu : solve_loop n o u = Err OutOfFuel).
    { destruct (solve_loop n o u) as [[l2 t2]|e]; cbn [rbind] in H; congruence. }
    destruct (IH u Su Hu) as [l [v [P [Ln Hl]]]]. exists (t :: l), v. split; [econstructor; eauto|].
    split; [simpl; congruence|]. intros y [<-|Hy]; auto.
Qed.

Lemma key_dec : forall a b : list (Z * zset), {a = b} + {a <> b}.
Proof. apply list_eq_dec. intros [a1 a2] [b1 b2]. destruct (Z.eq_dec a1 b1); [|right; congruence]. destruct (list_eq_dec Z.eq_dec a2 b2); [left|right]; congruence. Defined.

Lemma map_dup : forall (f : sudoku -> list (Z * zset)) l a k1 k2 k3,
  map f l = k1 ++ a :: k2 ++ a :: k3 ->
  exists x y l1 l2 l3, l = l1 ++ x :: l2 ++ y :: l3 /\ f x = f y.
Proof.
  intros f l a k1 k2 k3 H. apply map_eq_app in H. destruct H as [l1 [r1 [E1 [_ H]]]].
  destruct r1 as [|x r1]; [discriminate|]. cbn [map] in H. injection H as Hx H.
  apply map_eq_app in H. destruct H as [l2 [r2 [E2 [_ H]]]]. destruct r2 as [|y l3]; [discriminate|].
  cbn [map] in H. injection H as Hy _. subst. exists x, y, l1, l2, l3. split; auto; congruence.
Qed.

Lemma forever : forall t n, state_ok t -> (states_bound s < n)%nat ->
  solve_loop n o t = Err OutOfFuel -> forall fuel, solve_loop fuel o t = Err OutOfFuel.
Proof.
  intros t n St Hn H fuel. destruct (out_path n t St H) as [l [u [P [Ln Hl]]]].
  assert (D : ~ NoDup (map (state_key s) l)).
  { intros Nd. pose proof (keys_bound s) as B.
    assert (I : incl (map (state_key s) l) (words (length (coords s)) (list_prod (alphabet s) (subs (alphabet s))))).
    { intros k Hk. apply in_map_iff in Hk. destruct Hk as [x [<- Hx]].
      destruct (Hl x Hx) as [[Wx [E1 E2]] [Lx _]]. apply key_in; auto. }
    pose proof (NoDup_incl_length Nd I) as X. rewrite map_length in X. pose proof (Nat.le_trans _ _ _ X B) as Y. lia. }
  apply (not_NoDup_dup key_dec) in D.
  destruct D as [a [k1 [k2 [k3 D]]]]. apply map_dup in D. destruct D as [x [y [l1 [l2 [l3 [El Ek]]]]]].
  assert (x = y).
  { destruct (Hl x) as [[Wx [E1 E2]] _]; [subst; apply in_app_iff; right; left; auto|].
    destruct (Hl y) as [[Wy [E3 E4]] _]; [subst; apply in_app_iff; right; right; apply in_app_iff; right; left; auto|].
    eapply (key_inj s); eauto. }
  subst y l. apply path_split in P. destruct P as [P1 P2].
  change (x :: l2 ++ x :: l3) with ((x :: l2) ++ x :: l3) in P2. apply path_split in P2. destruct P2 as [P2 _].
  apply (fuel_mono (length l1) fuel). apply (path_fuel t l1 x P1).
  apply (cycle_forever x (x :: l2)); auto. discriminate.
Qed.
End Cycle.

Lemma C41_decided_proof : forall o s, oracle_ok o -> wf s ->
  (forall fuel, solve fuel o s = Err OutOfFuel) \/
  (exists l u, forall fuel, (states_bound s + fuel_bound s < fuel)%nat -> solve fuel o s = Ok (l, u)).
Proof.
  intros o s Ho W.
  assert (O : ok_sudoku (box_width s) (box_height s) s) by (apply ok_intro; auto).
  destruct (brute_drive (box_width s) (box_height s) (wf_w _ W) (wf_h _ W) o Ho s O) as [[Hno _]|[f [_ [_ [Hf _]]]]].
  2:{ right. destruct (C40_proof o s Ho W (ex_intro _ f Hf)) as [l [u [E _]]]. exists l, u.
      intros fuel Hl. apply E. lia. }
  destruct (solve_start (box_width s) (box_height s) o s O) as [s0 [[_ E0] [O0 [N0 [D0 W0]]]]].
  assert (S0 : state_ok s s0).
  { split; [|split]; auto.
    intros p Fp. rewrite N0, D0 by auto. split; [apply in_alphabet; eauto|].
    intros x. destruct (num s p =? 0); [intros []|]. intros [<-|[]]. apply in_alphabet; eauto. }
  destruct (solve_loop (S (states_bound s)) o s0) as [[l u]|e] eqn:E.
  - right. exists l, u. intros fuel Hf. rewrite E0.
    assert (M : forall n k t r, solve_loop n o t = Ok r -> solve_loop (k + n) o t = Ok r).
    { clear. induction n as [|n IH]; intros k t r H; [discriminate|].
      replace (k + S n)%nat with (S (k + n)) by lia. cbn [solve_loop] in *.
      destruct (solve_round o SOLVERS t) as [[l1 t1]|]; [|discriminate]. cbn [rbind] in *.
      destruct l1; auto. destruct (solve_loop n o t1) as [[l2 t2]|] eqn:E; [|discriminate].
      rewrite (IH k t1 _ E). auto. }
    replace fuel with ((fuel - S (states_bound s)) + S (states_bound s))%nat by lia. apply M; auto.
  - left. intros fuel. rewrite E0.
    assert (e = OutOfFuel).
    { destruct (loop_any _ _ (wf_w _ W) (wf_h _ W) o Ho (S (states_bound s)) s0 O0) as [X|[l [u [X _]]]]; congruence. }
    subst e. eapply forever; eauto.
Qed.
