(** Lemmas for C126: exact cover problems. *)
From Verif Require Export SpecCover LCover.

Section cover.
Variables (cs : list xkey) (Y : ydict) (Pb : problem cs Y).
Let A1 := pr_keys _ _ Pb.
Let A2 := pr_rows _ _ Pb.
Let A3 := pr_once _ _ Pb.
Let A4 := pr_known _ _ Pb.

Lemma satisfies_K : forall i k, satisfies Y i k <-> In i (dkeys Y) /\ In k (gK Y i).
Proof.
  intros i k; split.
  - intros [l [H1 H2]]. split; [apply in_map_iff; exists (i, l); auto|]. destruct (Y_in Y A2 i l H1) as [_ ->]. auto.
  - intros [H1 H2]. exists (gK Y i). split; auto. apply Y_get0; auto.
Qed.
Lemma vrow_sat : forall i, g_vrow Y i <-> exists k, satisfies Y i k.
Proof.
  intros i; split.
  - intros [H N]. destruct (gK Y i) as [|k l] eqn:E; [congruence|]. exists k. apply satisfies_K. rewrite E. split; auto. left; auto.
  - intros [k H]. apply satisfies_K in H as [H1 H2]. split; auto. intros E. rewrite E in H2. destruct H2.
Qed.

Lemma FOP_NoDup : forall {A} (Q : A -> A -> Prop) l, (forall a, In a l -> ~ Q a a) -> ForallOrdPairs Q l -> NoDup l.
Proof.
  intros A Q l H F; induction F as [|a l Fa F IH]; constructor.
  - intros Ha. rewrite Forall_forall in Fa. apply (H a); [left; auto|]. auto.
  - apply IH. intros; apply H; right; auto.
Qed.
Lemma NoDup_FOP : forall {A} (Q : A -> A -> Prop) l, NoDup l -> (forall a b, In a l -> In b l -> a <> b -> Q a b) -> ForallOrdPairs Q l.
Proof.
  intros A Q l N; induction N as [|a l Na N IH]; intros H; constructor.
  - apply Forall_forall. intros b Hb. apply H; [left; auto|right; auto|]. intros ->. contradiction.
  - apply IH. intros; apply H; auto; right; auto.
Qed.
Lemma FOP_in : forall {A} (Q : A -> A -> Prop) l a b, (forall x y, Q x y -> Q y x) -> ForallOrdPairs Q l -> In a l -> In b l -> a = b \/ Q a b.
Proof.
  intros A Q l a b Hs F Ha Hb. destruct (ForallOrdPairs_In F a b Ha Hb) as [E|[E|E]]; auto.
Qed.

Lemma exact_Exact : forall l, exact cs Y l <-> g_Exact cs Y [] l.
Proof.
  intros l; split.
  - intros [N [R [C U]]]. split; [|split].
    + intros i Hi. split; [apply vrow_sat; auto|intros k _ []].
    + apply NoDup_FOP; auto. intros a b Ha Hb D k Hka Hkb. apply D.
      apply (U a b k); auto; apply satisfies_K; split; auto; apply vrow_sat; auto.
    + intros k Vk _. destruct (C k Vk) as [i [Hi Sk]]. exists i. split; auto. apply satisfies_K in Sk. tauto.
  - intros [R [F C]]. split; [|split; [|split]].
    + apply (FOP_NoDup (fun a b => disj (gK Y a) (gK Y b))); auto. intros a Ha D. destruct (R a Ha) as [[_ Na] _].
      destruct (gK Y a) as [|k l'] eqn:E; [congruence|]. apply (D k); left; auto.
    + intros i Hi. apply vrow_sat. apply R; auto.
    + intros k Hk. destruct (C k Hk) as [i [Hi Hki]]; [auto|]. exists i. split; auto. apply satisfies_K. split; auto. apply R; auto.
    + intros i i' k Hi Hi' Si Si'. apply satisfies_K in Si, Si'.
      destruct (FOP_in _ l i i' (fun x y => disj_sym _ _) F Hi Hi') as [E|D]; auto. destruct (D k); tauto.
Qed.

Lemma C126_solve_proof : forall ord fuel, (forall p l, Permutation (ord p l) l) -> (length cs < fuel)%nat ->
  exists X ls X', exact_cover cs Y = Ok X /\ gresult (xsolve fuel ord Y X []) tt = Ok X' /\ gyields (xsolve fuel ord Y X []) tt = ls /\
    (forall l, In l ls -> exact cs Y l) /\ (forall l, exact cs Y l -> exists l', In l' ls /\ Permutation l l') /\
    ForallOrdPairs (fun a b => ~ Permutation a b) ls /\ (forall k, dget xkey_eqb X' k = dget xkey_eqb X k).
Proof.
  intros ord fuel Hp Hf. destruct (g_exact_cover_ok cs Y A1 A2 A4) as [X [E [HX L]]].
  destruct (g_xsolve_ok cs Y A2 A3 A4 ord Hp fuel [] [] X HX ltac:(lia) ltac:(lia)) as [ls [X' [R [HX' [Hy [S1 [S2 S3]]]]]]].
  exists X, ls, X'. split; auto. split; auto. split; [rewrite Hy; apply map_id|]. split; [intros l Hl; apply exact_Exact; auto|].
  split; [intros l Hl; apply S2; apply exact_Exact; auto|]. split; auto. intros k. eapply g_XI_get_eq; eauto.
Qed.

Lemma reachable_gXI : forall X, reachable cs Y X -> exists cov, g_XI cs Y cov X.
Proof.
  intros X H; induction H as [X E|X r cols X1 H [cov HX] E|X r cols X1 X2 H [cov HX] E1 E2].
  - destruct (g_exact_cover_ok cs Y A1 A2 A4) as [X' [E' [HX _]]]. assert (X' = X) by congruence. subst. eauto.
  - destruct (g_select_cases cs Y A2 A3 A4 cov X r HX) as [[_ [_ [S _]]]|[[V D]|[_ S]]]; rewrite E in S || idtac; try discriminate.
    + injection S as _ ->. eauto.
    + destruct (g_select_ok cs Y A2 A3 A4 cov X r HX V D) as [cols' [X' [E' [_ [HX' _]]]]]. assert (Q : (cols', X') = (cols, X1)) by congruence. injection Q as -> ->. eauto.
  - destruct (g_select_cases cs Y A2 A3 A4 cov X r HX) as [[_ [_ [S S']]]|[[V D]|[_ S]]]; rewrite E1 in S || idtac; try discriminate.
    + injection S as -> ->. assert (X = X2) by congruence. subst. eauto.
    + destruct (g_select_ok cs Y A2 A3 A4 cov X r HX V D) as [cols' [X' [E' [Hc [HX' _]]]]]. assert (Q : (cols', X') = (cols, X1)) by congruence. injection Q as -> ->.
      destruct (g_deselect_ok cs Y A2 A4 cov X1 r cols HX' V Hc) as [X3 [E3 HX3]]. assert (X3 = X2) by congruence. subst. eauto.
Qed.

Lemma C126_undo_proof : forall X r, reachable cs Y X ->
  (exists cols X1 X2, select X Y r = Ok (cols, X1) /\ deselect X1 Y r cols = Ok X2 /\ forall k, dget xkey_eqb X2 k = dget xkey_eqb X k) \/
  select X Y r = Err KeyError.
Proof.
  intros X r H. destruct (reachable_gXI X H) as [cov HX].
  destruct (g_select_cases cs Y A2 A3 A4 cov X r HX) as [[_ [_ [S S']]]|[[V D]|[_ S]]]; auto.
  - left. exists [], X, X. split; auto.
  - left. destruct (g_select_ok cs Y A2 A3 A4 cov X r HX V D) as [cols [X1 [E [Hc [HX' _]]]]].
    destruct (g_deselect_ok cs Y A2 A4 cov X1 r cols HX' V Hc) as [X2 [E3 HX3]]. exists cols, X1, X2. split; auto. split; auto.
    intros k. eapply g_XI_get_eq; eauto.
Qed.
End cover.

(** A constraint of a row that is not in the list. *)
Lemma x_add_keys : forall X k i, (In k (dkeys X) -> exists X', x_add X k i = Ok X' /\ dkeys X' = dkeys X) /\ (~ In k (dkeys X) -> x_add X k i = Err KeyError).
Proof.
  intros X k i; split; intros H; unfold x_add.
  - destruct (proj1 (dget_keys _ xkey_eqb_eq X k) H) as [v E]. rewrite E. cbn [rbind]. eexists. split; [reflexivity|]. apply (dset_in_keys _ xkey_eqb_eq); auto.
  - rewrite (dget_err _ xkey_eqb_eq) by auto. reflexivity.
Qed.
Lemma add_row_keys : forall i l X, ((forall k, In k l -> In k (dkeys X)) -> exists X', foldM (fun X j => x_add X j i) l X = Ok X' /\ dkeys X' = dkeys X) /\
  (forall k, In k l -> ~ In k (dkeys X) -> foldM (fun X j => x_add X j i) l X = Err KeyError).
Proof.
  intros i l; induction l as [|j l IH]; intros X; split.
  - intros _. exists X. split; reflexivity.
  - intros k [].
  - intros H. destruct (proj1 (x_add_keys X j i) (H j (or_introl eq_refl))) as [X1 [E1 D1]]. cbn [foldM]. rewrite E1. cbn [rbind]. rewrite <- D1.
    apply IH. intros k Hk. rewrite D1. apply H; right; auto.
  - intros k Hk N. cbn [foldM]. destruct (in_dec xkey_eq_dec j (dkeys X)) as [V|V]; [|rewrite (proj2 (x_add_keys X j i) V); reflexivity].
    destruct (proj1 (x_add_keys X j i) V) as [X1 [E1 D1]]. rewrite E1. cbn [rbind]. destruct Hk as [<-|Hk]; [contradiction|].
    apply (proj2 (IH X1) k); auto. rewrite D1. auto.
Qed.
Lemma C126_unknown_proof : forall cs Y i l k, In (i, l) Y -> In k l -> ~ In k cs -> exact_cover cs Y = Err KeyError.
Proof.
  intros cs Y i l k Hi Hk N. unfold exact_cover. set (X0 := map (fun j => (j, [])) cs).
  assert (D0 : dkeys X0 = cs) by (unfold X0, dkeys; rewrite map_map; apply map_id). clearbody X0. revert X0 D0 Hi.
  induction Y as [|[i' l'] Y IH]; intros X0 D0 Hi; [destruct Hi|]. cbn [foldM fst snd].
  assert (C : (forall k, In k l' -> In k (dkeys X0)) \/ exists k, In k l' /\ ~ In k (dkeys X0)).
  { clear. induction l' as [|x l' [IH|[k [H1 H2]]]]; [left; intros k []| |right; exists k; split; [right|]; auto].
    destruct (in_dec xkey_eq_dec x (dkeys X0)) as [D|D]; [left; intros k [<-|H]; auto|right; exists x; split; [left|]; auto]. }
  destruct C as [C|[k' [C1 C2]]]; [|rewrite (proj2 (add_row_keys i' l' X0) k' C1 C2); reflexivity].
  destruct (proj1 (add_row_keys i' l' X0) C) as [X1 [E1 D1]]. rewrite E1. cbn [rbind].
  destruct Hi as [E|Hi]; [injection E as -> ->; destruct N; rewrite <- D0; auto|apply IH; auto; congruence].
Qed.
