(** Steps found by one class with the same text are the same. *)
From Verif Require Import LStr LFind LFind6 LSolvers5.
From Verif Require Import SpecText LStepText.

Lemma lists_same : forall l m P Q, lists l P -> lists m Q -> (forall p, P p <-> Q p) -> l = m.
Proof. intros l m P Q Hl Hm H. eapply lists_unique; eauto. eapply lists_ext; [|exact Hm]. intros p; symmetry; auto. Qed.

Lemma together_trans : forall s k a b c, together s k a b -> together s k b c -> together s k a c.
Proof. intros s [] [a1 a2] [b1 b2] [c1 c2]; unfold together, same_row, same_col, same_box; cbn [fst snd]; intuition congruence. Qed.
Lemma together_sym : forall s k a b, together s k a b -> together s k b a.
Proof. intros s [] [a1 a2] [b1 b2]; unfold together, same_row, same_col, same_box; cbn [fst snd]; intuition congruence. Qed.

(** All members of the clues lie in one unit of each of the two kinds. *)
Lemma pointing_unit : forall s n k k2 q v cl aff, pointing s n k k2 q v cl aff -> forall p, In p cl -> together s k p q /\ together s k2 p q.
Proof.
  intros s n k k2 q v cl aff [_ [_ [H1 [_ [H2 _]]]]] p Hp. split; auto. apply H1 in Hp. apply Hp.
Qed.

Lemma pointing_against : forall s n k k2 q v cl aff k' q' aff', pointing s n k k2 q v cl aff -> pointing s n k' k q' v cl aff' -> False.
Proof.
  intros s n k k2 q v cl aff k' q' aff' P P'. pose proof (pointing_unit _ _ _ _ _ _ _ _ P) as U.
  destruct P as [_ [Q [H1 _]]]. destruct P' as [_ [Q' [_ [_ [_ [H2 N]]]]]].
  destruct aff' as [|p aff']; [congruence|]. destruct (proj1 (proj2 H2 p) (or_introl eq_refl)) as [[F T] [X Y]].
  apply X, H1. split; auto. split; auto. eapply together_trans; eauto. apply U; auto.
Qed.

Lemma pointing_same_kind : forall s n k k' k2 q q' v cl aff aff', pointing s n k k2 q v cl aff -> pointing s n k' k2 q' v cl aff' -> aff = aff'.
Proof.
  intros s n k k' k2 q q' v cl aff aff' P P'. pose proof (pointing_unit _ _ _ _ _ _ _ _ P) as U.
  destruct P as [_ [Q [_ [_ [_ [H1 _]]]]]]. destruct P' as [_ [Q' [_ [_ [_ [H2 N]]]]]].
  eapply lists_same; eauto. intros p. cbn beta. pose proof (proj2 (U q' Q')) as T. unfold unit_at. split; intros [[F T'] R]; split; auto; split; auto.
  - eapply together_trans; eauto. apply together_sym; auto.
  - eapply together_trans; eauto.
Qed.

Lemma pointing_unique : forall s n k k2 q k' k2' q' v cl aff aff', pointing_kinds n k k2 -> pointing_kinds n k' k2' ->
  pointing s n k k2 q v cl aff -> pointing s n k' k2' q' v cl aff' -> aff = aff'.
Proof.
  intros s n k k2 q k' k2' q' v cl aff aff' K K' P P'.
  assert (One : forall a b, In a cl -> In b cl -> n <> 1%nat -> (forall p, In p cl -> same_row p a /\ same_col p a) -> False).
  { intros a b Ha Hb Nn H. destruct P as [_ [_ [L [Ln _]]]]. apply lists_nodup in L.
    assert (E : forall p, In p cl -> p = a).
    { intros p Hp. destruct (H p Hp) as [X Y]. unfold same_row, same_col in X, Y. destruct p, a; cbn [fst snd] in *; congruence. }
    apply Nn. rewrite <- Ln. destruct cl as [|x [|y l]]; [destruct Ha|reflexivity|].
    inversion L as [|? ? X _]; subst. exfalso. apply X. left. rewrite (E x), (E y); auto; [right; left; auto|left; auto]. }
  assert (Cr : forall a b r1 r2, pointing s n KBox KRow a v cl r1 -> pointing s n KBox KCol b v cl r2 -> n <> 1%nat -> False).
  { intros a b r1 r2 A B Nn. pose proof (pointing_unit _ _ _ _ _ _ _ _ A) as U1. pose proof (pointing_unit _ _ _ _ _ _ _ _ B) as U2.
    assert (Ha : In a cl) by exact (proj1 (proj2 A)). assert (Hb : In b cl) by exact (proj1 (proj2 B)).
    apply (One a b); auto. intros p Hp. destruct (U1 p Hp) as [_ V1]. destruct (U2 p Hp) as [_ V2]. destruct (U2 a Ha) as [_ V3].
    cbn [together] in *. split; auto. unfold same_col in *. congruence. }
  destruct K as [[-> ->]|[[-> [-> N1]]|[[-> ->]|[-> ->]]]], K' as [[-> ->]|[[-> [-> N2]]|[[-> ->]|[-> ->]]]];
    try (eapply pointing_same_kind; eauto; fail);
    try (exfalso; first [eapply pointing_against; [exact P|exact P'] | eapply pointing_against; [exact P'|exact P]]; fail);
    exfalso; first [exact (Cr _ _ _ _ P P' N2) | exact (Cr _ _ _ _ P' P N1)].
Qed.

Lemma fish_unique : forall s n line other line' other' v lines cov lines' cov' cl aff aff',
  ((line = fst /\ other = snd) \/ (line = snd /\ other = fst)) -> ((line' = fst /\ other' = snd) \/ (line' = snd /\ other' = fst)) ->
  fish s n line other v lines cov cl aff -> fish s n line' other' v lines' cov' cl aff' -> aff = aff'.
Proof.
  assert (Against : forall s n line other other' v lines cov lines' cov' cl aff aff',
    fish s n line other v lines cov cl aff -> fish s n other other' v lines' cov' cl aff' -> False).
  { intros s n line other other' v lines cov lines' cov' cl aff aff' A B.
    destruct A as [_ [_ [_ [_ [A1 [A2 [_ [_ [A3 A4]]]]]]]]]. destruct B as [_ [_ [_ [_ [B1 _]]]]].
    destruct aff as [|p aff]; [congruence|]. destruct (proj1 (proj2 A3 p) (or_introl eq_refl)) as [F [X [Y Z]]].
    apply Y, B1. splits; auto. apply A2 in X. destruct X as [p' [X1 X2]]. rewrite <- X2. apply B1 in X1. apply X1. }
  assert (Same : forall s n line other v lines cov lines' cov' cl aff aff',
    fish s n line other v lines cov cl aff -> fish s n line other v lines' cov' cl aff' -> aff = aff').
  { intros s n line other v lines cov lines' cov' cl aff aff' A B.
    destruct A as [_ [_ [_ [_ [A1 [A2 [_ [_ [A3 A4]]]]]]]]]. destruct B as [_ [_ [_ [_ [B1 [B2 [_ [_ [B3 B4]]]]]]]]].
    eapply lists_same; eauto. intros p. cbn beta. destruct A2 as [_ A2]. destruct B2 as [_ B2].
    rewrite A2, B2. reflexivity. }
  intros s n line other line' other' v lines cov lines' cov' cl aff aff' K K' A B.
  destruct K as [[-> ->]|[-> ->]], K' as [[-> ->]|[-> ->]]; eauto; exfalso; eauto.
Qed.

Lemma hidden_unique : forall s n k q places k' q' places' cl aff aff' vals,
  hidden_tuple s n k q places cl aff vals -> hidden_tuple s n k' q' places' cl aff' vals -> aff = aff'.
Proof.
  intros s n k q places k' q' places' cl aff aff' vals A B.
  destruct A as [_ [_ [A1 [_ [_ [_ [A2 [_ [A3 _]]]]]]]]]. destruct B as [_ [_ [B1 [_ [_ [_ [B2 [_ [B3 _]]]]]]]]].
  assert (E : places = places').
  { eapply lists_same; eauto. intros p. cbn beta. destruct A1 as [_ A1]. destruct B1 as [_ B1]. rewrite <- A1, <- B1. reflexivity. }
  subst places'. eapply lists_unique; eauto.
Qed.

Lemma forall2_in_r : forall {A B} (R : A -> B -> Prop) l m y, Forall2 R l m -> In y m -> exists x, In x l /\ R x y.
Proof.
  intros A B R l m y F. induction F as [|x z l m Rx F IH]; intros H; [destruct H|].
  destruct H as [<-|H]; [exists x; split; [left|]; auto|]. destruct (IH H) as [x' [H1 H2]]. exists x'. split; [right|]; auto.
Qed.

Lemma nodup_map_inj : forall {A B} (f : A -> B) l x y, NoDup (map f l) -> In x l -> In y l -> f x = f y -> x = y.
Proof.
  intros A B f l; induction l as [|z l IH]; intros x y N Hx Hy E; [destruct Hx|].
  cbn [map] in N. inversion N as [|? ? N1 N2]; subst.
  destruct Hx as [<-|Hx], Hy as [<-|Hy]; auto; exfalso; apply N1; apply in_map_iff; [exists y|exists x]; auto.
Qed.

(** Every step found has the attributes of its class. *)
Lemma found_made : forall o cls s ys, oracle_ok o -> wf s -> In cls SOLVERS -> all_steps o cls s ys ->
  forall st, In st ys -> st_class st = cls /\
    (single_field cls = true \/ cls = CalculateCandidates -> affected st = clues st) /\
    (single_field cls = true -> exists p v, clues st = [p] /\ affected st = [p] /\ values st = [v]).
Proof.
  intros o cls s ys Ho W Hc A st Hst.
  assert (Step : forall cl aff vals, step_is cls cl aff vals st -> single_field cls = false -> cls <> CalculateCandidates ->
    st_class st = cls /\ (single_field cls = true \/ cls = CalculateCandidates -> affected st = clues st) /\
    (single_field cls = true -> exists p v, clues st = [p] /\ affected st = [p] /\ values st = [v])).
  { intros cl aff vals [S1 _] E N. split; auto. rewrite E. split; [intros [X|X]; congruence|discriminate]. }
  assert (Single : forall p v, step_is cls [p] [p] [v] st ->
    st_class st = cls /\ (single_field cls = true \/ cls = CalculateCandidates -> affected st = clues st) /\
    (single_field cls = true -> exists p v, clues st = [p] /\ affected st = [p] /\ values st = [v])).
  { intros p v [S1 [S2 [S3 [S4 _]]]]. split; auto. split; [congruence|]. intros _. exists p, v. auto. }
  unfold all_steps in A.
  destruct cls as [| | |n|n|n|n|].
  - destruct (calculate_all o s W) as [fs [ys' [A' [_ F]]]]. unfold all_steps in A'. rewrite A in A'. injection A' as <-.
    destruct (forall2_in_r _ _ _ _ F Hst) as [p [_ [vals [[S1 [S2 [S3 _]]] _]]]]. split; auto.
    split; [congruence|]. discriminate.
  - destruct (naked_single_all o s W) as [fs [ys' [A' [_ F]]]]. unfold all_steps in A'. rewrite A in A'. injection A' as <-.
    destruct (forall2_in_r _ _ _ _ F Hst) as [p [_ [v [_ S]]]]. eauto.
  - destruct (hidden_single_all o s Ho W) as [fs [ys' [A' [_ F]]]]. unfold all_steps in A'. rewrite A in A'. injection A' as <-.
    destruct (forall2_in_r _ _ _ _ F Hst) as [p [_ [k [v [_ [_ S]]]]]]. eauto.
  - destruct (naked_all o n s W) as [ys' [A' [_ [F _]]]]. unfold all_steps in A'. rewrite A in A'. injection A' as <-.
    destruct (F st Hst) as [k [q [cl [aff [vals [_ [S _]]]]]]]. eapply Step; eauto. discriminate.
  - destruct (hidden_all o n s W) as [ys' [A' [F _]]]. unfold all_steps in A'. rewrite A in A'. injection A' as <-.
    apply F in Hst. destruct Hst as [k [q [pl [cl [aff [vals [_ S]]]]]]]. eapply Step; eauto. discriminate.
  - destruct (pointing_all o n s W) as [ys' [A' [F _]]]. unfold all_steps in A'. rewrite A in A'. injection A' as <-.
    apply F in Hst. destruct Hst as [k [k2 [q [v [cl [aff [_ [_ S]]]]]]]]. eapply Step; eauto. discriminate.
  - assert (N : n <> O) by (intros ->; simpl in Hc; intuition discriminate).
    destruct (fish_all o n s W N) as [ys' [A' [_ F]]]. unfold all_steps in A'. rewrite A in A'. injection A' as <-.
    apply F in Hst. destruct Hst as [li [ot [v [ls [cov [cl [aff [_ [_ S]]]]]]]]]. eapply Step; eauto. discriminate.
  - destruct (bruteforce_all o s Ho W) as [ys' [A' [F1 F2]]]. unfold all_steps in A'. rewrite A in A'. injection A' as <-.
    assert (O : ok_sudoku (box_width s) (box_height s) s) by (apply ok_intro; auto).
    destruct (brute_drive (box_width s) (box_height s) (wf_w _ W) (wf_h _ W) o Ho s O) as [[Hno _]|[f [_ [_ [Hf _]]]]].
    + rewrite (F1 Hno) in Hst. destruct Hst.
    + destruct (F2 (ex_intro _ f Hf)) as [g [fs [_ [_ F]]]].
      destruct (forall2_in_r _ _ _ _ F Hst) as [p [_ S]]. eauto.
Qed.

Lemma same_clues : forall o cls s ys, oracle_ok o -> wf s -> In cls SOLVERS -> all_steps o cls s ys ->
  forall a b, In a ys -> In b ys -> clues a = clues b -> values a = values b -> affected a = affected b.
Proof.
  intros o cls s ys Ho W Hc A a b Ha Hb Ec Ev.
  destruct (found_made o cls s ys Ho W Hc A a Ha) as [Ca [Sa _]].
  destruct (found_made o cls s ys Ho W Hc A b Hb) as [Cb [Sb _]].
  unfold all_steps in A. destruct cls as [| | |n|n|n|n|];
    try (rewrite Sa, Sb by auto; auto; fail).
  - destruct (naked_all o n s W) as [ys' [A' [N _]]]. unfold all_steps in A'. rewrite A in A'. injection A' as <-.
    assert (a = b) by (apply (nodup_map_inj clues ys); auto). congruence.
  - destruct (hidden_all o n s W) as [ys' [A' [F _]]]. unfold all_steps in A'. rewrite A in A'. injection A' as <-.
    apply F in Ha. apply F in Hb.
    destruct Ha as [k [q [pl [cl [aff [vals [P S]]]]]]]. destruct Hb as [k' [q' [pl' [cl' [aff' [vals' [P' S']]]]]]].
    destruct S as [_ [S1 [S2 [S3 _]]]]. destruct S' as [_ [S1' [S2' [S3' _]]]].
    assert (E1 : cl' = cl) by congruence. assert (E2 : vals' = vals) by congruence. rewrite E1, E2 in P'. rewrite S2, S2'.
    eapply hidden_unique; eauto.
  - destruct (pointing_all o n s W) as [ys' [A' [F _]]]. unfold all_steps in A'. rewrite A in A'. injection A' as <-.
    apply F in Ha. apply F in Hb.
    destruct Ha as [k [k2 [q [v [cl [aff [K [P S]]]]]]]]. destruct Hb as [k' [k2' [q' [v' [cl' [aff' [K' [P' S']]]]]]]].
    destruct S as [_ [S1 [S2 [S3 _]]]]. destruct S' as [_ [S1' [S2' [S3' _]]]].
    assert (E1 : cl' = cl) by congruence. assert (E2 : v' = v) by congruence. rewrite E1, E2 in P'. rewrite S2, S2'.
    eapply (pointing_unique s n k k2 q k' k2' q'); eauto.
  - assert (N : n <> O) by (intros ->; simpl in Hc; intuition discriminate).
    destruct (fish_all o n s W N) as [ys' [A' [_ F]]]. unfold all_steps in A'. rewrite A in A'. injection A' as <-.
    apply F in Ha. apply F in Hb.
    destruct Ha as [li [ot [v [ls [cov [cl [aff [K [P S]]]]]]]]]. destruct Hb as [li' [ot' [v' [ls' [cov' [cl' [aff' [K' [P' S']]]]]]]]].
    destruct S as [_ [S1 [S2 [S3 _]]]]. destruct S' as [_ [S1' [S2' [S3' _]]]].
    assert (E1 : cl' = cl) by congruence. assert (E2 : v' = v) by congruence. rewrite E1, E2 in P'. rewrite S2, S2'.
    eapply (fish_unique s n li ot li' ot'); eauto.
Qed.

(** * Texts *)
Lemma C89_text_proof : forall o cls s ys, oracle_ok o -> wf s -> In cls SOLVERS -> all_steps o cls s ys ->
  (forall a, In a ys -> exists t u, step_str a = Ok t /\ step_repr a = Ok u) /\
  (forall a b, In a ys -> In b ys -> step_str a = step_str b -> key a = key b) /\
  (forall a b, In a ys -> In b ys -> step_repr a = step_repr b -> key a = key b).
Proof.
  intros o cls s ys Ho W Hc A.
  assert (M : forall a, In a ys -> made a).
  { intros a Ha. destruct (found_made o cls s ys Ho W Hc A a Ha) as [C [_ S]]. split; rewrite C; auto. }
  splits.
  - intros a Ha. destruct (str_ok a (M a Ha)) as [t Et]. destruct (repr_ok a (M a Ha)) as [u Eu]. eauto.
  - intros a b Ha Hb E. destruct (str_ok a (M a Ha)) as [t Et].
    destruct (str_inj a b t (M a Ha) (M b Hb)) as [_ [E1 E2]]; [auto|congruence|].
    unfold key. rewrite E1, E2, (same_clues o cls s ys Ho W Hc A a b Ha Hb E1 E2). reflexivity.
  - intros a b Ha Hb E. destruct (repr_ok a (M a Ha)) as [t Et].
    apply (repr_inj a b t (M a Ha) (M b Hb)); [auto|congruence].
Qed.

Lemma forall2_len : forall {A B} (R : A -> B -> Prop) l m, Forall2 R l m -> length l = length m.
Proof. intros A B R l m F; induction F; cbn [length]; congruence. Qed.

(** All hints. *)
Lemma runs_all : forall o cls s, oracle_ok o -> wf s -> In cls SOLVERS -> exists ys, all_steps o cls s ys /\ runs (MSolvers.find o cls s) s ys.
Proof.
  intros o cls s Ho W Hc.
  assert (O : ok_sudoku (box_width s) (box_height s) s) by (apply ok_intro; auto).
  assert (N : cls <> BasicFish 0) by (intros ->; simpl in Hc; intuition discriminate).
  pose proof (any_safe o cls s Ho W N) as H.
  destruct (gsafe_run _ _ _ _ s (none_SInv _ _ s O) H) as [[r [R1 [R2 _]]] _].
  exists (gyields (MSolvers.find o cls s) s). subst r. split; [|split; auto].
  unfold all_steps, glist. rewrite R1. reflexivity.
Qed.

Lemma hints_runs : forall o s, oracle_ok o -> wf s -> exists yss, 
  Forall2 (fun cls ys => all_steps o cls s ys) SOLVERS yss /\
  runs (hints o s) s (concat (firstn 16 yss)).
Proof.
  intros o s Ho W.
  assert (G : forall l, (forall cls, In cls l -> In cls SOLVERS) -> exists yss, Forall2 (fun cls ys => all_steps o cls s ys) l yss /\
     runs (gfor (fun s cls => match cls with Bruteforce => Ret s | _ => MSolvers.find o cls s end) l s) s
       (concat (map snd (filter (fun x => match fst x with Bruteforce => false | _ => true end) (combine l yss))))).
  { induction l as [|cls l IH]; intros Hl.
    - exists []. split; [constructor|]. apply runs_ret.
    - destruct IH as [yss [F R]]; [intros; apply Hl; right; auto|].
      destruct (runs_all o cls s Ho W (Hl cls (or_introl eq_refl))) as [ys [A B]].
      exists (ys :: yss). split; [constructor; auto|]. cbn [gfor combine filter fst].
      destruct cls; cbn [map concat snd]; (eapply runs_bind; [exact B|exact R]) || (change (concat (map snd (filter (fun x : solver * list step => match fst x with Bruteforce => false | _ => true end) (combine l yss)))) with ([] ++ concat (map snd (filter (fun x : solver * list step => match fst x with Bruteforce => false | _ => true end) (combine l yss)))); eapply runs_bind; [apply runs_ret|exact R]). }
  destruct (G SOLVERS (fun _ H => H)) as [yss [F R]]. exists yss. split; auto.
  pose proof (forall2_len _ _ _ F) as L. unfold SOLVERS in L.
  do 17 (destruct yss as [|? yss]; [discriminate|]). destruct yss; [|discriminate].
  exact R.
Qed.

Lemma C89_hints_proof : forall o s ys, oracle_ok o -> wf s -> glist (hints o s) s = Ok ys ->
  (forall a, In a ys -> exists t, step_str a = Ok t) /\
  (forall a b, In a ys -> In b ys -> step_str a = step_str b -> st_class a = st_class b /\ key a = key b).
Proof.
  intros o s ys Ho W H. destruct (hints_runs o s Ho W) as [yss [F [R1 R2]]].
  unfold glist in H. rewrite R1 in H. cbn [rbind] in H. injection H as <-. rewrite R2. clear R1 R2.
  assert (I : forall a, In a (concat (firstn 16 yss)) -> exists cls zs, In cls SOLVERS /\ all_steps o cls s zs /\ In a zs).
  { intros a Ha. apply in_concat in Ha. destruct Ha as [zs [H1 H2]].
    assert (H3 : In zs yss) by (rewrite <- (firstn_skipn 16 yss); apply in_app_iff; left; auto).
    destruct (forall2_in_r _ _ _ _ F H3) as [cls [K1 K2]]. eauto. }
  assert (M : forall a cls zs, In cls SOLVERS -> all_steps o cls s zs -> In a zs -> made a /\ st_class a = cls).
  { intros a cls zs Hc A Ha. destruct (found_made o cls s zs Ho W Hc A a Ha) as [C [_ S]]. split; auto. split; rewrite C; auto. }
  split.
  - intros a Ha. destruct (I a Ha) as [cls [zs [H1 [H2 H3]]]]. apply str_ok. eapply M; eauto.
  - intros a b Ha Hb E. destruct (I a Ha) as [cls [zs [H1 [H2 H3]]]]. destruct (I b Hb) as [cls' [zs' [H1' [H2' H3']]]].
    destruct (M a cls zs H1 H2 H3) as [Ma Ca]. destruct (M b cls' zs' H1' H2' H3') as [Mb Cb].
    destruct (str_ok a Ma) as [t Et]. destruct (str_inj a b t Ma Mb) as [Ec [E1 E2]]; [auto|congruence|].
    split; auto. assert (cls' = cls) by congruence. subst cls'.
    assert (zs' = zs) by (unfold all_steps in *; congruence). subst zs'.
    unfold key. rewrite E1, E2, (same_clues o cls s zs Ho W H1 H2 a b H3 H3' E1 E2). reflexivity.
Qed.
