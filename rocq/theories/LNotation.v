(** Splitting and reading notation strings. *)
From Verif Require Export SpecNotation MNotation LStr LDict LSet LCoord LCodec2.
Import PyStr MNotation.

Lemma letter_qual : forall c, char_in c QUALIFIERS = true <-> letter c.
Proof.
  intros c. rewrite char_in_iff. unfold letter. change QUALIFIERS with [114; 99; 98; 112]. simpl.
  split; intros H; intuition auto.
Qed.
Lemma letter_dec : forall c, {letter c} + {~ letter c}.
Proof.
  intros c. destruct (char_in c QUALIFIERS) eqn:E; [left; apply letter_qual; auto|right].
  intros H. apply letter_qual in H. congruence.
Qed.
Lemma digit_is : forall c, is_digit c = true <-> digit c.
Proof. apply is_digit_range. Qed.
Lemma letter_not_digit : forall c, letter c -> ~ digit c.
Proof. unfold letter, digit; lia. Qed.

Lemma num_sep_eq : forall nsep n, num_sep nsep n = number_separator nsep n.
Proof.
  intros [|c l] n; auto. unfold num_sep, number_separator. rewrite Z.ltb_antisym.
  destruct (n <=? 9); reflexivity.
Qed.

(** * No occurrence of the separator *)
Lemma split_go_no : forall p x S, (forall a z, x = a ++ z -> z <> [] -> starts_with p (z ++ S) = false) ->
  split_go p (x ++ S) 0 = app_head x (split_go p S 0).
Proof.
  intros p x S; induction x as [|c x IH]; intros H.
  - simpl app. destruct (split_go p S 0) eqn:E; [exfalso; eapply split_go_nonempty; eauto|reflexivity].
  - change ((c :: x) ++ S) with (c :: (x ++ S)). cbn [split_go].
    pose proof (H [] (c :: x) eq_refl ltac:(discriminate)) as X.
    change ((c :: x) ++ S) with (c :: (x ++ S)) in X. rewrite X. rewrite IH.
    + apply cons_app_head, split_go_nonempty.
    + intros a z E Hz. apply (H (c :: a) z); auto. rewrite E; reflexivity.
Qed.

Lemma split_go_one : forall p x, (forall a z, x = a ++ z -> z <> [] -> starts_with p z = false) ->
  split_go p x 0 = [x].
Proof.
  intros p x H. pose proof (split_go_no p x []) as X. rewrite !app_nil_r in X. rewrite X.
  - cbn. rewrite app_nil_r. reflexivity.
  - intros a z E Hz. rewrite app_nil_r. eapply H; eauto.
Qed.

(** [mid y]: inside [y] every letter follows a digit. *)
Definition mid (y : pystr) : Prop := forall a d c b, y = a ++ d :: c :: b -> letter c -> digit d.
Lemma mid_suffix : forall a y, mid (a ++ y) -> mid y.
Proof. intros a y H a' d c b E L. apply (H (a ++ a') d c b); auto. rewrite E, <- app_assoc; reflexivity. Qed.

Section Split.
Variables (sep : pystr) (q : Z).
Hypothesis Hs : sep <> [].
Hypothesis Hl : forall c, In c sep -> ~ letter c /\ ~ digit c.
Hypothesis Hq : letter q.
Let p := sep ++ [q].

Lemma app_cases : forall {A} (a b c d : list A), a ++ b = c ++ d ->
  (exists e, a = c ++ e /\ d = e ++ b) \/ (exists e, e <> [] /\ c = a ++ e /\ b = e ++ d).
Proof.
  intros A a; induction a as [|x a IH]; intros b c d E.
  - destruct c as [|y c]; [left; exists []; auto|]. right; exists (y :: c); splits; auto. discriminate.
  - destruct c as [|y c]; [left; exists (x :: a); auto|].
    injection E as -> E. destruct (IH _ _ _ E) as [[e [-> ->]]|[e [He [-> ->]]]].
    + left; exists e; auto.
    + right; exists e; auto.
Qed.

(** No occurrence starting inside a group. *)
Lemma no_start_mid : forall z S, z <> [] -> mid z -> (S = [] \/ exists T, S = sep ++ T) ->
  starts_with p (z ++ S) = false.
Proof.
  intros z S Hz Hm HS. destruct (starts_with p (z ++ S)) eqn:E; auto. exfalso.
  apply starts_with_iff in E. destruct E as [t E]. unfold p in E. rewrite <- app_assoc in E. cbn [app] in E.
  destruct (last_char sep Hs) as [s0 [d Es]].
  destruct (app_cases z S sep (q :: t) E) as [[e [E1 E2]]|[e [He [E1 E2]]]].
  - destruct e as [|x e].
    + rewrite app_nil_r in E1. cbn [app] in E2.
      destruct HS as [->|[T ->]]; [discriminate|].
      destruct sep as [|y sp]; [congruence|]. injection E2 as -> _. refine (proj1 (Hl y _) _); auto. left; auto.
    + cbn [app] in E2. injection E2 as <- E2. refine (proj2 (Hl d _) _); [rewrite Es; apply in_app_iff; right; left; auto|].
      apply (Hm s0 d q e); auto. rewrite E1, Es, <- app_assoc. reflexivity.
  - destruct HS as [->|[T ->]]; [destruct e; discriminate|].
    destruct (app_cases sep T e (q :: t) E2) as [[f [F1 F2]]|[f [Hf [F1 F2]]]].
    + destruct f as [|y f].
      * cbn in F2. rewrite app_nil_r in F1. rewrite F1 in E1. assert (length e = length (z ++ e)) by congruence.
        rewrite app_length in H. destruct z; [congruence|cbn in H; lia].
      * cbn in F2. injection F2 as <- F2. refine (proj1 (Hl q _) _); auto. rewrite F1. apply in_app_iff; right; left; auto.
    + rewrite F1, E1 in *. assert (L : length sep = length (z ++ sep ++ f)) by congruence.
      rewrite !app_length in L. destruct z; [congruence|cbn in L; lia].
Qed.

(** No occurrence starting inside the separator, before another letter. *)
Lemma no_start_sep : forall a z c T, sep = a ++ z -> z <> [] -> letter c -> (a <> [] \/ c <> q) ->
  starts_with p (z ++ c :: T) = false.
Proof.
  intros a z c T Ea Hz Hc Hn. destruct (starts_with p (z ++ c :: T)) eqn:E; auto. exfalso.
  apply starts_with_iff in E. destruct E as [t E]. unfold p in E. rewrite <- app_assoc in E. cbn [app] in E.
  destruct (app_cases z (c :: T) sep (q :: t) E) as [[e [E1 E2]]|[e [He [E1 E2]]]].
  - destruct Hn as [Hn|Hn].
    + assert (L : length sep = (length a + length z)%nat) by (rewrite Ea at 1; apply app_length).
      rewrite E1, app_length in L. destruct a; [congruence|cbn in L; lia].
    + rewrite E1 in Ea. destruct e as [|y e].
      * cbn in E2. congruence.
      * assert (L : length sep = length (a ++ sep ++ y :: e)) by congruence.
        rewrite !app_length in L. cbn in L. lia.
  - destruct e as [|y e]; [congruence|]. cbn in E2. injection E2 as <- E2.
    refine (proj1 (Hl c _) _); auto. rewrite E1. apply in_app_iff; right; left; auto.
Qed.

(** The groups of a string, after the first part [y]. *)
Definition tailtext (r : list pystr) : pystr := concat (map (fun g => sep ++ g) r).
Definition grp (g : pystr) : Prop := exists c b, g = c :: b /\ letter c /\ mid g.

Definition put_back (l : list pystr) : list pystr :=
  match l with [] => [] | g0 :: gs => g0 :: map (cons q) gs end.

Fixpoint chunks (acc : list pystr) (r : list pystr) : list (list pystr) :=
  match r with
  | [] => [acc]
  | g :: r => if match g with c :: _ => c =? q | [] => false end
              then acc :: chunks [g] r else chunks (acc ++ [g]) r
  end.

Lemma tail_head : forall r, tailtext r = [] \/ exists T, tailtext r = sep ++ T.
Proof.
  intros [|g r]; [left; auto|right]. unfold tailtext. cbn [map concat]. rewrite <- app_assoc. eauto.
Qed.

Lemma split_tail : forall r y, mid y -> (forall g, In g r -> grp g) ->
  split_go p (y ++ tailtext r) 0 = app_head y (split_go p (tailtext r) 0).
Proof.
  intros r y Hm Hr. apply split_go_no. intros a z -> Hz. apply no_start_mid; auto.
  - apply mid_suffix in Hm; auto.
  - apply tail_head.
Qed.

Lemma app_head_app : forall a b l, l <> [] -> app_head a (app_head b l) = app_head (a ++ b) l.
Proof. intros a b [|x l] H; [congruence|]. cbn. rewrite <- app_assoc. reflexivity. Qed.

Lemma put_back_head : forall y l, l <> [] -> put_back (app_head y l) = app_head y (put_back l).
Proof. intros y [|x l] H; [congruence|]. reflexivity. Qed.

Lemma chunks_head : forall r acc a, map (join sep) (chunks (a :: acc) r) <> [].
Proof.
  induction r as [|g r IH]; intros acc a; cbn [chunks]; [discriminate|].
  destruct (match g with c :: _ => c =? q | [] => false end); [discriminate|]. apply IH.
Qed.

Lemma chunks_app : forall r a acc g, map (join sep) (chunks (a :: acc ++ [g]) r) =
  app_head (join sep (a :: acc) ++ sep) (map (join sep) (chunks [g] r)).
Proof.
  induction r as [|g2 r IH]; intros a acc g; cbn [chunks].
  - cbn [map]. change (a :: acc ++ [g]) with ((a :: acc) ++ [g]). rewrite join_app by discriminate.
    cbn [app_head]. rewrite <- app_assoc. reflexivity.
  - destruct (match g2 with c :: _ => c =? q | [] => false end).
    + cbn [map]. change (a :: acc ++ [g]) with ((a :: acc) ++ [g]). rewrite join_app by discriminate.
      cbn [app_head]. rewrite <- app_assoc. reflexivity.
    + cbn [app]. change ((a :: acc ++ [g]) ++ [g2]) with (a :: ((acc ++ [g]) ++ [g2])).
      rewrite IH. change [g; g2] with (g :: [] ++ [g2]). rewrite (IH g [] g2). rewrite app_head_app.
      * apply (f_equal (fun x => app_head x _)). change (join sep [g]) with g. change (a :: acc ++ [g]) with ((a :: acc) ++ [g]). rewrite join_app by discriminate.
        change (join sep [g]) with g. rewrite <- !app_assoc. reflexivity.
      * apply chunks_head.
Qed.

Lemma split_chunks : forall r y, mid y -> (forall g, In g r -> grp g) ->
  put_back (split_go p (y ++ tailtext r) 0) = map (join sep) (chunks [y] r).
Proof.
  induction r as [|g r IH]; intros y Hm Hr.
  - rewrite split_tail by auto. unfold tailtext. cbn. rewrite app_nil_r. reflexivity.
  - rewrite split_tail by auto. destruct (Hr g (or_introl eq_refl)) as [c [b [Eg [Hc Hg]]]].
    cbn [chunks]. rewrite Eg at 2. destruct (c =? q) eqn:E.
    + apply Z.eqb_eq in E. subst c. cbn [map join].
      assert (X : split_go p (tailtext (g :: r)) 0 = [] :: split_go p (b ++ tailtext r) 0).
      { unfold tailtext. cbn [map concat]. fold (tailtext r).
        replace ((sep ++ g) ++ tailtext r) with (p ++ (b ++ tailtext r))
          by (unfold p; rewrite Eg, <- !app_assoc; reflexivity).
        assert (P : exists p0 p1, p = p0 :: p1).
        { unfold p. destruct sep as [|s0 s1]; [congruence|]. cbn. eauto. }
        destruct P as [p0 [p1 P]]. rewrite P. apply split_go_sep. }
      rewrite X. cbn [app_head put_back]. rewrite app_nil_r. f_equal.
      rewrite <- (IH g) by (auto; intros; apply Hr; right; auto).
      rewrite Eg. change ((q :: b) ++ tailtext r) with ([q] ++ (b ++ tailtext r)).
      rewrite (split_go_no p [q] (b ++ tailtext r)).
      * destruct (split_go p (b ++ tailtext r) 0) eqn:F; [exfalso; eapply split_go_nonempty; eauto|reflexivity].
      * intros a z Ez Hz. assert (z = [q]).
        { destruct a as [|a0 a]; [cbn in Ez; auto|]. injection Ez as _ Ez.
          symmetry in Ez. apply app_eq_nil in Ez. destruct Ez; congruence. }
        subst z. rewrite app_assoc. change ([q] ++ b) with (q :: b). rewrite <- Eg.
        apply no_start_mid; auto; [rewrite Eg; discriminate|apply tail_head].
    + apply Z.eqb_neq in E. unfold tailtext at 1. cbn [map concat]. fold (tailtext r). rewrite <- app_assoc.
      rewrite split_go_no.
      * rewrite app_head_app by apply split_go_nonempty.
        rewrite put_back_head by apply split_go_nonempty. rewrite IH by (auto; intros; apply Hr; right; auto).
        change ([y] ++ [g]) with (y :: [] ++ [g]). rewrite chunks_app. reflexivity.
      * intros a z Ez Hz. rewrite Eg. cbn [app]. apply (no_start_sep a); auto.
Qed.

(** ** Facts about [chunks] *)
Lemma chunks_concat : forall r acc, concat (chunks acc r) = acc ++ r.
Proof.
  induction r as [|g r IH]; intros acc; cbn [chunks].
  - reflexivity.
  - destruct (match g with c :: _ => c =? q | [] => false end).
    + cbn [concat]. rewrite IH. reflexivity.
    + rewrite IH, <- app_assoc. reflexivity.
Qed.

Definition head_is (c : Z) (g : pystr) : Prop := exists b, g = c :: b.

Lemma chunks_nonempty : forall r acc k, acc <> [] -> In k (chunks acc r) -> k <> [].
Proof.
  induction r as [|g r IH]; intros acc k Ha; cbn [chunks].
  - intros [<-|[]]; auto.
  - destruct (match g with c :: _ => c =? q | [] => false end).
    + intros [<-|H]; auto. revert H. apply IH. discriminate.
    + apply IH. destruct acc; discriminate.
Qed.

Lemma chunks_heads : forall r acc k g, (forall x, In x (tl acc) -> ~ head_is q x) -> acc <> [] ->
  In k (chunks acc r) -> In g (tl k) -> ~ head_is q g.
Proof.
  induction r as [|x r IH]; intros acc k g Ha Hn; cbn [chunks].
  - intros [<-|[]] H; auto.
  - destruct (match x with c :: _ => c =? q | [] => false end) eqn:E.
    + intros [<-|H]; auto. revert H. apply IH; [intros y []|discriminate].
    + apply IH; [|destruct acc; discriminate]. intros y Hy. destruct acc as [|a0 acc]; [congruence|].
      cbn [tl app] in Hy. apply in_app_iff in Hy. destruct Hy as [Hy|[<-|[]]]; [apply Ha; auto|].
      intros [b ->]. rewrite Z.eqb_refl in E. discriminate.
Qed.

Lemma chunks_tl : forall r acc k g, acc <> [] -> In k (chunks acc r) -> In g (tl k) -> In g (tl acc ++ r).
Proof.
  induction r as [|x r IH]; intros acc k g Hn; cbn [chunks].
  - intros [<-|[]] H. rewrite app_nil_r; auto.
  - destruct (match x with c :: _ => c =? q | [] => false end) eqn:E.
    + intros [<-|H] Hg; [apply in_app_iff; auto|]. apply in_app_iff. right; right.
      apply (IH [x] k g); auto. discriminate.
    + intros H Hg. assert (A : acc ++ [x] <> []) by (destruct acc; discriminate).
      pose proof (IH (acc ++ [x]) k g A H Hg) as X. destruct acc as [|a0 acc]; [congruence|].
      cbn [app tl] in X. rewrite <- app_assoc in X. exact X.
Qed.
End Split.

Lemma join_tailtext : forall sep g r, join sep (g :: r) = g ++ tailtext sep r.
Proof.
  intros sep g r; revert g. induction r as [|x r IH]; intros g.
  - unfold tailtext. cbn. rewrite app_nil_r. reflexivity.
  - rewrite join_cons, IH. unfold tailtext at 2. cbn [map concat]. fold (tailtext sep r).
    rewrite <- app_assoc. reflexivity.
Qed.

(** * Splitting a string into its groups *)
Section Groups.
Variable sep : pystr.
Hypothesis Hs : sep <> [].
Hypothesis Hl : forall c, In c sep -> ~ letter c /\ ~ digit c.

Definition hd_chunks (q : Z) (k : list pystr) : list (list pystr) :=
  match k with [] => [] | g :: r => chunks q [g] r end.

Lemma split_groups_ok : forall q ks, letter q ->
  (forall k, In k ks -> k <> [] /\ forall g, In g k -> grp g) ->
  split_groups sep (map (join sep) ks) q = Ok (map (join sep) (flat_map (hd_chunks q) ks)).
Proof.
  intros q ks Hq Hk. unfold split_groups.
  rewrite (mapM_ok _ (fun s => put_back q (split_go (sep ++ [q]) s 0))).
  - simpl. apply f_equal. rewrite map_map, flat_map_concat_map, concat_map, map_map. apply f_equal.
    apply map_ext_in. intros k Hin. destruct (Hk k Hin) as [Hne Hg]. destruct k as [|g r]; [congruence|].
    rewrite join_tailtext. cbn [hd_chunks]. apply split_chunks; auto.
    + destruct (Hg g (or_introl eq_refl)) as [c [b [_ [_ H]]]]; auto.
    + intros x Hx; apply Hg; right; auto.
  - intros s _. unfold PyStr.split.
    destruct (sep ++ [q]) as [|p0 p1] eqn:E; [destruct sep; discriminate|]. simpl.
    destruct (split_go (p0 :: p1) s 0) eqn:F; [exfalso; eapply split_go_nonempty; eauto|reflexivity].
Qed.

Definition inv_chunks (gs : list pystr) (Q : Z -> Prop) (ks : list (list pystr)) : Prop :=
  concat ks = gs /\ (forall k, In k ks -> k <> []) /\
  forall k g c, In k ks -> In g (tl k) -> Q c -> ~ head_is c g.

Lemma split_step : forall gs Q q ks, letter q -> (forall g, In g gs -> grp g) -> inv_chunks gs Q ks ->
  split_groups sep (map (join sep) ks) q = Ok (map (join sep) (flat_map (hd_chunks q) ks)) /\
  inv_chunks gs (fun c => Q c \/ c = q) (flat_map (hd_chunks q) ks).
Proof.
  intros gs Q q ks Hq Hg [I1 [I2 I3]]. split; [|unfold inv_chunks; splits].
  - apply split_groups_ok; auto. intros k Hk; split; [apply I2; auto|]. intros g Hin. apply Hg.
    rewrite <- I1. apply in_concat. eauto.
  - rewrite <- I1. clear I1 I3. induction ks as [|k ks IH]; auto. cbn [flat_map concat].
    rewrite concat_app, IH by (intros; apply I2; right; auto).
    destruct k as [|g r]; [destruct (I2 [] (or_introl eq_refl)); auto|]. cbn [hd_chunks].
    rewrite chunks_concat. reflexivity.
  - intros k Hk. apply in_flat_map in Hk. destruct Hk as [k0 [H1 H2]].
    destruct k0 as [|g r]; [destruct H2|]. cbn [hd_chunks] in H2. revert H2. apply chunks_nonempty. discriminate.
  - intros k g c Hk Hin Hc. apply in_flat_map in Hk. destruct Hk as [k0 [H1 H2]].
    destruct k0 as [|g0 r]; [destruct H2|]. cbn [hd_chunks] in H2. destruct Hc as [Hc| ->].
    + apply (I3 (g0 :: r)); auto. cbn [tl].
      apply (chunks_tl q r [g0] k g) in H2; auto. discriminate.
    + revert H2 Hin. apply chunks_heads; [intros y []|discriminate].
Qed.

Lemma split_all : forall gs, gs <> [] -> (forall g, In g gs -> grp g) ->
  foldM (split_groups sep) QUALIFIERS [join sep gs] = Ok gs.
Proof.
  intros gs Hn Hg.
  assert (I0 : inv_chunks gs (fun _ => False) [gs]).
  { unfold inv_chunks; splits.
    - cbn. apply app_nil_r.
    - intros k [<-|[]]; auto.
    - tauto. }
  change [join sep gs] with (map (join sep) [gs]).
  change QUALIFIERS with [114; 99; 98; 112].
  assert (L : letter 114 /\ letter 99 /\ letter 98 /\ letter 112) by (unfold letter; tauto).
  destruct L as [L1 [L2 [L3 L4]]]. cbn [foldM].
  destruct (split_step gs _ 114 _ L1 Hg I0) as [E1 I1]. rewrite E1. cbn [rbind].
  destruct (split_step gs _ 99 _ L2 Hg I1) as [E2 I2]. rewrite E2. cbn [rbind].
  destruct (split_step gs _ 98 _ L3 Hg I2) as [E3 I3]. rewrite E3. cbn [rbind].
  destruct (split_step gs _ 112 _ L4 Hg I3) as [E4 I4]. rewrite E4. cbn [rbind].
  clear E1 E2 E3 E4 I0 I1 I2 I3. revert I4.
  match goal with |- context [map (join sep) ?X] => generalize X end. intros ks [J1 [J2 J3]].
  f_equal. rewrite <- J1 in *. clear J1 Hn. induction ks as [|k ks IH]; auto.
  cbn [map concat]. rewrite IH.
  - destruct k as [|g [|g2 r]]; [destruct (J2 [] (or_introl eq_refl)); auto|reflexivity|]. exfalso.
    destruct (Hg g2) as [c [b [E [Hc _]]]].
    { cbn [concat]. apply in_app_iff; left; right; left; auto. }
    apply (J3 (g :: g2 :: r) g2 c); [left; auto|left; auto| |exists b; auto].
    destruct Hc as [Hc|[Hc|[Hc|Hc]]]; auto.
  - intros g Hin. apply Hg. cbn [concat]. apply in_app_iff; auto.
  - intros k' Hk'; apply J2; right; auto.
  - intros k' g c Hk'; apply J3; right; auto.
Qed.
End Groups.
