(** The groups of a text. *)
From Verif Require Export SpecDecode LNotation6.
Import PyStr MNotation.

(** * The pieces of split *)
Lemma occurs_cons : forall p c s, occurs p (c :: s) -> starts_with p (c :: s) = true \/ occurs p s.
Proof.
  intros p c s [a [b E]]. destruct a as [|x a]; [left; apply starts_with_iff; exists b; exact E|].
  injection E as -> E. right. exists a, b. exact E.
Qed.
Lemma occurs_suffix : forall p a s, occurs p s -> occurs p (a ++ s).
Proof. intros p a s [x [y ->]]. exists (a ++ x), y. rewrite <- app_assoc. reflexivity. Qed.
Lemma occurs_prefix : forall p a s, occurs p s -> occurs p (s ++ a).
Proof. intros p a s [x [y ->]]. exists x, (y ++ a). rewrite <- !app_assoc. reflexivity. Qed.
Lemma occurs_trans : forall a b c, occurs a b -> occurs b c -> occurs a c.
Proof. intros a b c H [x [y ->]]. apply occurs_suffix, occurs_prefix; auto. Qed.
Lemma starts_prefix : forall p a b, starts_with p a = true -> starts_with p (a ++ b) = true.
Proof. intros p a b H. apply starts_with_iff in H. destruct H as [t ->]. rewrite <- app_assoc. apply starts_with_app. Qed.

Lemma join_head : forall sep x l, exists t, join sep (x :: l) = x ++ t.
Proof. intros sep x [|y l]; [exists []; cbn; rewrite app_nil_r; auto|]. rewrite join_cons. eauto. Qed.
Lemma join_cons_head : forall sep c l, l <> [] -> join sep (cons_head c l) = c :: join sep l.
Proof. intros sep c [|x [|y l]] H; [congruence| |]; reflexivity. Qed.

Lemma split_pieces_n : forall p n s, p <> [] -> (length s <= n)%nat ->
  join p (split_go p s 0) = s /\ forall x, In x (split_go p s 0) -> ~ occurs p x.
Proof.
  intros p n; induction n as [|n IH]; intros s Hp L.
  - destruct s; [|cbn in L; lia]. split; auto. intros x [<-|[]] [a [b E]]. destruct a, p; try discriminate. congruence.
  - destruct s as [|c s]; [apply (IH []); auto; cbn; lia|]. destruct (starts_with p (c :: s)) eqn:S.
    + apply starts_with_iff in S. destruct S as [t S]. rewrite S. destruct p as [|p0 p1]; [congruence|]. rewrite split_go_sep.
      assert (L2 : (length t <= n)%nat) by (apply (f_equal (@length _)) in S; rewrite app_length in S; cbn in S, L; lia).
      destruct (IH t Hp L2) as [J F]. pose proof (split_go_nonempty (p0 :: p1) t 0) as NE.
      destruct (split_go (p0 :: p1) t 0) as [|y l]; [congruence|]. split; [rewrite join_cons; cbn [app]; rewrite J; auto|].
      intros x [<-|I]; auto. intros [a [b E]]. destruct a; discriminate.
    + cbn [split_go]. rewrite S. destruct (IH s Hp ltac:(cbn in L; lia)) as [J F]. pose proof (split_go_nonempty p s 0) as NE. split.
      * rewrite join_cons_head by auto. rewrite J. reflexivity.
      * destruct (split_go p s 0) as [|y l]; [congruence|]. cbn [cons_head]. intros x [<-|I]; [|apply F; right; auto].
        intros O. apply occurs_cons in O. destruct O as [O|O]; [|apply (F y); [left; auto|auto]].
        destruct (join_head p y l) as [t Ht]. rewrite Ht in J. rewrite <- J in S. change (c :: y ++ t) with ((c :: y) ++ t) in S.
        rewrite (starts_prefix _ _ _ O) in S. discriminate.
Qed.
Lemma split_pieces : forall p s, p <> [] -> join p (split_go p s 0) = s /\ forall x, In x (split_go p s 0) -> ~ occurs p x.
Proof. intros p s Hp. apply (split_pieces_n p (length s)); auto. Qed.

Lemma in_join_occurs : forall sep x l, In x l -> occurs x (join sep l).
Proof.
  intros sep x l; induction l as [|y l IH]; intros I; [destruct I|]. destruct l as [|z l].
  - destruct I as [<-|[]]. exists [], []. cbn. rewrite app_nil_r. reflexivity.
  - rewrite join_cons. destruct I as [<-|I]; [exists [], (sep ++ join sep (z :: l)); reflexivity|].
    rewrite app_assoc. apply occurs_suffix; auto.
Qed.

(** * Cutting at the separators *)
Section Cut.
Variable sep : pystr.
Hypothesis Hs : sep <> [].
Hypothesis Hl : forall c, In c sep -> ~ letter c /\ ~ digit c.

(** Cut at the separators followed by one of the letters [qs] *)
Definition cut_by (qs : list Z) (s : pystr) (gs : list pystr) : Prop :=
  s = join sep gs /\ gs <> [] /\
  (forall g, In g (tl gs) -> exists q t, g = q :: t /\ letter q) /\
  (forall g q, In g gs -> In q qs -> ~ occurs (sep ++ [q]) g).

Lemma join_put_back : forall q x l, join (sep ++ [q]) (x :: l) = join sep (x :: map (cons q) l).
Proof.
  intros q x l; revert x. induction l as [|y l IH]; intros x; [reflexivity|]. cbn [map]. rewrite !join_cons, IH, <- app_assoc. cbn [app].
  f_equal. f_equal. destruct l; reflexivity.
Qed.
Lemma not_occurs_head : forall q x, letter q -> ~ occurs (sep ++ [q]) x -> ~ occurs (sep ++ [q]) (q :: x).
Proof.
  intros q x Hq N O. apply occurs_cons in O. destruct O as [O|O]; auto. apply starts_with_iff in O. destruct O as [t E].
  destruct sep as [|s0 s1]; [congruence|]. cbn in E. injection E as E _. subst. refine (proj1 (Hl s0 _) _); [left|]; auto.
Qed.
Lemma split_one : forall q s, letter q -> exists x l, split_groups sep [s] q = Ok (x :: map (cons q) l) /\
  s = join sep (x :: map (cons q) l) /\ forall g, In g (x :: map (cons q) l) -> ~ occurs (sep ++ [q]) g.
Proof.
  intros q s Hq. assert (Hp : sep ++ [q] <> []) by (destruct sep; discriminate).
  destruct (split_pieces (sep ++ [q]) s Hp) as [J F]. pose proof (split_go_nonempty (sep ++ [q]) s 0) as NE.
  unfold split_groups. cbn [mapM]. unfold PyStr.split. destruct (sep ++ [q]) as [|p0 p1] eqn:E; [congruence|]. cbn [rbind].
  destruct (split_go (p0 :: p1) s 0) as [|x l]; [congruence|]. cbn [rbind concat]. rewrite app_nil_r. exists x, l. split; auto.
  rewrite <- E in J, F. rewrite join_put_back in J. split; auto. rewrite <- E. intros g [<-|I]; [apply F; left; auto|].
  apply in_map_iff in I. destruct I as [y [<- I]]. apply not_occurs_head; auto. apply F. right; auto.
Qed.
Lemma split_groups_cons : forall g gs q x r, split_groups sep [g] q = Ok x -> split_groups sep gs q = Ok r ->
  split_groups sep (g :: gs) q = Ok (x ++ r).
Proof.
  intros g gs q x r. unfold split_groups. cbn [mapM].
  destruct (PyStr.split (sep ++ [q]) g) as [y|e]; cbn [rbind]; [|discriminate].
  destruct (match y with [] => Ok [] | g0 :: l => Ok (g0 :: map (cons q) l) end) as [z|e]; cbn [rbind]; [|discriminate].
  destruct (mapM _ gs) as [t|e]; cbn [rbind]; [|discriminate]. intros A B. injection A as <-. injection B as <-. cbn [concat].
  rewrite app_nil_r. reflexivity.
Qed.
Lemma split_step_cut : forall qs q gs s, letter q -> cut_by qs s gs -> exists gs', split_groups sep gs q = Ok gs' /\ cut_by (q :: qs) s gs'.
Proof.
  intros qs q gs s Hq [J [NE [T F]]].
  assert (X : exists kss, split_groups sep gs q = Ok (concat kss) /\ Forall2 (fun g ks => ks <> [] /\ join sep ks = g /\
     (forall x, In x (tl ks) -> exists q t, x = q :: t /\ letter q) /\ (forall x, In x ks -> ~ occurs (sep ++ [q]) x) /\
     exists c, hd [] ks = c /\ forall a b, g = a :: b -> letter a -> exists d, c = a :: d) gs kss).
  { clear J NE T F. induction gs as [|g gs [kss [E H]]]; [exists []; split; [reflexivity|constructor]|].
    destruct (split_one q g Hq) as [x [l [E2 [J2 F2]]]]. exists ((x :: map (cons q) l) :: kss).
    split; [cbn [concat]; apply split_groups_cons; auto|]. constructor; auto. splits; auto; [discriminate| |].
    - cbn [tl]. intros y I. apply in_map_iff in I. destruct I as [z [<- _]]. eauto.
    - exists x. split; [reflexivity|]. intros a b E3 La. rewrite E3 in J2. destruct x as [|x0 x1].
      + exfalso. destruct l as [|y l]; [discriminate|]. cbn [map] in J2. rewrite join_cons in J2. cbn [app] in J2.
        destruct sep as [|s0 s1]; [congruence|]. injection J2 as E4 _. subst a. refine (proj1 (Hl s0 _) _); [left|]; auto.
      + destruct (join_head sep (x0 :: x1) (map (cons q) l)) as [t Ht]. pose proof (eq_trans J2 Ht) as J3. injection J3 as <- _. eauto. }
  destruct X as [kss [E H]]. exists (concat kss). split; auto.
  assert (NE' : forall ks, In ks kss -> ks <> []).
  { clear - H. induction H as [|g ks gs kss [X _] _ IH]; intros k I; [destruct I|destruct I as [<-|I]; auto]. }
  assert (M : map (join sep) kss = gs).
  { clear - H. induction H as [|g ks gs kss [_ [X _]] _ IH]; cbn [map]; [reflexivity|]. rewrite X. f_equal. exact IH. }
  unfold cut_by; splits.
  - refine (eq_trans J _). refine (eq_trans _ (join_join sep kss NE')). rewrite M. reflexivity.
  - intros C. destruct kss as [|k kss]; [cbn in M; congruence|]. apply (NE' k); [left; auto|]. cbn [concat] in C. apply app_eq_nil in C. tauto.
  - clear J F M E. destruct H as [|g ks gs kss H1 H2]; [intros x []|]. cbn [concat tl] in *. destruct H1 as [K1 [_ [K3 _]]].
    destruct ks as [|k0 ks]; [congruence|]. cbn [app tl] in *. intros x I. apply in_app_iff in I. destruct I as [I|I]; [auto|].
    apply in_concat in I. destruct I as [ks' [I1 I2]]. clear - T H2 I1 I2. induction H2 as [|g ks gs kss [K1 [_ [K3 [_ [c [K4 K5]]]]]] _ IH]; [destruct I1|].
    destruct I1 as [<-|I1]; [|apply IH; auto; intros; apply T; right; auto]. destruct ks as [|k ks]; [congruence|]. cbn [tl hd] in *.
    destruct I2 as [<-|I2]; [|auto]. destruct (T g (or_introl eq_refl)) as [a [b [E La]]]. destruct (K5 a b E La) as [d D].
    subst c. rewrite D. eauto.
  - intros x c I Ic. apply in_concat in I. destruct I as [ks [I1 I2]]. clear - F H I1 I2 Ic.
    induction H as [|g ks' gs kss [_ [K2 [_ [K4 _]]]] _ IH]; [destruct I1|]. destruct I1 as [->|I1].
    + destruct Ic as [<-|Ic]; [auto|]. intros O. apply (F g c); [left; auto|auto|]. rewrite <- K2. eapply occurs_trans; [exact O|].
      apply in_join_occurs; auto.
    + apply IH; auto. intros; apply F; [right|]; auto.
Qed.

Lemma cut_ok : forall s, exists gs, foldM (split_groups sep) QUALIFIERS [s] = Ok gs /\ cut_at sep s gs.
Proof.
  intros s. assert (X : forall qs done gs, (forall q, In q qs -> letter q) -> cut_by done s gs ->
    exists gs', foldM (split_groups sep) qs gs = Ok gs' /\ cut_by (rev qs ++ done) s gs').
  { induction qs as [|q qs IH]; intros dn gs Hq C; [exists gs; auto|].
    destruct (split_step_cut dn q gs s (Hq q (or_introl eq_refl)) C) as [gs1 [E1 C1]].
    destruct (IH (q :: dn) gs1 ltac:(intros; apply Hq; right; auto) C1) as [gs2 [E2 C2]]. exists gs2. cbn [foldM]. rewrite E1. cbn [rbind].
    split; auto. cbn [rev]. rewrite <- app_assoc. exact C2. }
  destruct (X QUALIFIERS [] [s]) as [gs [E C]].
  - intros q I. apply letter_qual, char_in_iff; auto.
  - unfold cut_by; splits; auto; [discriminate|intros g []].
  - exists gs. split; auto. destruct C as [C1 [C2 [C3 C4]]]. unfold cut_at; splits; auto. intros g q I Lq. apply C4; auto.
    apply in_app_iff; left. rewrite <- in_rev. apply char_in_iff, letter_qual; auto.
Qed.

(** ** Only one way to cut *)
Lemma app_same_length : forall {A} (a b c d : list A), a ++ b = c ++ d -> (length a < length c)%nat ->
  exists x y, c = a ++ x :: y /\ b = x :: y ++ d.
Proof.
  intros A a; induction a as [|x a IH]; intros b c d E L.
  - destruct c as [|y c]; [cbn in L; lia|]. exists y, c. split; [reflexivity|exact E].
  - destruct c as [|y c]; [cbn in L; lia|]. injection E as -> E. destruct (IH b c d E ltac:(cbn in L; lia)) as [u [v [-> ->]]]. exists u, v. split; reflexivity.
Qed.

Lemma cut_first : forall g t g' r, (forall q, letter q -> ~ occurs (sep ++ [q]) g) -> (forall q, letter q -> ~ occurs (sep ++ [q]) g') ->
  (t = [] \/ exists q u, letter q /\ t = sep ++ q :: u) -> (r = [] \/ exists q u, letter q /\ r = sep ++ q :: u) ->
  g ++ t = g' ++ r -> g = g' /\ t = r.
Proof.
  assert (X : forall g t g' r, (forall q, letter q -> ~ occurs (sep ++ [q]) g') ->
    (t = [] \/ exists q u, letter q /\ t = sep ++ q :: u) -> (r = [] \/ exists q u, letter q /\ r = sep ++ q :: u) ->
    g ++ t = g' ++ r -> (length g < length g')%nat -> False).
  { intros g t g' r N Ht Hr E L. destruct (app_same_length _ _ _ _ E L) as [x [y [E1 E2]]].
    destruct Ht as [->|[q [u [Lq ->]]]]; [discriminate|].
    change (sep ++ q :: u) with (sep ++ [q] ++ u) in E2. rewrite app_assoc in E2. change (x :: y ++ r) with ((x :: y) ++ r) in E2.
    destruct (app_cases _ _ _ _ E2) as [[e [F1 F2]]|[e [He [F1 F2]]]].
    - (* the separator with its letter goes beyond g' *)
      destruct Hr as [->|[q' [u' [Lq' ->]]]].
      + symmetry in F2. apply app_eq_nil in F2. destruct F2 as [-> ->]. rewrite app_nil_r in F1. apply (N q Lq). rewrite E1, <- F1.
        exists g, []. rewrite app_nil_r. reflexivity.
      + destruct e as [|e0 e1].
        * rewrite app_nil_r in F1. apply (N q Lq). rewrite E1, <- F1. exists g, []. rewrite app_nil_r. reflexivity.
        * assert (Q : In q (e0 :: e1)).
          { assert (Z : exists z, e0 :: e1 = z ++ [q]).
            { destruct (@exists_last _ (e0 :: e1) ltac:(discriminate)) as [z [k Z]]. rewrite Z in F1. rewrite app_assoc in F1.
              apply app_inj_tail in F1. destruct F1 as [_ <-]. eauto. }
            destruct Z as [z ->]. apply in_app_iff. right; left; auto. }
          (* e is a prefix of sep ++ [q'] ..., and sep = (x :: y) ++ removelast e *)
          assert (LE : (length (e0 :: e1) <= length sep)%nat).
          { apply (f_equal (@length _)) in F1. rewrite !app_length in F1. cbn [length] in F1 |- *. lia. }
          destruct (app_cases _ _ _ _ F2) as [[f [G1 G2]]|[f [Hf [G1 G2]]]].
          -- refine (proj1 (Hl q _) Lq). rewrite G1. apply in_app_iff; auto.
          -- apply (f_equal (@length _)) in G1. rewrite app_length in G1. destruct f; [congruence|]. cbn [length] in G1, LE. lia.
    - apply (N q Lq). rewrite E1, F1. exists g, e. rewrite <- !app_assoc. reflexivity. }
  intros g t g' r N N' Ht Hr E. destruct (lt_eq_lt_dec (length g) (length g')) as [[L|L]|L].
  - exfalso. eapply X; [exact N'| | |exact E|exact L]; auto.
  - assert (g = g') by (clear - E L; revert g' E L; induction g as [|c g IH]; intros [|c' g'] E L; cbn in *; try lia; auto;
      injection E as -> E; f_equal; apply IH; auto). subst g'. split; auto. apply app_inv_head in E. auto.
  - exfalso. eapply X; [exact N| | |symmetry; exact E|exact L]; auto.
Qed.
Lemma cut_unique : forall gs gs' s, cut_at sep s gs -> cut_at sep s gs' -> gs = gs'.
Proof.
  induction gs as [|g gs IH]; intros gs' s [E [N [T F]]] [E' [N' [T' F']]]; [congruence|]. destruct gs' as [|g' gs']; [congruence|].
  assert (R : forall (x : pystr) l, (forall y, In y l -> exists q t, y = q :: t /\ letter q) ->
    exists r, join sep (x :: l) = x ++ r /\ (r = [] \/ exists q u, letter q /\ r = sep ++ q :: u) /\ (r = [] <-> l = []) /\
      (forall y k, l = y :: k -> r = sep ++ join sep (y :: k))).
  { intros x [|y l] H; [exists []; splits; auto; try tauto; [cbn; rewrite app_nil_r; auto|discriminate]|].
    exists (sep ++ join sep (y :: l)). rewrite join_cons. destruct (H y (or_introl eq_refl)) as [q [t [-> Lq]]].
    split; [reflexivity|]. split; [|split].
    - right. destruct (join_head sep (q :: t : pystr) l) as [u Hu]. exists q, (t ++ u). split; auto. f_equal. exact Hu.
    - split; [|discriminate]. intros X. apply app_eq_nil in X. tauto.
    - intros y k X. injection X as <- <-. reflexivity. }
  destruct (R g gs T) as [r [J1 [J2 [J3 J4]]]]. destruct (R g' gs' T') as [r' [J1' [J2' [J3' J4']]]].
  destruct (cut_first g r g' r') as [-> ->]; auto.
  - intros q; apply F; left; auto.
  - intros q; apply F'; left; auto.
  - rewrite <- J1, <- J1', <- E, <- E'. reflexivity.
  - f_equal. destruct gs as [|y gs]; [symmetry; apply J3'; apply J3; auto|]. destruct gs' as [|y' gs']; [exfalso; assert (X : y :: gs = []) by (apply J3; apply J3'; auto); discriminate|].
    apply (IH _ (join sep (y :: gs))).
    + unfold cut_at; splits; auto; [discriminate|intros; apply T; right; auto|intros; apply F; [right|]; auto].
    + unfold cut_at; splits; [|discriminate|intros; apply T'; right; auto|intros; apply F'; [right|]; auto].
      apply (app_inv_head sep). exact (eq_trans (eq_sym (J4 y gs eq_refl)) (J4' y' gs' eq_refl)).
Qed.
End Cut.
