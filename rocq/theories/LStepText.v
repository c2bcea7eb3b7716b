(** The texts of steps. *)
From Verif Require Import LStr LFind6 LSolvers5.
From Verif Require Import SpecText.

(** * Reading a text back *)
Definition stops (x : pystr) : Prop := match x with c :: _ => is_digit c = false | [] => True end.

Lemma digits_prefix : forall a b x y, (forall c, In c a -> is_digit c = true) -> (forall c, In c b -> is_digit c = true) ->
  stops x -> stops y -> a ++ x = b ++ y -> a = b /\ x = y.
Proof.
  induction a as [|c a IH]; intros [|d b] x y Ha Hb Sx Sy E; cbn [app] in *; auto.
  - subst x. cbn [stops] in Sx. rewrite Hb in Sx by (left; auto). discriminate.
  - subst y. cbn [stops] in Sy. rewrite Ha in Sy by (left; auto). discriminate.
  - injection E as <- E. destruct (IH b x y) as [-> ->]; auto; intros; [apply Ha|apply Hb]; right; auto.
Qed.

Lemma str_of_int_split : forall n, exists sgn ds, str_of_int n = sgn ++ ds /\ (sgn = [] \/ sgn = [45]) /\
  ds <> [] /\ (forall c, In c ds -> is_digit c = true).
Proof.
  intros n. unfold str_of_int. destruct (n <? 0) eqn:E; b2p.
  - pose proof (str_of_nat_spec (- n) ltac:(lia)) as H. exists [45], (str_of_nat (- n)). splits; auto; apply H.
  - pose proof (str_of_nat_spec n ltac:(lia)) as H. exists [], (str_of_nat n). splits; auto; apply H.
Qed.

Lemma int_prefix : forall a b x y, stops x -> stops y ->
  str_of_int a ++ x = str_of_int b ++ y -> a = b /\ x = y.
Proof.
  intros a b x y Sx Sy E.
  destruct (str_of_int_split a) as [sa [da [Ea [Ga [Na Da]]]]].
  destruct (str_of_int_split b) as [sb [db [Eb [Gb [Nb Db]]]]].
  assert (S : sa = sb /\ da ++ x = db ++ y).
  { rewrite Ea, Eb, <- !app_assoc in E. destruct Ga as [-> | ->], Gb as [-> | ->]; cbn [app] in E; auto.
    - destruct da as [|c da]; [congruence|]. cbn [app] in E. injection E as -> _.
      specialize (Da 45 (or_introl eq_refl)). discriminate.
    - destruct db as [|c db]; [congruence|]. cbn [app] in E. injection E as <- _.
      specialize (Db 45 (or_introl eq_refl)). discriminate.
    - split; auto. congruence. }
  destruct S as [-> S]. destruct (digits_prefix da db x y Da Db Sx Sy S) as [-> ->]. split; auto.
  apply str_of_int_inj. congruence.
Qed.

Lemma coord_prefix : forall p q x y, coord_text p ++ x = coord_text q ++ y -> p = q /\ x = y.
Proof.
  intros [a b] [c d] x y E. unfold coord_text in E. cbn [fst snd] in E.
  rewrite <- !app_assoc in E. change (lit "(") with [40] in E. cbn [app] in E. injection E as E.
  apply int_prefix in E; [|reflexivity|reflexivity]. destruct E as [-> E].
  injection E as E. apply int_prefix in E; [|reflexivity|reflexivity]. destruct E as [-> E].
  injection E as ->. auto.
Qed.

Section Tuple.
Context {A : Type}.
Variable item : A -> pystr.
Hypothesis item_prefix : forall a b x y, stops x -> stops y -> item a ++ x = item b ++ y -> a = b /\ x = y.
Hypothesis item_head : forall a, exists c t, item a = c :: t /\ c <> 41.

Fixpoint tail_text (l : list A) : pystr :=
  match l with
  | [] => [41]
  | a :: t => [44; 32] ++ item a ++ tail_text t
  end.

Lemma tail_stops : forall l x, stops (tail_text l ++ x).
Proof. intros [|a l] x; reflexivity. Qed.

Lemma tail_prefix : forall l m x y, tail_text l ++ x = tail_text m ++ y -> l = m /\ x = y.
Proof.
  induction l as [|a l IH]; intros [|b m] x y E; cbn [tail_text app] in E; try discriminate.
  - split; auto. congruence.
  - injection E as E. rewrite <- !app_assoc in E.
    apply item_prefix in E; try apply tail_stops. destruct E as [-> E].
    destruct (IH m x y E) as [-> ->]. auto.
Qed.

Lemma join_tail : forall a l, join (lit ", ") (map item (a :: l)) ++ [41] = item a ++ tail_text l.
Proof.
  intros a l. revert a. induction l as [|b l IH]; intros a; [reflexivity|].
  cbn [map]. rewrite join_cons, <- !app_assoc. cbn [map] in IH. rewrite IH. reflexivity.
Qed.

Lemma tuple_tail : forall l, tuple_text item l =
  40 :: match l with
        | [] => [41]
        | [a] => item a ++ [44; 41]
        | a :: t => item a ++ tail_text t
        end.
Proof.
  intros [|a [|b l]]; [reflexivity|reflexivity|].
  unfold tuple_text. change (lit ")") with [41]. rewrite join_tail. reflexivity.
Qed.

Lemma tuple_prefix : forall l m x y, tuple_text item l ++ x = tuple_text item m ++ y -> l = m /\ x = y.
Proof.
  intros l m x y E. rewrite !tuple_tail in E. cbn [app] in E. injection E as E.
  assert (N : forall a t x y, item a ++ t ++ x = [41] ++ y -> False).
  { intros a t x0 y0 H. destruct (item_head a) as [c [u [H1 H2]]]. rewrite H1 in H. cbn [app] in H. congruence. }
  destruct l as [|a [|a' l]], m as [|b [|b' m]]; try rewrite <- app_assoc in E; try rewrite <- (app_assoc (item b)) in E.
  - split; auto. cbn [app] in E. congruence.
  - symmetry in E. destruct (N _ _ _ _ E).
  - symmetry in E. destruct (N _ _ _ _ E).
  - destruct (N _ _ _ _ E).
  - apply item_prefix in E; [|reflexivity|reflexivity]. destruct E as [-> E]. apply app_inv_head in E. auto.
  - apply item_prefix in E; [|reflexivity|reflexivity]. destruct E as [_ E]. cbn [app tail_text] in E. congruence.
  - destruct (N _ _ _ _ E).
  - apply item_prefix in E; [|reflexivity|reflexivity]. destruct E as [_ E]. cbn [app tail_text] in E. congruence.
  - apply item_prefix in E; [|reflexivity|reflexivity]. destruct E as [-> E].
    apply tail_prefix in E. destruct E as [E ->]. split; congruence.
Qed.
End Tuple.

Lemma coords_prefix : forall l m x y, tuple_text coord_text l ++ x = tuple_text coord_text m ++ y -> l = m /\ x = y.
Proof.
  apply tuple_prefix.
  - intros a b x y _ _ E. apply coord_prefix; auto.
  - intros [a b]. eexists; eexists. split; [reflexivity|discriminate].
Qed.

Lemma ints_prefix : forall l m x y, tuple_text str_of_int l ++ x = tuple_text str_of_int m ++ y -> l = m /\ x = y.
Proof.
  apply tuple_prefix.
  - intros a b x y. apply int_prefix.
  - intros a. destruct (str_of_int_split a) as [sg [ds [E [G [N D]]]]]. destruct G as [-> | ->].
    + destruct ds as [|c ds]; [congruence|]. exists c, ds. split; auto. intros ->.
      specialize (D 41 (or_introl eq_refl)). discriminate.
    + exists 45, ds. split; auto. discriminate.
Qed.

(** * Names *)
Lemma name_chars : forall cls, In cls SOLVERS -> forall c, In c (class_name cls) -> 65 <= c <= 122.
Proof.
  assert (H : forallb (fun cls => forallb (fun c => (65 <=? c) && (c <=? 122)) (class_name cls)) SOLVERS = true) by (vm_compute; reflexivity).
  intros cls Hc c Hx. rewrite forallb_forall in H. specialize (H cls Hc). rewrite forallb_forall in H. specialize (H c Hx).
  b2p. lia.
Qed.

Lemma name_inj : forall a b, In a SOLVERS -> In b SOLVERS -> class_name a = class_name b -> a = b.
Proof.
  assert (H : forallb (fun x => forallb (fun y => negb (str_eqb (class_name (fst x)) (class_name (fst y))) || Nat.eqb (snd x) (snd y)) 
     (combine SOLVERS (seq 0 17))) (combine SOLVERS (seq 0 17)) = true) by (vm_compute; reflexivity).
  assert (K : forall a, In a SOLVERS -> exists i, nth_error SOLVERS i = Some a /\ In (a, i) (combine SOLVERS (seq 0 17))).
  { intros a Ha. apply In_nth_error in Ha. destruct Ha as [i Hi]. exists i. split; auto.
    assert (Li : (i < 17)%nat) by (change 17%nat with (length SOLVERS); apply nth_error_Some; congruence).
    assert (E : nth_error (combine SOLVERS (seq 0 17)) i = Some (a, i)).
    { clear -Hi Li. do 17 (destruct i as [|i]; [cbn in *; congruence|]). lia. }
    eapply nth_error_In; eauto. }
  intros a b Ha Hb E. destruct (K a Ha) as [i [Ei Ki]]. destruct (K b Hb) as [j [Ej Kj]].
  rewrite forallb_forall in H. specialize (H _ Ki). rewrite forallb_forall in H. specialize (H _ Kj). cbn [fst snd] in H.
  apply orb_prop in H. destruct H as [H|H].
  - apply negb_true_iff in H. assert (str_eqb (class_name a) (class_name b) = true) by (apply str_eqb_eq; auto). congruence.
  - apply Nat.eqb_eq in H. subst j. congruence.
Qed.

Lemma name_prefix : forall a b c x y, In a SOLVERS -> In b SOLVERS -> c < 65 ->
  class_name a ++ c :: x = class_name b ++ c :: y -> a = b /\ x = y.
Proof.
  intros a b c x y Ha Hb Hc E. pose proof (name_chars a Ha) as Ca. pose proof (name_chars b Hb) as Cb.
  pose proof (name_inj a b Ha Hb) as I.
  assert (G : forall u v, (forall d, In d u -> 65 <= d <= 122) -> (forall d, In d v -> 65 <= d <= 122) ->
    u ++ c :: x = v ++ c :: y -> u = v /\ x = y).
  { clear -Hc. induction u as [|d u IH]; intros [|e v] Cu Cv E; cbn [app] in E.
    - split; congruence.
    - injection E as E _. specialize (Cv e (or_introl eq_refl)). lia.
    - injection E as E _. specialize (Cu d (or_introl eq_refl)). lia.
    - injection E as -> E. destruct (IH v) as [-> ->]; auto; intros; [apply Cu|apply Cv]; right; auto. }
  destruct (G _ _ Ca Cb E) as [G1 G2]. auto.
Qed.

(** * repr *)
Lemma repr_ok : forall a, made a -> exists t, step_repr a = Ok t.
Proof.
  intros a [Ha Sa]. unfold step_repr. destruct (single_field (st_class a)); [|eauto].
  destruct (Sa eq_refl) as [p [v [-> [_ ->]]]]. cbn. eauto.
Qed.
Lemma str_ok : forall a, made a -> exists t, step_str a = Ok t.
Proof.
  intros a [Ha Sa]. unfold step_str. destruct (single_field (st_class a)); [|eauto].
  destruct (Sa eq_refl) as [p [v [-> [_ ->]]]]. cbn. eauto.
Qed.

Lemma repr_inj : forall a b t, made a -> made b -> step_repr a = Ok t -> step_repr b = Ok t ->
  st_class a = st_class b /\ key a = key b.
Proof.
  intros a b t [Ha Sa] [Hb Sb] Ea Eb. unfold step_repr in *.
  assert (S : single_field (st_class a) = single_field (st_class b) /\ st_class a = st_class b).
  { assert (Na : exists x, t = class_name (st_class a) ++ 40 :: x).
    { destruct (single_field (st_class a)).
      - destruct (Sa eq_refl) as [p [v [P1 [P2 P3]]]]. rewrite P1, P3 in Ea. cbn [list_get rbind] in Ea.
        eexists. injection Ea as <-. reflexivity.
      - eexists. injection Ea as <-. reflexivity. }
    assert (Nb : exists x, t = class_name (st_class b) ++ 40 :: x).
    { destruct (single_field (st_class b)).
      - destruct (Sb eq_refl) as [p [v [P1 [P2 P3]]]]. rewrite P1, P3 in Eb. cbn [list_get rbind] in Eb.
        eexists. injection Eb as <-. reflexivity.
      - eexists. injection Eb as <-. reflexivity. }
    destruct Na as [x Na]. destruct Nb as [y Nb].
    destruct (name_prefix (st_class a) (st_class b) 40 x y) as [E _]; auto; [lia|congruence|].
    rewrite E. auto. }
  destruct S as [S1 S2]. split; auto. rewrite S1 in *. rewrite <- S2 in *. unfold key.
  destruct (single_field (st_class a)).
  - destruct (Sa eq_refl) as [p [v [P1 [P2 P3]]]]. destruct (Sb eq_refl) as [q [z [Q1 [Q2 Q3]]]].
    rewrite P1, P2, P3, Q1, Q2, Q3 in *. cbn [list_get rbind] in *.
    assert (E : class_name (st_class a) ++ lit "(" ++ str_of_int (fst p) ++ lit ", " ++ str_of_int (snd p) ++ lit ", " ++ str_of_int v ++ lit ")" =
       class_name (st_class a) ++ lit "(" ++ str_of_int (fst q) ++ lit ", " ++ str_of_int (snd q) ++ lit ", " ++ str_of_int z ++ lit ")").
    { transitivity t; [|symmetry]; [injection Ea as Ea; exact Ea|injection Eb as Eb; exact Eb]. }
    do 2 apply app_inv_head in E.
    apply int_prefix in E; [|reflexivity|reflexivity]. destruct E as [E1 E]. apply app_inv_head in E.
    apply int_prefix in E; [|reflexivity|reflexivity]. destruct E as [E2 E]. apply app_inv_head in E.
    apply int_prefix in E; [|reflexivity|reflexivity]. destruct E as [E3 E].
    destruct p, q; cbn [fst snd] in *; subst. reflexivity.
  - assert (E : class_name (st_class a) ++ lit "(" ++ tuple_text coord_text (clues a) ++ lit ", " ++
        tuple_text coord_text (affected a) ++ lit ", " ++ tuple_text str_of_int (values a) ++ lit ")" =
      class_name (st_class a) ++ lit "(" ++ tuple_text coord_text (clues b) ++ lit ", " ++
        tuple_text coord_text (affected b) ++ lit ", " ++ tuple_text str_of_int (values b) ++ lit ")").
    { transitivity t; [|symmetry]; [injection Ea as Ea; exact Ea|injection Eb as Eb; exact Eb]. }
    do 2 apply app_inv_head in E.
    apply coords_prefix in E. destruct E as [-> E]. apply app_inv_head in E.
    apply coords_prefix in E. destruct E as [-> E]. apply app_inv_head in E.
    apply ints_prefix in E. destruct E as [-> E]. reflexivity.
Qed.

Lemma str_inj : forall a b t, made a -> made b -> step_str a = Ok t -> step_str b = Ok t ->
  st_class a = st_class b /\ clues a = clues b /\ values a = values b.
Proof.
  intros a b t [Ha Sa] [Hb Sb] Ea Eb. unfold step_str in *.
  assert (S : single_field (st_class a) = single_field (st_class b) /\ st_class a = st_class b).
  { assert (Na : exists x, t = class_name (st_class a) ++ 32 :: x).
    { destruct (single_field (st_class a)).
      - destruct (Sa eq_refl) as [p [v [P1 [P2 P3]]]]. rewrite P1, P3 in Ea. cbn [list_get rbind] in Ea.
        eexists. injection Ea as <-. reflexivity.
      - eexists. injection Ea as <-. reflexivity. }
    assert (Nb : exists x, t = class_name (st_class b) ++ 32 :: x).
    { destruct (single_field (st_class b)).
      - destruct (Sb eq_refl) as [p [v [P1 [P2 P3]]]]. rewrite P1, P3 in Eb. cbn [list_get rbind] in Eb.
        eexists. injection Eb as <-. reflexivity.
      - eexists. injection Eb as <-. reflexivity. }
    destruct Na as [x Na]. destruct Nb as [y Nb].
    destruct (name_prefix (st_class a) (st_class b) 32 x y) as [E _]; auto; [lia|congruence|].
    rewrite E. auto. }
  destruct S as [S1 S2]. split; auto. rewrite S1 in *. rewrite <- S2 in *.
  destruct (single_field (st_class a)).
  - destruct (Sa eq_refl) as [p [v [P1 [P2 P3]]]]. destruct (Sb eq_refl) as [q [z [Q1 [Q2 Q3]]]].
    rewrite P1, P3, Q1, Q3 in *. cbn [list_get rbind] in *.
    assert (E : class_name (st_class a) ++ lit " at " ++ coord_text p ++ lit ": " ++ str_of_int v =
       class_name (st_class a) ++ lit " at " ++ coord_text q ++ lit ": " ++ str_of_int z).
    { transitivity t; [|symmetry]; [injection Ea as Ea; exact Ea|injection Eb as Eb; exact Eb]. }
    do 2 apply app_inv_head in E.
    apply coord_prefix in E. destruct E as [-> E]. apply app_inv_head in E. apply str_of_int_inj in E. subst; auto.
  - assert (E : class_name (st_class a) ++ lit " at " ++ tuple_text coord_text (clues a) ++ lit ": " ++ tuple_text str_of_int (values a) =
      class_name (st_class a) ++ lit " at " ++ tuple_text coord_text (clues b) ++ lit ": " ++ tuple_text str_of_int (values b)).
    { transitivity t; [|symmetry]; [injection Ea as Ea; exact Ea|injection Eb as Eb; exact Eb]. }
    do 2 apply app_inv_head in E.
    apply coords_prefix in E. destruct E as [-> E]. apply app_inv_head in E.
    rewrite <- (app_nil_r (tuple_text str_of_int (values a))), <- (app_nil_r (tuple_text str_of_int (values b))) in E.
    apply ints_prefix in E. destruct E as [-> E]. auto.
Qed.
