(** Loops that change the sudoku they iterate over (SpecLoop.v). *)
From Coq Require Import Lia.
From Verif Require Import LBase LCoord LSudoku LSudoku2 LSolve.
From Verif Require Export SpecLoop.

Lemma like_dims : forall s u, like s u -> wf u /\ box_width u = box_width s /\ box_height u = box_height s.
Proof. intros s u [W E]. unfold box_size in E. injection E as E1 E2. auto. Qed.
Lemma like_field : forall s u p, like s u -> (field u p <-> field s p).
Proof. intros s u p L. apply like_dims in L. destruct L as [_ [E1 E2]]. unfold field. rewrite E1, E2. tauto. Qed.
Lemma like_get : forall s u p, like s u -> field s p -> getitem u (fst p) (snd p) = Ok (num u p).
Proof. intros s u [r c] L F. apply getitem_ok; [apply L|]. now apply (like_field s u). Qed.
Lemma like_refl : forall s, wf s -> like s s.
Proof. intros s W. split; auto. Qed.

(** ** Generators that test the number of each field *)
Section Walk.
Variables (s : sudoku) (test : coord -> Z -> bool) (body : sudoku -> coord -> sudoku).
Hypothesis B : body_ok s body.

Fixpoint walk (l : list coord) (u : sudoku) : list (sudoku * coord) * res sudoku :=
  match l with
  | [] => ([], Ok u)
  | p :: l => if test p (num u p) then let (m, r) := walk l (body u p) in ((u, p) :: m, r) else walk l u
  end.

Lemma walk_loop : forall (F : sudoku -> coord -> gen sudoku coord sudoku) l u,
  (forall u p, like s u -> field s p -> F u p = if test p (num u p) then yield p else Ret u) ->
  like s u -> (forall p, In p l -> field s p) -> loop body (gfor F l u) u = walk l u.
Proof.
  intros F l u HF. revert u. induction l as [|p l IH]; intros u L Hl; cbn [gfor walk]; [reflexivity|].
  assert (Fp : field s p) by (apply Hl; left; auto). assert (Hl' : forall q, In q l -> field s q) by (intros; apply Hl; right; auto).
  rewrite HF by auto. destruct (test p (num u p)); cbn [yield gbind loop].
  - rewrite IH; auto.
  - now apply IH.
Qed.

Lemma walk_ok : forall l u, like s u -> (forall p, In p l -> field s p) -> StronglySorted lex_lt l ->
  exists t, snd (walk l u) = Ok t /\ like s t /\ StronglySorted lex_lt (map snd (fst (walk l u))) /\
    (forall v p, In (v, p) (fst (walk l u)) -> In p l /\ like s v /\ test p (num v p) = true).
Proof.
  induction l as [|p l IH]; intros u L Hl S0; cbn [walk].
  - exists u. cbn [fst snd map]. split; [auto|]. split; [auto|]. split; [constructor|]. intros ? ? [].
  - assert (Fp : field s p) by (apply Hl; left; auto). assert (Hl' : forall q, In q l -> field s q) by (intros; apply Hl; right; auto).
    inversion S0 as [|? ? S1 S2]; subst. destruct (test p (num u p)) eqn:E.
    + destruct (IH (body u p) (B u p L Fp) Hl' S1) as [t [I1 [I2 [I3 I4]]]]. destruct (walk l (body u p)) as [m r]. cbn [fst snd] in *.
      exists t. splits; auto.
      * cbn [map snd]. constructor; auto. rewrite Forall_forall in *. intros q Hq. apply in_map_iff in Hq. destruct Hq as [[v q'] [<- Hq]]. apply S2. cbn. apply (I4 v q'); auto.
      * intros v q [X|X]; [inv X; splits; auto; left; auto|]. destruct (I4 v q X) as [J1 J2]. split; auto. right; auto.
    + destruct (IH u L Hl' S1) as [t [I1 [I2 [I3 I4]]]]. exists t. splits; auto. intros v q X. destruct (I4 v q X) as [J1 J2]. split; auto. right; auto.
Qed.

(** A body that leaves later fields alone: the fields are those that pass the test at the start. *)
Lemma walk_backward : backward s body -> forall l u, like s u -> (forall p, In p l -> field s p) -> StronglySorted lex_lt l ->
  map snd (fst (walk l u)) = filter (fun p => test p (num u p)) l.
Proof.
  intros K. induction l as [|p l IH]; intros u L Hl S0; cbn [walk filter]; [reflexivity|].
  assert (Fp : field s p) by (apply Hl; left; auto). assert (Hl' : forall q, In q l -> field s q) by (intros; apply Hl; right; auto).
  inversion S0 as [|? ? S1 S2]; subst. destruct (test p (num u p)) eqn:E; [|now apply IH].
  specialize (IH (body u p) (B u p L Fp) Hl' S1). destruct (walk l (body u p)) as [m r]. cbn [fst map snd] in *. f_equal. rewrite IH.
  apply filter_ext_in. intros q Hq. rewrite Forall_forall in S2. now rewrite K by auto.
Qed.

(** What the body achieves for its field and nothing spoils, holds everywhere in the end. *)
Lemma walk_achieves : forall good, achieves s good body -> (forall p v, test p v = false -> good p v) ->
  forall l u, like s u -> (forall p, In p l -> field s p) ->
  exists t, snd (walk l u) = Ok t /\ (forall p, In p l -> good p (num t p)) /\ (forall q, field s q -> good q (num u q) -> good q (num t q)).
Proof.
  intros good K T. induction l as [|p l IH]; intros u L Hl; cbn [walk].
  - exists u. splits; auto. intros p [].
  - assert (Fp : field s p) by (apply Hl; left; auto). assert (Hl' : forall q, In q l -> field s q) by (intros; apply Hl; right; auto).
    destruct (test p (num u p)) eqn:E.
    + destruct (IH (body u p) (B u p L Fp) Hl') as [t [I1 [I2 I3]]]. destruct (walk l (body u p)) as [m r]. cbn [fst snd] in *.
      destruct (K u p L Fp) as [K1 K2]. exists t. splits; auto. intros q [<-|Hq]; auto.
    + destruct (IH u L Hl') as [t [I1 [I2 I3]]]. exists t. splits; auto. intros q [<-|Hq]; auto.
Qed.
End Walk.

Definition t_empty (_ : coord) (v : Z) : bool := v =? 0.
Definition t_filled (_ : coord) (v : Z) : bool := negb (v =? 0).
Definition t_diff (other : sudoku) (p : coord) (v : Z) : bool := negb (v =? num other p).

Lemma coords_fields : forall s p, In p (coords s) -> field s p.
Proof. intros s p. apply in_coords. Qed.

Lemma loop_empty : forall s body, wf s -> body_ok s body -> loop body (empty s) s = walk t_empty body (coords s) s.
Proof.
  intros s body W B. unfold empty. apply (walk_loop s); auto using like_refl, coords_fields. intros u p L F. rewrite (like_get s) by auto. reflexivity.
Qed.
Lemma loop_filled : forall s body, wf s -> body_ok s body -> loop body (filled s) s = walk t_filled body (coords s) s.
Proof.
  intros s body W B. unfold filled. apply (walk_loop s); auto using like_refl, coords_fields. intros u p L F. rewrite (like_get s) by auto. reflexivity.
Qed.
Lemma loop_diff : forall s other body, wf s -> like s other -> body_ok s body -> loop body (diff s other) s = walk (t_diff other) body (coords s) s.
Proof.
  intros s other body W O B. unfold diff. apply (walk_loop s); auto using like_refl, coords_fields. intros u p L F. rewrite !(like_get s) by auto. reflexivity.
Qed.

(** ** Conflicts *)
Lemma surrounding_at : forall u p, wf u -> field u p -> surrounding_of u (fst p) (snd p) false = Ok (sur u p) /\
  forall q, In q (sur u p) <-> field u q /\ peers (box_width u) (box_height u) p q.
Proof. intros u [r c] W F. split; [now apply surrounding_ok|]. destruct (sur_spec u (r, c) W F) as [_ [H _]]. exact H. Qed.

Fixpoint hoare {A} (Y : sudoku -> A -> Prop) (body : sudoku -> A -> sudoku) (Q : sudoku -> Prop) (g : gen sudoku A sudoku) (s : sudoku) : Prop :=
  match g with
  | Ret r => r = s /\ Q s
  | Yield a k => Y s a /\ hoare Y body Q (k (body s a)) (body s a)
  | Raise _ => False
  end.

Lemma hoare_loop : forall {A} Y (body : sudoku -> A -> sudoku) Q g s, hoare Y body Q g s -> exists t, snd (loop body g s) = Ok t /\ Q t /\ forall u a, In (u, a) (fst (loop body g s)) -> Y u a.
Proof.
  intros A Y body Q. induction g as [r|a k IH|e]; intros s H; cbn in *; [exists s; split; [auto|split; [apply H|intros ? ? []]]| |contradiction].
  destruct H as [H1 H2]. specialize (IH _ _ H2). destruct (loop body (k (body s a)) (body s a)) as [l r]. cbn [fst snd] in *.
  destruct IH as [t [I1 [I2 I3]]]. exists t. split; [auto|split; [auto|]]. intros u b [X|X]; [injection X as <- <-; auto|auto].
Qed.

Lemma hoare_bind : forall {A} Y (body : sudoku -> A -> sudoku) Q Q' f g s, hoare Y body Q' g s -> (forall u, Q' u -> hoare Y body Q (f u) u) -> hoare Y body Q (gbind g f) s.
Proof.
  intros A Y body Q Q' f. induction g as [r|a k IH|e]; intros s H F; cbn in *; [destruct H as [-> H]; auto| |contradiction]. destruct H as [H1 H2]. split; auto.
Qed.

Lemma hoare_gfor : forall {A B} Y (body : sudoku -> A -> sudoku) (f : sudoku -> B -> gen sudoku A sudoku) (J : list B -> sudoku -> Prop) l0,
  (forall pre x post u, l0 = pre ++ x :: post -> J pre u -> hoare Y body (J (pre ++ [x])) (f u x) u) ->
  forall post pre u, l0 = pre ++ post -> J pre u -> hoare Y body (J l0) (gfor f post u) u.
Proof.
  intros A B Y body f J l0 H. induction post as [|x post IH]; intros pre u E HJ; cbn [gfor].
  - rewrite app_nil_r in E. subst pre. cbn. auto.
  - eapply hoare_bind; [eapply H; eauto|]. intros v Hv. apply (IH (pre ++ [x])); auto. now rewrite <- app_assoc.
Qed.

Section Conflicts.
Variables (s : sudoku) (body : sudoku -> coord * coord * Z -> sudoku).
Hypothesis W : wf s.
Hypothesis C : clears s body.

Definition peer (p q : coord) : Prop := peers (box_width s) (box_height s) p q.
Definition part (u : sudoku) : Prop :=
  like s u /\ forall r, field s r -> num u r = num s r \/ (num u r = 0 /\ num s r <> 0 /\ exists q, field s q /\ peer r q /\ num s q = num s r).
Definition settled (pre : list coord) (u : sudoku) : Prop :=
  part u /\ forall p q, In p pre -> field s p -> field s q -> peer p q -> num u p <> 0 -> num u p <> num u q.

Lemma peer_sym : forall p q, peer p q -> peer q p.
Proof. intros p q [D H]. split; [congruence|]. unfold same_row, same_col, same_box in *. intuition congruence. Qed.

Lemma part_clear : forall pre u p q v, settled pre u -> field s p -> field s q -> peer p q -> v <> 0 -> (num u p = v \/ num u p = 0) -> num s p = v -> num u q = v ->
  settled pre (body u (p, q, v)).
Proof.
  intros pre u p q v [[L P] H] Fp Fq PQ Nv Ep Sp Eq. destruct (C u p q v L Fp Fq) as [C1 [C2 C3]].
  assert (Sq : num s q = v) by (destruct (P q Fq) as [X|[X _]]; congruence).
  split; [split; auto|].
  - intros r Fr. destruct (C2 r Fr) as [ -> | [ [ -> | -> ] E ] ]; auto; right; rewrite E; splits; try congruence.
    + exists q. splits; auto. congruence.
    + exists p. splits; auto using peer_sym. congruence.
  - intros a b Ha Fa Fb PA Na. specialize (H a b Ha Fa Fb PA). destruct (C2 a Fa) as [Ea|[_ Ea]]; [|congruence].
    rewrite Ea in *. specialize (H Na). destruct (C2 b Fb) as [Eb|[_ Eb]]; congruence.
Qed.

Definition seen (u : sudoku) (x : coord * coord * Z) : Prop :=
  let '(p, q, v) := x in field s p /\ field s q /\ peer p q /\ v <> 0 /\ num s p = v /\ num s q = v /\ (num u p = v \/ num u p = 0) /\ num u q = v.
Lemma conflicts_loop : exists t, snd (loop body (find_conflicts s []) s) = Ok t /\ settled (coords s) t /\
  forall u x, In (u, x) (fst (loop body (find_conflicts s []) s)) -> seen u x.
Proof.
  apply hoare_loop. unfold find_conflicts. apply (hoare_gfor seen body _ settled (coords s)) with (pre := []); auto.
  2:{ split; [split; [now apply like_refl|auto]|intros p q []]. }
  intros pre p post u E HJ. assert (Fp : field s p) by (apply in_coords; rewrite E; apply in_or_app; right; left; auto).
  pose proof HJ as [[L P] H]. rewrite (like_get s) by auto. cbn [lift gbind]. destruct (num u p =? 0) eqn:E0.
  - apply Z.eqb_eq in E0. cbn. split; auto. split; [split; auto|]. intros a b Ha Fa Fb PA Na. apply in_app_iff in Ha. destruct Ha as [Ha|[<-|[]]]; [auto|congruence].
  - apply Z.eqb_neq in E0. destruct (like_dims _ _ L) as [Wu [Ew Eh]]. assert (Fu : field u p) by (apply (like_field s u); auto).
    destruct p as [pr pc]. cbn [fst snd]. rewrite (surrounding_ok u pr pc Wu Fu). cbn [lift gbind]. destruct (sur_spec u (pr, pc) Wu Fu) as [_ [HS _]]. rewrite Ew, Eh in HS. set (p := (pr, pc)) in *.
    assert (HS' : forall q, In q (sur u p) <-> field s q /\ peer p q) by (intros q; rewrite HS, (like_field s u q L); reflexivity). clear HS.
    set (v := num u p) in *. assert (Sp : num s p = v) by (destruct (P p Fp) as [X|[X _]]; unfold v in *; congruence).
    set (K := fun (pre2 : list coord) (w : sudoku) => settled pre w /\ (num w p = v \/ num w p = 0) /\ forall q, In q pre2 -> num w p <> 0 -> num w q <> v).
    assert (G : hoare seen body (K (sur u p)) (gfor (fun s0 ij => do* v0 := lift (getitem s0 (fst ij) (snd ij)) in if v0 =? v then yield (p, ij, v) else Ret s0) (sur u p) u) u).
    { apply (hoare_gfor seen body _ K (sur u p)) with (pre := []); auto.
      2:{ split; [auto|split; [auto|intros q []]]. }
      intros pre2 q post2 w E2 [K1 [K2 K3]]. assert (Fq : field s q /\ peer p q) by (apply HS'; rewrite E2; apply in_or_app; right; left; auto).
      destruct Fq as [Fq PQ]. pose proof K1 as [[Lw Pw] _]. rewrite (like_get s) by auto. cbn [lift gbind]. destruct (num w q =? v) eqn:Eq.
      - apply Z.eqb_eq in Eq. cbn [yield gbind hoare]. split.
        { assert (Sq : num s q = v) by (destruct (Pw q Fq) as [X|[X _]]; congruence). cbn [seen]. repeat match goal with |- _ /\ _ => split end; auto. }
        split; auto. destruct (C w p q v Lw Fp Fq) as [C1 [C2 C3]]. split; [|split].
        + apply part_clear; auto.
        + destruct (C2 p Fp) as [X|[_ X]]; [destruct K2 as [K2|K2]; [left|right]; exact (eq_trans X K2)|right; exact X].
        + intros a Ha Na. change (num (body w (p, q, v)) p <> 0) in Na. change (num (body w (p, q, v)) a <> v). apply in_app_iff in Ha. assert (Fa : field s a) by (apply HS'; rewrite E2; apply in_or_app; destruct Ha as [Ha|[<-|[]]]; [left|right; left]; auto).
          assert (Ep : num w p = v) by (destruct (C2 p Fp) as [X|[_ X]]; [destruct K2 as [K2|K2]; [exact K2|exfalso; apply Na; exact (eq_trans X K2)]|exfalso; apply Na; exact X]).
          destruct Ha as [Ha|[<-|[]]].
          * destruct (C2 a Fa) as [X|[_ X]]; [intros Y; apply (K3 a Ha); [rewrite Ep; exact E0|exact (eq_trans (eq_sym X) Y)]|intros Y; apply E0; exact (eq_trans (eq_sym Y) X)].
          * destruct C3 as [X|X]; intros Y; [exact (Na X)|apply E0; exact (eq_trans (eq_sym Y) X)].
      - apply Z.eqb_neq in Eq. cbn [yield gbind hoare]. split; auto. split; [auto|split; auto]. intros a Ha Na. apply in_app_iff in Ha. destruct Ha as [Ha|[<-|[]]]; auto. }
    assert (Weak : forall (Q Q' : sudoku -> Prop) g x, (forall y, Q y -> Q' y) -> hoare seen body Q g x -> hoare seen body Q' g x).
    { clear. intros Q Q' g. induction g as [r|a k IH|e]; intros x I X; cbn in *; [destruct X; auto|destruct X; eauto|contradiction]. }
    eapply Weak; [|exact G]. intros t [K1 [K2 K3]]. destruct K1 as [K0 K1]. split; auto. intros a b Ha Fa Fb PA Na. apply in_app_iff in Ha. destruct Ha as [Ha|[<-|[]]]; [auto|].
    intros X. apply (K3 b); [apply HS'; auto|auto|]. destruct K2; congruence.
Qed.
End Conflicts.

(** ** Clearing the second field, or the first *)
Lemma second_clears : forall s body, clears_second s body -> clears s body.
Proof.
  intros s body C u p q v L Fp Fq. destruct (C u p q v L Fp Fq) as [C1 [C2 C3]]. split; [auto|split; [|auto]].
  intros r Fr. destruct (coord_eqb r q) eqn:E; [apply coord_eqb_eq in E; subst r; auto|]. left. apply C3; auto. intros X. subst r. rewrite coord_eqb_refl in E. discriminate.
Qed.
Lemma first_clears : forall s body, clears_first s body -> clears s body.
Proof.
  intros s body C u p q v L Fp Fq. destruct (C u p q v L Fp Fq) as [C1 [C2 C3]]. split; [auto|split; [|auto]].
  intros r Fr. destruct (coord_eqb r p) eqn:E; [apply coord_eqb_eq in E; subst r; auto|]. left. apply C3; auto. intros X. subst r. rewrite coord_eqb_refl in E. discriminate.
Qed.

Lemma sorted_mid : forall l1 (p q : coord) l2, StronglySorted lex_lt (l1 ++ p :: l2) -> In q l1 \/ q = p \/ In q l2 ->
  (In q l1 /\ lex_lt q p) \/ q = p \/ (In q l2 /\ lex_lt p q).
Proof.
  induction l1 as [|a l1 IH]; intros p q l2 H Hq; cbn [app] in H; inversion H as [|? ? H1 H2]; subst; rewrite Forall_forall in H2.
  - destruct Hq as [[]|[->|Hq]]; auto.
  - destruct Hq as [[->|Hq]|Hq].
    + left. split; [left; auto|]. apply H2. apply in_or_app. right. left. auto.
    + destruct (IH p q l2 H1 (or_introl Hq)) as [[A B]|X]; [left; split; [right; auto|auto]|auto].
    + destruct (IH p q l2 H1 (or_intror Hq)) as [[A B]|X]; [left; split; [right; auto|auto]|auto].
Qed.

Lemma sorted_before : forall l1 (p q : coord) l2, StronglySorted lex_lt (l1 ++ p :: l2) -> In q l1 -> lex_lt q p.
Proof.
  induction l1 as [|a l1 IH]; intros p q l2 H Hq; [contradiction|]. cbn [app] in H. inversion H as [|? ? H1 H2]; subst. rewrite Forall_forall in H2.
  destruct Hq as [->|Hq]; [apply H2; apply in_or_app; right; left; auto|eauto].
Qed.

Section Second.
Variables (s : sudoku) (body : sudoku -> coord * coord * Z -> sudoku).
Hypothesis W : wf s.
Hypothesis C : clears_second s body.
Let CC := second_clears s body C.

Definition witness (pre : list coord) (u : sudoku) : Prop :=
  forall q, field s q -> num u q = num s q \/ (num u q = 0 /\ num s q <> 0 /\ exists p, In p pre /\ field s p /\ lex_lt p q /\ peer s p q /\ num u p = num s q).
Definition J2 (pre : list coord) (u : sudoku) : Prop := settled s pre u /\ witness pre u.

Lemma second_loop : exists t, snd (loop body (find_conflicts s []) s) = Ok t /\ J2 (coords s) t.
Proof.
  assert (G : hoare (fun _ _ => True) body (J2 (coords s)) (find_conflicts s []) s).
  2:{ destruct (hoare_loop _ _ _ _ _ G) as [t [H1 [H2 _]]]. exists t; auto. }
  unfold find_conflicts. apply (hoare_gfor (fun _ _ => True) body _ J2 (coords s)) with (pre := []); auto.
  2:{ split; [split; [split; [now apply like_refl|auto]|intros p q []]|]. intros q Fq. auto. }
  intros pre p post u E HJ. assert (Fp : field s p) by (apply in_coords; rewrite E; apply in_or_app; right; left; auto).
  pose proof HJ as [[[L P] H] HW]. rewrite (like_get s) by auto. cbn [lift gbind].
  assert (Weak : forall (Q Q' : sudoku -> Prop) g x, (forall y, Q y -> Q' y) -> hoare (fun _ _ => True) body Q g x -> hoare (fun _ _ => True) body Q' g x).
  { clear. intros Q Q' g. induction g as [r|a k IH|e]; intros x I X; cbn in *; [destruct X; auto|destruct X; eauto|contradiction]. }
  assert (Wid : forall v, witness pre v -> witness (pre ++ [p]) v).
  { intros v X q Fq. destruct (X q Fq) as [Y|[Y1 [Y2 [a [Y3 Y4]]]]]; auto. right. split; [auto|split; [auto|]]. exists a. split; [apply in_or_app; auto|auto]. }
  destruct (num u p =? 0) eqn:E0.
  - apply Z.eqb_eq in E0. cbn [hoare]. split; auto. split; [|auto]. split; [split; auto|]. intros a b Ha Fa Fb PA Na. apply in_app_iff in Ha. destruct Ha as [Ha|[<-|[]]]; [auto|congruence].
  - apply Z.eqb_neq in E0. destruct (like_dims _ _ L) as [Wu [Ew Eh]]. assert (Fu : field u p) by (apply (like_field s u); auto).
    destruct (surrounding_at u p Wu Fu) as [-> HS]. cbn [lift gbind]. rewrite Ew, Eh in HS.
    assert (HS' : forall q, In q (sur u p) <-> field s q /\ peer s p q) by (intros q; rewrite HS, (like_field s u q L); reflexivity). clear HS.
    remember (num u p) as v eqn:Ev. assert (Sp : num s p = v) by (destruct (P p Fp) as [X|[X _]]; congruence).
    pose (K := fun (pre2 : list coord) (w : sudoku) => settled s pre w /\ witness (pre ++ [p]) w /\ num w p = v /\ forall q, In q pre2 -> num w q <> v).
    eapply (Weak (K (sur u p))).
    { intros t [[K0 K1] [K2 [K3 K4]]]. split; [|auto]. split; [auto|]. intros a b Ha Fa Fb PA Na. apply in_app_iff in Ha. destruct Ha as [Ha|[<-|[]]]; [auto|].
      intros X. apply (K4 b); [apply HS'; auto|congruence]. }
    apply (hoare_gfor (fun _ _ => True) body _ K (sur u p)) with (pre := []); auto.
    2:{ split; [apply HJ|split; [auto|split; [auto|intros q []]]]. }
    intros pre2 q post2 w E2 [K1 [K2 [K3 K4]]]. assert (Fq : field s q /\ peer s p q) by (apply HS'; rewrite E2; apply in_or_app; right; left; auto).
    destruct Fq as [Fq PQ]. pose proof K1 as [[Lw Pw] Hw]. rewrite (like_get s) by auto. cbn [lift gbind]. destruct (num w q =? v) eqn:Eq.
    + apply Z.eqb_eq in Eq. cbn [yield gbind hoare]. split; [exact I|]. split; auto. destruct (C w p q v Lw Fp Fq) as [C1 [C2 C3]].
      assert (Dpq : p <> q) by apply PQ.
      assert (Nq : ~ In q pre). { intros X. apply (Hw q p X Fq Fp (peer_sym s p q PQ)); congruence. }
      assert (Lpq : lex_lt p q).
      { assert (X : In q (coords s)) by now apply in_coords. pose proof (coords_sorted s) as SS. rewrite E in X, SS. apply in_app_iff in X.
        destruct (sorted_mid pre p q post SS) as [[A _]|[A|[_ A]]]; [cbn in X; destruct X as [X|[X|X]]; auto|contradiction|congruence|auto]. }
      assert (Sq : num s q = v) by (destruct (Pw q Fq) as [X|[X _]]; congruence).
      split; [apply (part_clear s body CC); auto|]. split; [|split].
      * intros r Fr. destruct (coord_eqb r q) eqn:Er.
        -- apply coord_eqb_eq in Er. subst r. right. split; [auto|split; [congruence|]]. exists p. split; [apply in_or_app; right; left; auto|].
           split; [auto|split; [auto|split; [auto|]]]. rewrite C3 by auto. congruence.
        -- assert (Dr : r <> q) by (intros X; subst r; rewrite coord_eqb_refl in Er; discriminate). rewrite C3 by auto.
           destruct (K2 r Fr) as [X|[X1 [X2 [a [X3 [X4 [X5 [X6 X7]]]]]]]]; [auto|]. right. split; [auto|split; [auto|]]. exists a. split; [auto|split; [auto|split; [auto|split; [auto|]]]].
           rewrite C3; auto. intros X. subst a. apply in_app_iff in X3. destruct X3 as [X3|[X3|[]]]; [contradiction|congruence].
      * rewrite C3 by auto. exact K3.
      * intros a Ha. apply in_app_iff in Ha. assert (Fa : field s a) by (apply HS'; rewrite E2; apply in_or_app; destruct Ha as [Ha|[<-|[]]]; [left|right; left]; auto).
        destruct (coord_eqb a q) eqn:Ea.
        -- apply coord_eqb_eq in Ea. subst a. intros X. apply E0. exact (eq_trans (eq_sym X) C2).
        -- assert (Da : a <> q) by (intros X; subst a; rewrite coord_eqb_refl in Ea; discriminate). rewrite C3 by auto. destruct Ha as [Ha|[Ha|[]]]; [auto|congruence].
    + apply Z.eqb_neq in Eq. cbn [gbind hoare]. split; auto. split; [auto|split; [auto|split; [auto|]]]. intros a Ha. apply in_app_iff in Ha. destruct Ha as [Ha|[<-|[]]]; auto.
Qed.

Lemma second_keeps : exists t, snd (loop body (find_conflicts s []) s) = Ok t /\ like s t /\ keeps_first s t.
Proof.
  destruct second_loop as [t [H1 [[[H2 H3] H4] H5]]]. exists t. split; [auto|split; [auto|]]. intros q Fq. split.
  - intros [[p [Fp [Lpq [PQ Ep]]]] Nq]. destruct (H5 q Fq) as [X|[X _]]; [|auto]. exfalso. apply (H4 p q); auto; [now apply in_coords|congruence|congruence].
  - intros N. destruct (H5 q Fq) as [X|[X1 [X2 [p [X3 [X4 [X5 [X6 X7]]]]]]]]; [auto|]. exfalso. apply N. split; auto. exists p. auto.
Qed.
End Second.

Lemma coord_eq_dec : forall p q : coord, {p = q} + {p <> q}.
Proof. intros [a b] [c d]. destruct (Z.eq_dec a c), (Z.eq_dec b d); [left|right|right|right]; congruence. Qed.

Section First.
Variables (s : sudoku) (body : sudoku -> coord * coord * Z -> sudoku).
Hypothesis W : wf s.
Hypothesis C : clears_first s body.

Definition later (p : coord) : Prop := exists q, field s q /\ lex_lt p q /\ peer s p q /\ num s q = num s p.
Definition J3 (pre : list coord) (u : sudoku) : Prop :=
  like s u /\ (forall p, field s p -> ~ In p pre -> num u p = num s p) /\
  forall p, In p pre -> field s p -> (later p -> num u p = 0) /\ (~ later p -> num u p = num s p).

Lemma later_dec : forall p, field s p -> later p \/ ~ later p.
Proof.
  intros p Fp. destruct (surrounding_at s p W Fp) as [_ HS].
  destruct (existsb (fun q => (num s q =? num s p) && ((fst p <? fst q) || ((fst p =? fst q) && (snd p <? snd q)))) (sur s p)) eqn:E.
  - left. apply existsb_exists in E. destruct E as [q [H1 H2]]. apply andb_prop in H2. destruct H2 as [H2 H3]. apply Z.eqb_eq in H2. apply HS in H1.
    exists q. split; [apply H1|split; [|split; [apply H1|auto]]]. unfold lex_lt. apply Bool.orb_true_iff in H3. rewrite Bool.andb_true_iff, !Z.ltb_lt, Z.eqb_eq in H3. exact H3.
  - right. intros [q [H1 [H2 [H3 H4]]]]. rewrite <- Bool.not_true_iff_false, existsb_exists in E. apply E. exists q. split; [apply HS; auto|].
    rewrite H4, Z.eqb_refl. cbn [andb]. apply Bool.orb_true_iff. rewrite Bool.andb_true_iff, !Z.ltb_lt, Z.eqb_eq. exact H2.
Qed.

Lemma first_loop : exists t, snd (loop body (find_conflicts s []) s) = Ok t /\ J3 (coords s) t.
Proof.
  assert (G : hoare (fun _ _ => True) body (J3 (coords s)) (find_conflicts s []) s).
  2:{ destruct (hoare_loop _ _ _ _ _ G) as [t [H1 [H2 _]]]. exists t; auto. }
  unfold find_conflicts. apply (hoare_gfor (fun _ _ => True) body _ J3 (coords s)) with (pre := []); auto.
  2:{ split; [now apply like_refl|split; [auto|intros p []]]. }
  intros pre p post u E HJ. assert (Fp : field s p) by (apply in_coords; rewrite E; apply in_or_app; right; left; auto).
  pose proof HJ as [L [H1 H2]]. rewrite (like_get s) by auto. cbn [lift gbind].
  assert (Weak : forall (Q Q' : sudoku -> Prop) g x, (forall y, Q y -> Q' y) -> hoare (fun _ _ => True) body Q g x -> hoare (fun _ _ => True) body Q' g x).
  { clear. intros Q Q' g. induction g as [r|a k IH|e]; intros x I X; cbn in *; [destruct X; auto|destruct X; eauto|contradiction]. }
  assert (Np : ~ In p pre). { pose proof (NoDup_coords s) as N. rewrite E in N. apply NoDup_remove_2 in N. intros X. apply N. apply in_or_app; auto. }
  assert (Sp : num u p = num s p) by auto.
  destruct (num u p =? 0) eqn:E0.
  - apply Z.eqb_eq in E0. cbn [hoare]. split; auto. split; [auto|split].
    + intros r Fr Nr. apply H1; auto. intros X. apply Nr. apply in_or_app; auto.
    + intros r Hr Fr. apply in_app_iff in Hr. destruct Hr as [Hr|[<-|[]]]; [auto|]. split; auto.
  - apply Z.eqb_neq in E0. destruct (like_dims _ _ L) as [Wu [Ew Eh]]. assert (Fu : field u p) by (apply (like_field s u); auto).
    destruct (surrounding_at u p Wu Fu) as [-> HS]. cbn [lift gbind]. rewrite Ew, Eh in HS.
    assert (HS' : forall q, In q (sur u p) <-> field s q /\ peer s p q) by (intros q; rewrite HS, (like_field s u q L); reflexivity). clear HS.
    remember (num u p) as v eqn:Ev.
    pose (K := fun (pre2 : list coord) (w : sudoku) => like s w /\ (forall r, field s r -> r <> p -> num w r = num u r) /\
      ((num w p = v /\ forall q, In q pre2 -> num u q <> v) \/ (num w p = 0 /\ exists q, In q pre2 /\ num u q = v))).
    assert (Lat : forall q, field s q -> peer s p q -> num u q = v -> lex_lt p q /\ num s q = v).
    { intros q Fq PQ Eq. assert (X : In q (coords s)) by now apply in_coords. pose proof (coords_sorted s) as SS. rewrite E in X, SS. apply in_app_iff in X.
      assert (Sq : num s q = v). { destruct (in_dec coord_eq_dec q pre) as [I|I]; [|rewrite <- H1; auto].
        destruct (H2 q I Fq) as [A B]. destruct (later_dec q Fq) as [Y|Y]; [rewrite A in Eq by auto; congruence|rewrite <- B; auto]. }
      split; auto. destruct (sorted_mid pre p q post SS) as [[A B]|[A|[_ A]]]; [cbn in X; destruct X as [X|[X|X]]; auto| |exfalso; apply PQ; auto|auto].
      exfalso. destruct (H2 q A Fq) as [Y _]. rewrite Y in Eq; [congruence|]. exists p. split; [auto|split; [auto|split; [now apply peer_sym|congruence]]]. }
    eapply (Weak (K (sur u p))).
    { intros t [K0 [K1 K2]]. split; [auto|split].
      - intros r Fr Nr. assert (r <> p) by (intros ->; apply Nr, in_or_app; right; left; auto). rewrite K1 by auto. apply H1; auto. intros X. apply Nr, in_or_app; auto.
      - intros r Hr Fr. apply in_app_iff in Hr. destruct Hr as [Hr|[<-|[]]].
        + assert (r <> p) by (intros ->; contradiction). rewrite K1 by auto. auto.
        + split.
          * intros [q [F1 [F2 [F3 F4]]]]. destruct K2 as [[K2 K3]|[K2 _]]; [|auto]. exfalso. apply (K3 q); [apply HS'; auto|].
            rewrite (H1 q F1); [congruence|]. intros X. pose proof (coords_sorted s) as SS. rewrite E in SS. pose proof (sorted_before pre p q post SS X) as A. unfold lex_lt in A, F2. lia.
          * intros N. destruct K2 as [[K2 K3]|[K2 [q [K3 K4]]]]; [congruence|]. exfalso. apply HS' in K3. destruct K3 as [F1 F2]. destruct (Lat q F1 F2 K4) as [A B].
            apply N. exists q. split; [auto|split; [auto|split; [auto|congruence]]]. }
    apply (hoare_gfor (fun _ _ => True) body _ K (sur u p)) with (pre := []); auto.
    2:{ split; [auto|split; [auto|left; split; [auto|intros q []]]]. }
    intros pre2 q post2 w E2 [K1 [K2 K3]]. assert (Fq : field s q /\ peer s p q) by (apply HS'; rewrite E2; apply in_or_app; right; left; auto).
    destruct Fq as [Fq PQ]. rewrite (like_get s) by auto. cbn [lift gbind]. assert (Dpq : q <> p) by (intros X; apply PQ; auto). rewrite K2 by auto.
    destruct (num u q =? v) eqn:Eq.
    + apply Z.eqb_eq in Eq. cbn [yield gbind hoare]. split; [exact I|]. split; auto. destruct (C w p q v K1 Fp Fq) as [C1 [C2 C3]]. split; [auto|split].
      * intros r Fr Dr. rewrite <- K2 by auto. apply C3; auto.
      * right. split; [auto|]. exists q. split; [apply in_or_app; right; left; auto|auto].
    + apply Z.eqb_neq in Eq. cbn [gbind hoare]. split; auto. split; [auto|split; [auto|]]. destruct K3 as [[K3 K4]|[K3 [a [K4 K5]]]]; [left|right]; (split; [auto|]).
      * intros a Ha. apply in_app_iff in Ha. destruct Ha as [Ha|[<-|[]]]; auto.
      * exists a. split; [apply in_or_app; auto|auto].
Qed.

Lemma first_keeps : exists t, snd (loop body (find_conflicts s []) s) = Ok t /\ like s t /\ keeps_last s t.
Proof.
  destruct first_loop as [t [H1 [H2 [_ H3]]]]. exists t. split; [auto|split; [auto|]]. intros p Fp. apply H3; auto. now apply in_coords.
Qed.
End First.
