(** Filling the empty fields of a sudoku with candidates (SpecLoop.v). *)
From Coq Require Import Lia.
From Verif Require Import LBase LCoord LSudoku LSudoku2 LSolve.
From Verif Require Export LLoop.

Section Inv.
Variables (test : coord -> Z -> bool) (body : sudoku -> coord -> sudoku) (J : list coord -> sudoku -> Prop).
Lemma walk_inv : forall l0,
  (forall pre p post u, l0 = pre ++ p :: post -> J pre u -> J (pre ++ [p]) (if test p (num u p) then body u p else u)) ->
  forall post pre u, l0 = pre ++ post -> J pre u -> exists t, snd (walk test body post u) = Ok t /\ J l0 t.
Proof.
  intros l0 H. induction post as [|p post IH]; intros pre u E HJ; cbn [walk].
  - rewrite app_nil_r in E. subst pre. exists u. auto.
  - specialize (H pre p post u E HJ). assert (E' : l0 = (pre ++ [p]) ++ post) by now rewrite <- app_assoc.
    destruct (test p (num u p)); [|exact (IH _ _ E' H)].
    specialize (IH _ _ E' H). destruct (walk test body post (body u p)) as [m r]. exact IH.
Qed.
End Inv.

Section Greedy.
Variables (s : sudoku) (body : sudoku -> coord -> sudoku).
Hypothesis W : wf s.
Hypothesis CF : conflict_free s.
Hypothesis B : fills_candidate s body.

Definition free (u : sudoku) (p : coord) (n : Z) : Prop := 1 <= n <= NN s /\ forall q, field s q -> peer s p q -> num u q <> n.
Record GI (pre : list coord) (u : sudoku) : Prop := {
  gi_like : like s u;
  gi_cf : forall p q, field s p -> field s q -> peer s p q -> num u p <> 0 -> num u p <> num u q;
  gi_num : forall p, field s p -> num u p = num s p \/ (num s p = 0 /\ 1 <= num u p <= NN s);
  gi_none : forall p, In p pre -> field s p -> num u p = 0 -> forall n, ~ free u p n
}.

Lemma calc_free : forall u p, like s u -> field s p -> num u p = 0 ->
  exists l, calc_candidates u (fst p) (snd p) = Ok l /\ forall n, In n l <-> free u p n.
Proof.
  intros u [r c] L F E. destruct (like_dims _ _ L) as [Wu [Ew Eh]]. assert (Fu : field u (r, c)) by now apply (like_field s u).
  destruct (C13_proof u r c Wu Fu) as [l [H1 [_ [_ H2]]]]. exists l. split; auto. intros n. rewrite (H2 E). unfold free, peer. rewrite Ew, Eh.
  split; intros [X Y]; (split; [exact X|]); intros q Fq; apply Y; now apply (like_field s u).
Qed.

Lemma gi_step : forall pre p u, GI pre u -> field s p -> GI (pre ++ [p]) (if t_empty p (num u p) then body u p else u).
Proof.
  intros pre p u [L C N F0] Fp. unfold t_empty. destruct (num u p =? 0) eqn:E.
  - apply Z.eqb_eq in E. destruct B as [B1 B2]. destruct (B2 u p L Fp E) as [B3 B4]. destruct (calc_free u p L Fp E) as [l [H1 H2]]. specialize (B4 l H1).
    assert (Grow : forall a n, free (body u p) a n -> free u a n).
    { intros a n [X Y]. split; auto. intros q Fq Pq Z0. apply (Y q Fq Pq). rewrite B3; auto. intros ->. lia. }
    assert (V : num (body u p) p = 0 \/ free u p (num (body u p) p)) by (destruct B4 as [[_ B4]|B4]; [auto|right; now apply H2]).
    constructor; [now apply B1| | |].
    + intros a b Fa Fb PA Na. destruct (coord_eq_dec a p) as [->|Da], (coord_eq_dec b p) as [->|Db].
      * exfalso. apply PA; auto.
      * rewrite (B3 b) by auto. destruct V as [V|[_ V]]; [congruence|]. intros X. apply (V b Fb PA). auto.
      * rewrite (B3 a) in * by auto. destruct V as [V|[_ V]]; [congruence|]. intros X. apply (V a Fa (peer_sym s _ _ PA)). auto.
      * rewrite (B3 a), (B3 b) in * by auto. auto.
    + intros a Fa. destruct (coord_eq_dec a p) as [->|Da]; [|rewrite B3 by auto; auto].
      assert (S0 : num s p = 0) by (destruct (N p Fp) as [X|[X _]]; congruence). destruct V as [V|[V _]]; [left; congruence|right; auto].
    + intros a Ha Fa Na n X. apply in_app_iff in Ha. destruct Ha as [Ha|[<-|[]]].
      * destruct (coord_eq_dec a p) as [->|Da]; [apply (F0 p Ha Fp E n); auto|]. rewrite B3 in Na by auto. apply (F0 a Ha Fa Na n); auto.
      * destruct B4 as [[B4 _]|B4]; [apply Grow, H2 in X; rewrite B4 in X; contradiction|]. rewrite Na in B4. apply H2 in B4. destruct B4 as [B4 _]. lia.
  - apply Z.eqb_neq in E. constructor; auto. intros a Ha Fa Na. apply in_app_iff in Ha. destruct Ha as [Ha|[<-|[]]]; [auto|congruence].
Qed.

Lemma greedy_loop : exists t, snd (loop body (empty s) s) = Ok t /\ GI (coords s) t.
Proof.
  rewrite loop_empty by (auto; apply B). apply (walk_inv t_empty body GI (coords s)) with (pre := []); auto.
  - intros pre p post u E G. apply gi_step; auto. apply in_coords. rewrite E. apply in_or_app. right. left. auto.
  - constructor; auto using like_refl.
Qed.
End Greedy.
