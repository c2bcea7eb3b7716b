(** Filling the forced fields of a sudoku (SpecLoop.v). *)
From Coq Require Import Lia.
From Verif Require Import LBase LCoord LSudoku LSudoku2 LSolve.
From Verif Require Export LGreedy.

Section Forced.
Variables (s : sudoku) (body : sudoku -> coord -> sudoku).
Hypothesis W : wf s.
Hypothesis B : fills_forced s body.

Definition FJ (u : sudoku) : Prop :=
  like s u /\ (forall f, solution u f <-> solution s f) /\ (forall p, field s p -> num s p <> 0 -> num u p = num s p).

Lemma like_solution : forall u f, like s u -> (solution u f <-> valid_grid (box_width s) (box_height s) f /\ forall p, field s p -> num u p = 0 \/ num u p = f p).
Proof.
  intros u f L. destruct (like_dims _ _ L) as [Wu [Ew Eh]]. unfold solution, extends. rewrite Ew, Eh.
  split; intros [X Y]; (split; [auto|]); intros p Fp; apply Y; now apply (like_field s u).
Qed.

Lemma forced_value : forall u p v f, like s u -> field s p -> num u p = 0 -> (forall n, In n [v] <-> free s u p n) -> solution u f -> f p = v.
Proof.
  intros u p v f L Fp E H S. apply like_solution in S; auto. destruct S as [[V1 V2] X].
  assert (I : In (f p) [v]).
  { apply H. split; [apply V1; auto|]. intros q Fq PQ Y. destruct (X q Fq) as [Z0|Z0].
    - specialize (V1 p Fp). rewrite <- Y in V1. lia.
    - apply (V2 p q Fp Fq PQ). congruence. }
  destruct I as [I|[]]. auto.
Qed.

Lemma forced_step : forall p u, FJ u -> field s p -> FJ (if t_empty p (num u p) then body u p else u).
Proof.
  intros p u [L [S0 N]] Fp. unfold t_empty. destruct (num u p =? 0) eqn:E; [|split; auto].
  apply Z.eqb_eq in E. destruct B as [B1 B2]. destruct (B2 u p L Fp E) as [B3 B4]. destruct (calc_free s u p L Fp E) as [l [H1 H2]]. specialize (B4 l H1).
  assert (L' : like s (body u p)) by now apply B1. split; [auto|split].
  - intros f. rewrite <- S0. split; intros S1.
    + apply like_solution; auto. apply like_solution in S1; auto. destruct S1 as [V X]. split; auto. intros q Fq. destruct (coord_eq_dec q p) as [->|D]; auto. rewrite <- B3 by auto. auto.
    + assert (Fv : match l with [v] => f p = v | _ => True end).
      { destruct l as [|v [|w l]]; auto. now apply (forced_value u p v f L Fp E H2). }
      apply like_solution; auto. apply like_solution in S1; auto. destruct S1 as [V X]. split; auto. intros q Fq. destruct (coord_eq_dec q p) as [->|D]; [|rewrite B3 by auto; auto].
      rewrite B4. destruct l as [|v [|w l]]; auto.
  - intros q Fq Nq. destruct (coord_eq_dec q p) as [->|D]; [|rewrite B3 by auto; auto]. exfalso. apply Nq. rewrite <- N by auto. auto.
Qed.

Lemma forced_loop : exists t, snd (loop body (empty s) s) = Ok t /\ FJ t.
Proof.
  rewrite loop_empty by (auto; apply B). apply (walk_inv t_empty body (fun _ => FJ) (coords s)) with (pre := []); auto.
  - intros pre p post u E G. apply forced_step; auto. apply in_coords. rewrite E. apply in_or_app. right. left. auto.
  - split; [now apply like_refl|]. split; [reflexivity|auto].
Qed.
End Forced.

Lemma fills_forced_like : forall s t body, like s t -> fills_forced s body -> fills_forced t body.
Proof.
  intros s t body L [B1 B2].
  assert (LL : forall u, like t u <-> like s u) by (intros u; destruct L as [_ L]; unfold like; rewrite L; tauto).
  split.
  - intros u p Lu F. apply LL. apply B1; [now apply LL|now apply (like_field s t)].
  - intros u p Lu F E. destruct (B2 u p) as [X Y]; [now apply LL|now apply (like_field s t)|auto|]. split; auto. intros q Fq. apply X. now apply (like_field s t).
Qed.
