(** Lemmas for C134: the callback of solve(). *)
From Verif Require Export LDual2 SpecReport.

Local Opaque MSudoku.surrounding_of.

(** * Steps are yielded without actions *)
Section Gall.
Context {I A : Type}.
Variable P : A -> Prop.
Fixpoint gall {R} (g : gen I A R) : Prop :=
  match g with
  | Ret _ => True
  | Raise _ => True
  | Yield a k => P a /\ forall i, gall (k i)
  end.
Lemma gall_bind : forall {R R'} (g : gen I A R) (f : R -> gen I A R'), gall g -> (forall r, gall (f r)) -> gall (gbind g f).
Proof. intros R R' g f; induction g as [r|a k IH|e]; intros G Hf; cbn [gbind gall] in *; auto. destruct G; split; auto. Qed.
Lemma gall_lift : forall {R} (m : res R), gall (lift m).
Proof. intros R [r|e]; exact Logic.I. Qed.
Lemma gall_for : forall {S B} (f : S -> B -> gen I A S) l acc, (forall acc x, gall (f acc x)) -> gall (gfor f l acc).
Proof. intros S B f l; induction l as [|x l IH]; intros acc H; cbn [gfor]; [exact Logic.I|]. apply gall_bind; auto. Qed.
End Gall.
Lemma gall_forgen : forall {I A B R S} (P : A -> Prop) (Q : B -> Prop) (body : (I * S) -> B -> gen I A (I * S)) (inner : gen I B R) st,
  gall Q inner -> (forall st b, Q b -> gall P (body st b)) -> gall P (gforgen body inner st).
Proof.
  intros I A B R S P Q body inner; induction inner as [r|b k IH|e]; intros st G Hb; cbn [gforgen gall] in *; auto.
  destruct G as [G1 G2]. apply gall_bind; auto.
Qed.
Lemma gall_any : forall {I A R} (g : gen I A R), gall (fun _ => True) g.
Proof. intros I A R g; induction g; cbn [gall]; auto. Qed.

Definition unbuilt (st : step) : Prop := actions st = [].

Ltac gl := repeat first
  [ exact Logic.I
  | apply gall_lift
  | apply gall_for; intros ? ?
  | apply gall_bind; [|intros ?]
  | progress cbn beta iota
  | match goal with
    | |- gall _ (yield _) => split; [reflexivity|intros; exact Logic.I]
    | |- gall _ (match ?x with _ => _ end) => destruct x
    | |- gall _ ((match ?x with _ => _ end) _) => destruct x
    end ].

Lemma naked_at_unbuilt : forall n s cs, gall unbuilt (naked_find_at n s cs).
Proof. intros. unfold naked_find_at. gl. Qed.

Lemma find_unbuilt : forall o cls s, gall unbuilt (MSolvers.find o cls s).
Proof.
  intros o cls s. destruct cls; cbn [MSolvers.find].
  - unfold calculate_find. gl.
  - unfold naked_single_find. apply gall_bind; [|intros; exact Logic.I].
    apply gall_forgen with (Q := fun _ => True); [apply gall_any|]. intros st b _. gl.
  - unfold hidden_single_find. apply gall_bind; [|intros; exact Logic.I].
    apply gall_forgen with (Q := fun _ => True); [apply gall_any|]. intros st b _. gl.
  - unfold naked_find. apply gall_bind; [|intros; exact Logic.I].
    apply gall_for; intros st f. apply gall_bind; [apply gall_lift|intros cl].
    apply gall_for; intros st' cs. apply gall_forgen with (Q := unbuilt); [apply naked_at_unbuilt|].
    intros st2 b Hb. destruct (list_in _ _ _); [exact Logic.I|]. cbn [yield gbind gall]. split; auto.
  - unfold hidden_find, hidden_find_at. gl.
  - unfold pointing_find, pointing_in_box, pointing_in_row_and_column. gl.
  - unfold fish_find, fish_for_candidate. gl.
  - unfold bruteforce_find. destruct (gnext _) as [[sol r]|e].
    + apply gall_bind; [|intros; exact Logic.I].
      apply gall_forgen with (Q := fun _ => True); [apply gall_any|]. intros st b _. gl.
    + destruct e; exact Logic.I.
Qed.

Lemma apply_bare : forall a s st s1, unbuilt a -> MSolvers.apply a s = Ok (st, s1) -> bare st = a.
Proof.
  intros [c cl af vs acts] s st s1 U E. unfold unbuilt in U. cbn [actions] in U. subst acts. unfold MSolvers.apply in E.
  cbn [actions st_class clues affected values] in E.
  destruct (build_actions _ s) as [x|]; [|discriminate]. cbn [rbind] in E.
  destruct (foldM do_action x s); [|discriminate]. cbn [rbind] in E. injection E as <- _. reflexivity.
Qed.

(** * Callbacks that only look at the steps *)
Section Observe.
Context {W : Type}.
Variable f : W -> step -> res W.

Definition seen (r : res (list step * sudoku)) (w : W) : res (W * Z * sudoku) :=
  let* (l, t) := r in let* w := foldM f (map bare l) w in Ok (w, py_len l, t).

Lemma drive_observer : forall g s w l t, gall unbuilt g -> drive g s = Ok (l, t) ->
  drive_report W (observer f) g w s = seen (Ok (l, t)) w.
Proof.
  intros g; induction g as [r|a k IH|e]; intros s w l t G E; cbn [drive drive_report] in *.
  - injection E as <- <-. reflexivity.
  - destruct G as [G1 G2]. destruct (MSolvers.apply a s) as [[st s1]|e] eqn:Ea; [|discriminate]. cbn [rbind] in E.
    destruct (drive (k s1) s1) as [[l' t']|e] eqn:Ed; [|discriminate]. cbn [rbind] in E. injection E as <- <-.
    unfold seen. unfold observer at 1. cbn [rbind map foldM]. rewrite (apply_bare a s st s1 G1 Ea).
    destruct (f w a) as [w1|e]; cbn [rbind]; auto. rewrite Ea. cbn [rbind].
    rewrite (IH s1 s1 w1 l' t' (G2 s1) Ed). unfold seen. cbn [rbind].
    destruct (foldM f (map bare l') w1) as [w2|e]; cbn [rbind]; auto.
    do 3 f_equal. unfold py_len. cbn [length]. lia.
  - discriminate.
Qed.

Lemma round_observer : forall o l s w st t, solve_round o l s = Ok (st, t) ->
  solve_round_report W (observer f) o l w s =
    let* w := foldM f (map bare st) w in Ok (w, match st with [] => false | _ => true end, t).
Proof.
  intros o l; induction l as [|cls l IH]; intros s w st t E; cbn [solve_round solve_round_report] in *.
  - injection E as <- <-. reflexivity.
  - destruct (drive (MSolvers.find o cls s) s) as [[st1 s1]|] eqn:Ed; [|discriminate]. cbn [rbind] in E.
    rewrite (drive_observer _ _ w _ _ (find_unbuilt o cls s) Ed). unfold seen. cbn [rbind].
    destruct st1 as [|x st1].
    + cbn [map foldM rbind]. change (0 <? py_len (@nil step)) with false. apply IH; auto.
    + injection E as <- <-. destruct (foldM f (map bare (x :: st1)) w) as [w1|]; cbn [rbind]; auto.
Qed.

Lemma loop_observer : forall o fuel s w l t, solve_loop fuel o s = Ok (l, t) ->
  solve_loop_report W (observer f) fuel o w s = let* w := foldM f (map bare l) w in Ok (w, t).
Proof.
  intros o fuel; induction fuel as [|fuel IH]; intros s w l t E; [discriminate|]. cbn [solve_loop solve_loop_report] in *.
  destruct (solve_round o SOLVERS s) as [[st s1]|] eqn:Er; [|discriminate]. cbn [rbind] in E.
  rewrite (round_observer _ _ _ w _ _ Er). destruct st as [|x st].
  - injection E as <- <-. reflexivity.
  - destruct (solve_loop fuel o s1) as [[l' t']|] eqn:El; [|discriminate]. cbn [rbind] in E. injection E as <- <-.
    change (x :: st ++ l') with ((x :: st) ++ l'). rewrite map_app, foldM_app.
    destruct (foldM f (map bare (x :: st)) w) as [w1|]; cbn [rbind]; auto.
Qed.
End Observe.

Theorem C134_observer_proof : forall (W : Type) (f : W -> step -> res W) fuel o s w l t, solve fuel o s = Ok (l, t) ->
  solve_report W (observer f) fuel o w s = let* w := foldM f (map bare l) w in Ok (w, t).
Proof.
  intros W f fuel o s w l t E. unfold solve in E. unfold solve_report.
  destruct (copy s false) as [c|]; [|discriminate]. cbn [rbind] in *.
  destruct (init_candidates c true) as [s0|]; [|discriminate]. cbn [rbind] in *. apply loop_observer; auto.
Qed.

(** Whatever solve() does, it does so with a callback that only looks and raises nothing. *)
Section Quiet.
Context {W : Type}.
Variable f : W -> step -> res W.
Hypothesis Quiet : forall w st, exists w', f w st = Ok w'.

Lemma drive_quiet : forall g s w e, drive g s = Err e -> drive_report W (observer f) g w s = Err e.
Proof.
  intros g; induction g as [r|a k IH|e0]; intros s w e E; cbn [drive drive_report] in *; try congruence.
  unfold observer at 1. destruct (Quiet w a) as [w1 ->]. cbn [rbind].
  destruct (MSolvers.apply a s) as [[st s1]|e1]; cbn [rbind] in *; [|congruence].
  destruct (drive (k s1) s1) as [[l t]|e2] eqn:Ed; cbn [rbind] in E; [discriminate|].
  injection E as ->. rewrite (IH s1 s1 w1 e Ed). reflexivity.
Qed.
Lemma quiet_fold : forall l w, exists w', foldM f l w = Ok w'.
Proof. intros l; induction l as [|x l IH]; intros w; cbn [foldM]; eauto. destruct (Quiet w x) as [w1 ->]. cbn [rbind]. auto. Qed.
Lemma round_quiet : forall o l s w e, solve_round o l s = Err e -> solve_round_report W (observer f) o l w s = Err e.
Proof.
  intros o l; induction l as [|cls l IH]; intros s w e E; cbn [solve_round solve_round_report] in *; [discriminate|].
  destruct (drive (MSolvers.find o cls s) s) as [[st1 s1]|e1] eqn:Ed; cbn [rbind] in E.
  - rewrite (drive_observer f _ _ w _ _ (find_unbuilt o cls s) Ed). unfold seen. cbn [rbind].
    destruct st1 as [|x st1]; [|discriminate].
    cbn [map foldM rbind]. change (0 <? py_len (@nil step)) with false. apply IH; auto.
  - injection E as ->. rewrite (drive_quiet _ _ w _ Ed). reflexivity.
Qed.
Lemma loop_quiet : forall o fuel s w e, solve_loop fuel o s = Err e -> solve_loop_report W (observer f) fuel o w s = Err e.
Proof.
  intros o fuel; induction fuel as [|fuel IH]; intros s w e E; cbn [solve_loop solve_loop_report] in *; [congruence|].
  destruct (solve_round o SOLVERS s) as [[st s1]|e1] eqn:Er; cbn [rbind] in E.
  - rewrite (round_observer f _ _ _ w _ _ Er). destruct st as [|x st]; [discriminate|].
    destruct (quiet_fold (map bare (x :: st)) w) as [w1 ->]. cbn [rbind].
    destruct (solve_loop fuel o s1) as [[l' t']|e2] eqn:El; cbn [rbind] in E; [discriminate|].
    injection E as ->. apply IH; auto.
  - injection E as ->. rewrite (round_quiet _ _ _ w _ Er). reflexivity.
Qed.
End Quiet.

Theorem C134_quiet_proof : forall (W : Type) (f : W -> step -> res W) fuel o s w e, (forall w st, exists w', f w st = Ok w') ->
  solve fuel o s = Err e -> solve_report W (observer f) fuel o w s = Err e.
Proof.
  intros W f fuel o s w e Q E. unfold solve in E. unfold solve_report.
  destruct (copy s false) as [c|]; cbn [rbind] in *; [|congruence].
  destruct (init_candidates c true) as [s0|]; cbn [rbind] in *; [|congruence]. apply loop_quiet; auto.
Qed.
