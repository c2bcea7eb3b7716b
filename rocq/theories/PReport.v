(** C134: the callback of solve(). *)
From Verif Require Import LReport2 LSolvers5 LCheck.
From Verif Require PRate.

(** C134: a callback that only looks is called with every step of the solution in order, each one before it is applied;
    the result is the same; an exception of the callback ends solve(). *)
Theorem C134_observer : forall (W : Type) (f : W -> step -> res W) fuel o s w l t, solve fuel o s = Ok (l, t) ->
  solve_report W (observer f) fuel o w s = let* w := foldM f (map bare l) w in Ok (w, t).
Proof. exact C134_observer_proof. Qed.
Print Assumptions C134_observer.

(** C134: and if solve() does not return, it does not return with such a callback either. *)
Theorem C134_quiet : forall (W : Type) (f : W -> step -> res W) fuel o s w e, (forall w st, exists w', f w st = Ok w') ->
  solve fuel o s = Err e -> solve_report W (observer f) fuel o w s = Err e.
Proof. exact C134_quiet_proof. Qed.
Print Assumptions C134_quiet.

(** C134: a callback that applies every step to another sudoku with the same numbers (whatever its candidates): the
    result is the same, and the other sudoku has its numbers in the end. *)
Theorem C134_applying : forall o s m, oracle_ok o -> wf s -> wf m -> box_size m = box_size s ->
  (forall p, field s p -> num m p = num s p) -> (exists f, solution s f) ->
  exists l t m', (forall fuel, (fuel_bound s <= fuel)%nat -> solve fuel o s = Ok (l, t) /\ solve_report sudoku applying fuel o m s = Ok (m', t)) /\
    wf m' /\ box_size m' = box_size s /\ complete m' /\ solution s (num m') /\ forall p, field s p -> num m' p = num t p.
Proof.
  intros o s m Ho W Wm B N [f Hf]. destruct (C40_proof o s Ho W (ex_intro _ f Hf)) as [l [t [E [Wt [Bt [Ct [St _]]]]]]].
  unfold box_size in B, Bt. injection B as B1 B2. injection Bt as T1 T2.
  assert (O : ok_sudoku (box_width s) (box_height s) s) by (apply ok_intro; auto).
  assert (Om : ok_sudoku (box_width s) (box_height s) m) by (apply ok_intro; auto).
  assert (G : forall fuel, (fuel_bound s <= fuel)%nat -> exists m', solve_report sudoku applying fuel o m s = Ok (m', t) /\
     mirrors (box_width s) (box_height s) t m').
  { intros fuel Hfu. eapply (solve_applying _ _ (wf_w _ W) (wf_h _ W)); eauto. }
  destruct (G (fuel_bound s) (le_n _)) as [m' [G1 [[Wm' [E1 E2]] [G3 _]]]].
  assert (More : forall k fuel w u x, solve_loop_report sudoku applying fuel o w u = Ok x ->
     solve_loop_report sudoku applying (k + fuel) o w u = Ok x).
  { intros k fuel. rewrite Nat.add_comm. induction fuel as [|fuel IH]; intros w u x X; [discriminate|].
    cbn [Nat.add solve_loop_report] in *. destruct (solve_round_report sudoku applying o SOLVERS w u) as [[[w1 b] u1]|]; [|discriminate].
    cbn [rbind] in *. destruct b; auto. }
  exists l, t, m'. split; [|split; [|split; [|split; [|split]]]].
  - intros fuel Hfu. split; auto. replace fuel with ((fuel - fuel_bound s) + fuel_bound s)%nat by lia.
    revert G1. unfold solve_report. destruct (copy s false) as [c|]; [|discriminate]. cbn [rbind].
    destruct (init_candidates c true) as [s0|]; [|discriminate]. cbn [rbind]. apply More.
  - exact Wm'.
  - unfold box_size. rewrite E1, E2. reflexivity.
  - intros p Fp. unfold field in Fp. rewrite E1, E2 in Fp. rewrite G3 by auto.
    specialize (Ct p). unfold field in Ct. rewrite T1, T2 in Ct. auto.
  - destruct St as [[V1 V2] S2]. split; [split|].
    + intros p Cp. rewrite G3 by auto. auto.
    + intros p q Cp Cq P. rewrite !G3 by auto. auto.
    + intros p Fp. rewrite G3 by exact Fp. auto.
  - intros p Fp. apply G3. exact Fp.
Qed.
Print Assumptions C134_applying.

(** The steps and the sudoku of PRate: a pair in the first column, then no more singles. *)
Example C134_ex : wf PRate.tup4 /\
  solve_report Z (observer (fun n st => Ok (n + 1))) 40 PRate.o_id 0 PRate.tup4 =
    match solve 40 PRate.o_id PRate.tup4 with Ok (l, t) => Ok (29, t) | Err e => Err e end /\
  match solve_report sudoku applying 40 PRate.o_id PRate.tup4 PRate.tup4 with
  | Ok (m, t) => s_numbers m = s_numbers t /\ complete m
  | Err _ => False
  end.
Proof.
  split; [apply wfb_ok; vm_compute; reflexivity|]. split; [vm_compute; reflexivity|].
  set (r := solve_report _ _ _ _ _ _). assert (E : exists m t, r = Ok (m, t) /\ s_numbers m = s_numbers t /\
    forallb (fun p => negb (num m p =? 0)) (coords m) = true).
  { eexists; eexists. split; [vm_compute; reflexivity|]. split; [> vm_compute; reflexivity ..]. }
  destruct E as [m [t [E1 [E2 E3]]]]. rewrite E1. split; auto. intros p Fp.
  rewrite forallb_forall in E3. apply in_coords in Fp. specialize (E3 p Fp). intros X. rewrite X in E3. discriminate.
Qed.

(** C134: a callback that applies every step to a copy of the sudoku fixes the actions of the step for the copy: on some
    solvable sudoku solve() never returns. *)
Definition stuck4 : sudoku := Eval vm_compute in
  match (let* c := copy PRate.tup4 false in let* c := init_candidates c true in
         solve_round_report sudoku trying PRate.o_id SOLVERS PRate.tup4 c) with
  | Ok (_, _, s) => s
  | Err _ => PRate.tup4
  end.
Theorem C134_trying : exists o s, oracle_ok o /\ wf s /\ (exists f, solution s f) /\
  (forall fuel, (fuel_bound s <= fuel)%nat -> exists r, solve fuel o s = Ok r) /\
  forall fuel, solve_report sudoku trying fuel o s s = Err OutOfFuel.
Proof.
  assert (W : wf PRate.tup4) by (apply wfb_ok; vm_compute; reflexivity).
  assert (Ex : exists f, solution PRate.tup4 f).
  { exists (num (of_rows 2 2 [[1;3;2;4];[2;4;1;3];[3;1;4;2];[4;2;3;1]])). apply solutionb_ok. vm_compute. reflexivity. }
  exists PRate.o_id, PRate.tup4. split; [apply PRate.o_id_ok|]. split; [exact W|]. split; [exact Ex|]. split.
  - destruct (C40_proof PRate.o_id PRate.tup4 PRate.o_id_ok W Ex) as [l [u [E _]]]. intros fuel Hf. exists (l, u). auto.
  - assert (L : forall fuel, solve_loop_report sudoku trying fuel PRate.o_id PRate.tup4 stuck4 = Err OutOfFuel).
    { intros fuel; induction fuel as [|fuel IH]; [reflexivity|]. cbn [solve_loop_report].
      assert (R : solve_round_report sudoku trying PRate.o_id SOLVERS PRate.tup4 stuck4 = Ok (PRate.tup4, true, stuck4))
        by (vm_compute; reflexivity).
      rewrite R. cbn [rbind]. exact IH. }
    intros fuel. unfold solve_report.
    assert (S0 : exists c s0, copy PRate.tup4 false = Ok c /\ init_candidates c true = Ok s0 /\
      solve_round_report sudoku trying PRate.o_id SOLVERS PRate.tup4 s0 = Ok (PRate.tup4, true, stuck4)).
    { eexists; eexists. split; [vm_compute; reflexivity|]. split; [vm_compute; reflexivity|]. vm_compute. reflexivity. }
    destruct S0 as [c [s0 [E1 [E2 E3]]]]. rewrite E1. cbn [rbind]. rewrite E2. cbn [rbind].
    destruct fuel as [|fuel]; [reflexivity|]. cbn [solve_loop_report]. rewrite E3. cbn [rbind]. apply L.
Qed.
Print Assumptions C134_trying.
