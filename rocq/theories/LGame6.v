(** Proofs about sequences of lines, the new game and run. *)
From Verif Require Export LGame5.
From Verif Require Import LGenerate.
From Verif Require Import MNotation.

(** * Sequences of lines *)
Lemma play_cons : forall fuel E line lines g,
  play fuel E (line :: lines) g = andthen (game_line fuel E line g) (play fuel E lines).
Proof. auto. Qed.

Lemma play_app : forall fuel E a b g, play fuel E (a ++ b) g = andthen (play fuel E a g) (play fuel E b).
Proof.
  intros fuel E a b; induction a as [|x a IH]; intros g; auto. cbn [app]. rewrite !play_cons.
  destruct (game_line fuel E x g) as [g1 [e|]]; cbn [andthen]; auto.
Qed.

Lemma history_unique : forall g H H', has_history g H -> has_history g H' -> H = H'.
Proof.
  intros g [a c l] [a' c' l'] [A B] [A' B']. cbn [earlier current later] in *.
  rewrite A in A'. rewrite B in B'. unfold py_len in B'.
  assert (L : length (rev a) = length (rev a')) by (rewrite !rev_length; lia).
  assert (X : forall (x y : list sudoku) u v, length x = length y -> x ++ u = y ++ v -> x = y /\ u = v).
  { induction x as [|i x IH]; intros [|j y] u v Hl E; cbn in *; try discriminate; auto.
    injection E as -> E. destruct (IH y u v) as [-> ->]; auto. }
  destruct (X _ _ _ _ L A') as [X1 X2]. injection X2 as -> ->.
  assert (Y : a = a') by (rewrite <- (rev_involutive a), X1, rev_involutive; auto). congruence.
Qed.

Lemma sudoku_dec : forall s t : sudoku, {s = t} + {s <> t}.
Proof. decide equality; repeat (apply Z.eq_dec || apply list_eq_dec; intros). Qed.

Lemma play_ok : forall fuel E lines g H g' e, env_ok E -> game_ok g -> has_history g H -> (2 <= fuel)%nat ->
  play fuel E lines g = (g', e) ->
  game_ok g' /\ gm_solution g' = gm_solution g /\ (exists t, gm_out g' = gm_out g ++ t) /\
  exists ran rest H', lines = ran ++ rest /\ steps H ran H' /\ has_history g' H' /\
    match e with
    | None => rest = []
    | Some x => exists line more, rest = line :: more /\ crashes line x
    end.
Proof.
  intros fuel E lines; induction lines as [|line lines IH]; intros g H g' e He G HH Hf EP.
  - cbn in EP. injection EP as <- <-. splits; auto; [exists []; rewrite app_nil_r; auto|]. exists [], [], H. splits; auto. constructor.
  - rewrite play_cons in EP. destruct (game_line fuel E line g) as [g1 e1] eqn:EL.
    destruct (line_ok fuel E line g H g1 e1 He G HH Hf EL) as [G1 [Es [[v [t0 [_ Eo]]] L1]]]. destruct e1 as [x|]; cbn [andthen] in EP.
    + injection EP as <- <-. destruct L1 as [L1 L2]. splits; auto; [eauto|]. exists [], (line :: lines), H. splits; auto; [constructor|eauto].
    + assert (X : exists H1, line_step H line H1 /\ has_history g1 H1).
      { destruct L1 as [w [W1 [W2 [W3 W4]]]].
        destruct (str_eqb w (lit "undo")) eqn:E1.
        { apply str_eqb_eq in E1. exists (undone H). split; auto. exists w. splits; auto; [subst; discriminate|intros; congruence]. }
        destruct (str_eqb w (lit "redo")) eqn:E2.
        { apply str_eqb_eq in E2. exists (redone H). split; auto. exists w. splits; auto; [subst; discriminate|intros; congruence]. }
        assert (Nu : w <> lit "undo") by (intros ->; rewrite str_eqb_refl' in E1; discriminate).
        assert (Nr : w <> lit "redo") by (intros ->; rewrite str_eqb_refl' in E2; discriminate).
        destruct (W4 Nu Nr) as [s' [S1 [S2 S3]]].
        destruct (sudoku_dec s' (current H)) as [D|D].
        - exists H. split; auto. exists w. splits; auto; try (intros; congruence). intros _ _. exists s'. splits; auto. congruence.
        - exists (changed_to s' H). split; auto. exists w. splits; auto; try (intros; congruence). intros _ _. exists s'. splits; auto. congruence. }
      destruct X as [H1 [X1 X2]]. destruct (IH g1 H1 g' e He G1 X2 Hf EP) as [G' [Es' [[t Eo'] [ran [rest [H' [A [B [C D]]]]]]]]].
      splits; [auto|congruence|rewrite Eo', Eo; eexists; rewrite <- app_assoc; reflexivity|]. exists (line :: ran), rest, H'. splits; auto; [cbn; congruence|]. econstructor; eauto.
Qed.

Lemma Nat_iter_succ_r' : forall n {A} (f : A -> A) x, Nat.iter (S n) f x = Nat.iter n f (f x).
Proof. induction n as [|n IH]; intros A f x; auto. cbn [Nat.iter nat_rect]. f_equal. apply IH. Qed.

(** * undo and redo *)
Lemma steps_app : forall a H H1 H2 b, steps H a H1 -> steps H1 b H2 -> steps H (a ++ b) H2.
Proof. intros a; induction a as [|x a IH]; intros H H1 H2 b A B; inv A; auto. cbn [app]. econstructor; eauto. Qed.

Lemma play_undo : forall fuel E lines g H, game_ok g -> has_history g H -> only (lit "undo") lines ->
  exists g', play fuel E lines g = (g', None) /\ game_ok g' /\ has_history g' (Nat.iter (length lines) undone H).
Proof.
  intros fuel E lines; induction lines as [|line lines IH]; intros g H G HH W.
  - exists g. splits; auto.
  - rewrite play_cons.
    destruct (line_undo fuel E line g H G HH) as [v [g1 [_ [A [B [C _]]]]]]; [apply W; left; auto|].
    rewrite A. cbn [andthen]. destruct (IH g1 (undone H) B C) as [g' [X [Y T]]]; [intros l Hl; apply W; right; auto|].
    exists g'. splits; auto. cbn [length]. rewrite Nat_iter_succ_r' in *. auto.
Qed.

Lemma play_redo : forall fuel E lines g H, game_ok g -> has_history g H -> only (lit "redo") lines ->
  exists g', play fuel E lines g = (g', None) /\ game_ok g' /\ has_history g' (Nat.iter (length lines) redone H).
Proof.
  intros fuel E lines; induction lines as [|line lines IH]; intros g H G HH W.
  - exists g. splits; auto.
  - rewrite play_cons.
    destruct (line_redo fuel E line g H G HH) as [v [g1 [_ [A [B [C _]]]]]]; [apply W; left; auto|].
    rewrite A. cbn [andthen]. destruct (IH g1 (redone H) B C) as [g' [X [Y T]]]; [intros l Hl; apply W; right; auto|].
    exists g'. splits; auto. cbn [length]. rewrite Nat_iter_succ_r' in *. auto.
Qed.

(** [m] changes after [H] *)
Inductive changes : history -> nat -> history -> Prop :=
| ch_O : forall H, changes H 0 H
| ch_S : forall H m H1 s, changes H m H1 -> changes H (S m) (changed_to s H1).

Lemma changes_undo : forall H m H1, changes H m H1 -> forall l,
  let top := mkHistory (earlier H1) (current H1) l in
  earlier (Nat.iter m undone top) = earlier H /\ current (Nat.iter m undone top) = current H /\
  Nat.iter m redone (Nat.iter m undone top) = top.
Proof.
  intros H m H1 C; induction C as [H|H m H1 s C IH]; intros l top; [auto|].
  subst top. rewrite Nat_iter_succ_r'. cbn [changed_to earlier current undone].
  destruct (IH (s :: l)) as [A [B D]]. splits; auto.
  change (redone (Nat.iter m redone (Nat.iter m undone (mkHistory (earlier H1) (current H1) (s :: l)))) =
    mkHistory (current H1 :: earlier H1) s l). cbv zeta in D. rewrite D. reflexivity.
Qed.

Lemma steps_changes : forall H lines H1, steps H lines H1 ->
  (forall line, In line lines -> ~ first_word line (lit "undo") /\ ~ first_word line (lit "redo")) ->
  forall H0 k, changes H0 k H -> exists m, changes H0 m H1 /\ (k <= m <= k + length lines)%nat.
Proof.
  intros H lines H1 S; induction S as [H|H line H1 lines H2 L S IH]; intros W H0 k C.
  - exists k. split; auto. cbn; lia.
  - assert (W' : forall l, In l lines -> ~ first_word l (lit "undo") /\ ~ first_word l (lit "redo")) by (intros; apply W; right; auto).
    destruct (W line (or_introl eq_refl)) as [Wu Wr]. destruct L as [w [Hw [_ [_ L]]]].
    destruct L as [s' [_ [L1 L2]]]; [intros ->; auto|intros ->; auto|].
    destruct (sudoku_dec s' (current H)) as [D|D].
    + rewrite (L1 D) in *. destruct (IH W' H0 k C) as [m [M1 M2]]. exists m. split; auto. cbn [length]; lia.
    + rewrite (L2 D) in *. destruct (IH W' H0 (Datatypes.S k)) as [m [M1 M2]]; [constructor; auto|]. exists m. split; auto. cbn [length]; lia.
Qed.

Lemma undo_redo_ok : forall fuel E lines g H g1 H1, env_ok E -> game_ok g -> has_history g H -> (2 <= fuel)%nat ->
  (forall line, In line lines -> ~ first_word line (lit "undo") /\ ~ first_word line (lit "redo")) ->
  play fuel E lines g = (g1, None) -> has_history g1 H1 ->
  exists m, (m <= length lines)%nat /\
    forall undos, only (lit "undo") undos -> length undos = m ->
    exists g2 H2, play fuel E undos g1 = (g2, None) /\ has_history g2 H2 /\ current H2 = current H /\ earlier H2 = earlier H /\
    forall redos, only (lit "redo") redos -> length redos = m ->
    exists g3, play fuel E redos g2 = (g3, None) /\ has_history g3 H1.
Proof.
  intros fuel E lines g H g1 H1 He G HH Hf W EP H1h.
  destruct (play_ok fuel E lines g H g1 None He G HH Hf EP) as [G1 [_ [_ [ran [rest [H' [A [B [C D]]]]]]]]].
  subst rest. rewrite app_nil_r in A. subst ran. rewrite (history_unique _ _ _ C H1h) in *. clear H' C.
  destruct (steps_changes H lines H1 B W H 0%nat (ch_O H)) as [m [M1 M2]].
  exists m. split; [lia|]. intros undos U1 U2.
  destruct (play_undo fuel E undos g1 H1 G1 H1h U1) as [g2 [P1 [P2 P3]]]. rewrite U2 in P3.
  exists g2, (Nat.iter m undone H1).
  destruct (changes_undo H m H1 M1 (later H1)) as [X1 [X2 X3]]. destruct H1 as [a c l]. cbn [earlier current later] in *.
  splits; auto. intros redos R1 R2.
  destruct (play_redo fuel E redos g2 _ P2 P3 R1) as [g3 [Q1 [Q2 Q3]]]. rewrite R2, X3 in Q3. eauto.
Qed.

(** * The new game *)
Lemma full_minus_one : forall s p f, wf s -> valid_grid (box_width s) (box_height s) (num s) -> field s p ->
  valid_grid (box_width s) (box_height s) f -> (forall q, field s q -> q <> p -> f q = num s q) -> f p = num s p.
Proof.
  intros s p f W V Fp Vf A. pose proof (wf_w _ W) as Hw. pose proof (wf_h _ W) as Hh.
  pose proof (proj1 (valid_iff_latin _ _ f Hw Hh) Vf) as [L _].
  destruct (L (fst p)) with (v := num s p) as [p' [[C1 C2] [C3 _]]]; [apply Fp|apply V; auto|].
  destruct (good_eq_dec _ coord_cmp_good p' p) as [->|D]; auto.
  exfalso. apply (proj2 V p' p); auto.
  - split; auto.
  - rewrite <- C3. symmetry. apply A; auto.
Qed.

Lemma new_game_ok : forall fuel o out, new_ok o -> (812 <= fuel)%nat ->
  exists g s r, new_game fuel o default_settings out = Ok g /\ game_ok g /\ has_history g (mkHistory [] s []) /\
    unique_solution s /\ solution s (num (gm_solution g)) /\ in_range s /\ conflict_free s /\ recomputed s s /\
    1 <= r <= 10 /\ gm_out g = out ++ lit "Generating new sudoku. Rating: " ++ str_of_int r ++ lit "/10" ++ [10].
Proof.
  intros fuel o out [Og [Or Ob]] Hf. unfold new_game.
  destruct (C29_proof (no_generate o) 0 SymNone 3 3) as [s [Es [W [B [U [R [CF Ec]]]]]]]; try lia; auto; [discriminate|].
  rewrite Es. cbn [rbind].
  destruct U as [f0 [S0 U0]].
  destruct (C19_proof (no_brute o) s Ob W) as [Br Be]. 
  assert (X : exists y k, bruteforce (no_brute o) s = Yield y k).
  { destruct Be as [_ [Be _]]. destruct (Be f0) as [y [Hy _]]; [apply completion_solution; auto|].
    destruct (bruteforce (no_brute o) s) as [r|y' k|e]; cbn in Hy; [destruct Hy|eauto|destruct Hy]. }
  destruct X as [y [k Ey]]. rewrite Ey in *. cbn [gnext rbind].
  destruct Be as [Be _]. destruct (Be y) as [Wy [By Cy]]; [left; auto|].
  apply completion_solution in Cy; auto.
  destruct (C43_proof (no_rate o) s Or W) as [r [Er [Rr R0]]]; [eauto|].
  assert (Fb : (fuel_bound s <= fuel)%nat).
  { injection B as B1 B2. unfold fuel_bound. rewrite B1, B2. exact Hf. }
  rewrite Er by auto. cbn [rbind]. change (setting_on default_settings (lit "autocandidates")) with true. cbn [rbind].
  assert (N : nine s) by (split; auto).
  destruct (recompute_ok s W) as [s1 [E1 [[W1 [B1 N1]] C1]]]. rewrite E1. cbn [rbind].
  assert (N1' : nine s1) by (split; auto; congruence).
  destruct (autofill_default default_settings false s1 fuel) as [s2 [t [E2 [[W2 [B2 N2]] [C2 _]]]]]; auto; try reflexivity; [left; auto|lia|].
  rewrite E2. cbn [rbind].
  assert (F1 : forall q, field s1 q <-> field s q) by (intros; rewrite !nine_field by auto; tauto).
  assert (N2' : nine s2) by (split; auto; congruence).
  assert (F2 : forall q, field s2 q <-> field s q) by (intros; rewrite !nine_field by auto; tauto).
  assert (Nn : forall q, field s q -> num s2 q = num s q) by (intros q Fq; rewrite N2, N1; auto; apply F1; auto).
  destruct (nine_dims s N) as [Dw Dh], (nine_dims s1 N1') as [Dw1 Dh1], (nine_dims s2 N2') as [Dw2 Dh2].
  assert (T12 : forall q n, taken s1 q n <-> taken s q n).
  { intros q n. unfold taken. rewrite Dw, Dh, Dw1, Dh1. split; intros [p [P1 [P2 [P3 P4]]]]; exists p.
    - apply F1 in P1. rewrite N1 in P3, P4 by auto. auto.
    - rewrite N1 by auto. splits; auto. apply F1; auto. }
  assert (T2 : forall q n, taken s2 q n <-> taken s q n).
  { intros q n. unfold taken. rewrite Dw, Dh, Dw2, Dh2. split; intros [p [P1 [P2 [P3 P4]]]]; exists p.
    - apply F2 in P1. rewrite Nn in P3, P4 by auto. auto.
    - rewrite Nn by auto. splits; auto. apply F2; auto. }
  assert (DD : box_width s2 = box_width s) by congruence. assert (DH : box_height s2 = box_height s) by congruence.
  eexists _, s2, r. splits; [reflexivity|..].
  - constructor; cbn [gm_settings gm_index gm_sudokus gm_solution gm_hinted gm_hints]; auto.
    + cbn. lia.
    + intros x [<-|[]]; auto.
    + split; auto. congruence.
    + discriminate.
    + discriminate.
  - split; reflexivity.
  - exists f0. split.
    + destruct S0 as [S1 S2]. split; [rewrite DD, DH; auto|]. intros p Fp. apply F2 in Fp. rewrite Nn by auto. auto.
    + intros g [G1 G2]. rewrite DD, DH in *. apply U0. split; auto.
      intros p Fp. rewrite <- Nn by auto. apply G2, F2; auto.
  - cbn [gm_solution]. destruct Cy as [V1 V2]. split; [rewrite DD, DH; auto|]. intros p Fp. apply F2 in Fp. rewrite Nn by auto. auto.
  - intros p Fp. apply F2 in Fp. rewrite Dw2, Dh2, Nn by auto. specialize (R p Fp). rewrite Dw, Dh in R. auto.
  - intros p q Fp Fq P. apply F2 in Fp, Fq. rewrite !Nn by auto. apply CF; auto. rewrite Dw, Dh. rewrite Dw2, Dh2 in P. auto.
  - split; [unfold numbers_kept; splits; auto|]. intros q Fq. apply F2 in Fq. rewrite Nn by auto. specialize (C1 q Fq).
    destruct (num s q =? 0) eqn:E0.
    + intros n. rewrite C2 by (apply F1; auto). rewrite C1, T12, T2, Dw, Dh, Dw2, Dh2. tauto.
    + apply (sset_ext _ zcmp_good); [apply cand_sset; auto; apply F2; auto|repeat constructor|].
      intros n. rewrite C2 by (apply F1; auto). rewrite C1, T12. split; [tauto|]. intros Hn. split; auto. intros [p [P1 [P2 [P3 P4]]]].
      cbn [In] in Hn. destruct Hn as [Hn|[]]. subst n. apply (CF p q); auto.
  - assert (r <> 0); [|lia]. intros Z0. apply R0 in Z0.
    destruct (C32_proof (no_generate o) 0 SymNone 3 3) as [s' [Es' M]]; try lia; auto; [discriminate|].
    rewrite Es in Es'. injection Es' as <-.
    assert (F00 : field s (0, 0)) by (apply (nine_field s); auto; vm_compute; intuition congruence).
    destruct (M (0, 0) (pset s (0, 0) 0)) as [f [g [q [Sf [Sg [Fq D]]]]]]; auto.
    + apply pset_wf; auto.
    + intros q Fq Q. apply C32_none_proof in Q. subst q. rewrite num_pset, coord_eqb_refl by auto. auto.
    + intros q Fq Q. rewrite C32_none_proof in Q. rewrite num_pset by auto. destruct (coord_eqb q (0, 0)) eqn:X; auto.
      apply coord_eqb_eq in X. contradiction.
    + assert (V : valid_grid (box_width s) (box_height s) (num s)).
      { destruct S0 as [S1 S2]. assert (Q : forall p, field s p -> num s p = f0 p) by (intros p Fp; destruct (S2 p Fp); auto; exfalso; apply (Z0 p); auto).
        destruct S1 as [S3 S4]. split; [intros p Cp; rewrite Q; auto|intros p q' Cp Cq P; rewrite !Q; auto]. }
      assert (K : forall f, solution (pset s (0, 0) 0) f -> forall q, field s q -> f q = num s q).
      { intros f1 [K1 K2] q1 Fq1.
        assert (K3 : forall q, field s q -> q <> (0, 0) -> f1 q = num s q).
        { intros q2 Fq2 D2. destruct (K2 q2 Fq2) as [K|K]; rewrite num_pset in K by auto;
            (destruct (coord_eqb q2 (0, 0)) eqn:X; [apply coord_eqb_eq in X; contradiction|]); auto.
          exfalso; apply (Z0 q2); auto. }
        destruct (good_eq_dec _ coord_cmp_good q1 (0, 0)) as [->|D1]; auto.
        apply full_minus_one; auto. }
      apply D. rewrite (K f Sf), (K g Sg); auto.
  - lia.
  - cbn [gm_out]. auto.
Qed.

(** * run *)
Lemma run_ok : forall fuel o E version lines, new_ok o -> env_ok E -> (812 <= fuel)%nat ->
  exists s r g e, run fuel o E default_settings version lines = Ok (g, e) /\ game_ok g /\
    unique_solution s /\ solution s (num (gm_solution g)) /\ recomputed s s /\ 1 <= r <= 10 /\
    (exists t, gm_out g = banner version ++ (lit "Generating new sudoku. Rating: " ++ str_of_int r ++ lit "/10" ++ [10]) ++ t) /\
    exists ran rest H, lines = ran ++ rest /\ steps (mkHistory [] s []) ran H /\ has_history g H /\
    match e with
    | None => rest = []
    | Some x => exists line more, rest = line :: more /\ crashes line x
    end.
Proof.
  intros fuel o E version lines No He Hf. unfold run.
  destruct (new_game_ok fuel o (banner version) No Hf) as [g0 [s [r [A [G0 [H0 [U [S [_ [_ [C [R O]]]]]]]]]]]].
  unfold banner in A at 1. rewrite A. cbn [rbind].
  destruct (play fuel E lines g0) as [g e] eqn:EP.
  assert (Hf2 : (2 <= fuel)%nat) by lia.
  destruct (play_ok fuel E lines g0 _ g e He G0 H0 Hf2 EP) as [G [Es [[t Eo] X]]].
  exists s, r, g, e. splits; auto; try lia.
  - rewrite Es; auto.
  - exists t. rewrite Eo, O, <- app_assoc. auto.
Qed.
