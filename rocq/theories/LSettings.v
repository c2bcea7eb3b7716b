(** Proofs about the settings of the game (C104). *)
From Verif Require Export SpecSettings LGame7 LDict LStr.
From Verif Require Import LFind LNotation4.

(** ** The command settings *)
Lemma before_cmp : forall a b, before a b <-> list_cmp zcmp a b = Lt.
Proof.
  intros a b. split.
  - intros [[c [t ->]]|[p [x [y [t [u [-> [-> H]]]]]]]].
    + induction a as [|x a IH]; [reflexivity|]. cbn [app list_cmp]. unfold zcmp at 1. rewrite Z.compare_refl. exact IH.
    + induction p as [|z p IH]; cbn [app list_cmp].
      * unfold zcmp at 1. apply Z.compare_lt_iff in H. rewrite H. reflexivity.
      * unfold zcmp at 1. rewrite Z.compare_refl. exact IH.
  - revert b. induction a as [|x a IH]; intros [|y b] H; cbn [list_cmp] in H; try discriminate.
    + left. exists y, b. reflexivity.
    + unfold zcmp at 1 in H. destruct (Z.compare_spec x y) as [E|E|E]; [|right; exists [], x, y, a, b; auto|discriminate].
      subst y. destruct (IH b H) as [[c [t ->]]|[p [u [v [t [w [-> [-> L]]]]]]]].
      * left. exists c, t. reflexivity.
      * right. exists (x :: p), u, v, t, w. auto.
Qed.
Lemma by_name_keys : forall cfg l, by_name cfg l -> py_sorted (list_cmp zcmp) (dkeys cfg) = map fst l.
Proof.
  intros cfg l [P S]. pose proof kcmp_good as G.
  assert (SS : sset (list_cmp zcmp) (map fst l)).
  { clear P. induction S as [|e l S IH F]; cbn [map]; constructor; auto.
    rewrite Forall_forall in *. intros k I. apply in_map_iff in I. destruct I as [x [<- I]]. apply before_cmp, F; auto. }
  assert (N : NoDup (map fst l)) by (eapply sset_NoDup; eauto).
  assert (N' : NoDup (dkeys cfg)) by (eapply Permutation_NoDup; [apply Permutation_sym, Permutation_map, P|exact N]).
  apply (sset_ext _ G); auto.
  - apply (sorted_strict _ G); auto.
  - intros k. split; intros I.
    + apply (Permutation_in k (Permutation_map fst P)). exact (Permutation_in k (py_sorted_perm (list_cmp zcmp) _) I).
    + apply (Permutation_in k (Permutation_sym (py_sorted_perm (list_cmp zcmp) _))).
      exact (Permutation_in k (Permutation_sym (Permutation_map fst P)) I).
Qed.
Lemma gprint_gprint : forall g a b, gprint (gprint g a) b = gprint g (a ++ b).
Proof. intros. unfold gprint. cbn. rewrite app_assoc. reflexivity. Qed.
Lemma gprint_nil : forall g, gprint g [] = g.
Proof. intros []. unfold gprint. cbn. rewrite app_nil_r. reflexivity. Qed.
Lemma ljust_20 : forall t, ljust 20 t = t ++ repeat 32 (20 - length t).
Proof. intros t. unfold ljust, py_len. f_equal. f_equal. lia. Qed.

Section Show.
Variable cfg : settings.
Definition show_one (key : pystr) (g : game) : game * option exn :=
  with_value (dget str_eqb (gm_settings g) key) g (fun v =>
    match v with
    | SBool _ => (g, Some TypeError)
    | SPair a b => (gprint g (ljust 20 (key ++ lit " = " ++ str_of_int a) ++ lit " # " ++ str_of_int b ++ [10]), None)
    end).
Lemma show_pairs : forall ps rest g, gm_settings g = cfg -> (forall n a b, In (n, (a, b)) ps -> dget str_eqb cfg n = Ok (SPair a b)) ->
  for_each show_one (map fst ps ++ rest) g =
  for_each show_one rest (gprint g (concat (map (fun p => pair_line (fst p) (fst (snd p)) (snd (snd p))) ps))).
Proof.
  induction ps as [|[n [a b]] ps IH]; intros rest g E H.
  - cbn [map concat app]. rewrite gprint_nil. reflexivity.
  - cbn [map fst snd app for_each]. unfold show_one at 1. rewrite E, (H n a b) by (left; auto). cbn [with_value andthen].
    rewrite IH; auto.
    + rewrite gprint_gprint. cbn [concat]. unfold pair_line at 2. cbv zeta. rewrite ljust_20. cbn [fst snd].
      rewrite <- !app_assoc. reflexivity.
    + intros m x y I. apply H; right; auto.
Qed.
End Show.
Lemma settings_shown : forall g l, by_name (gm_settings g) l ->
  (forall ps, l = map (fun p => (fst p, SPair (fst (snd p)) (snd (snd p)))) ps ->
     cmd_settings g = (gprint g (concat (map (fun p => pair_line (fst p) (fst (snd p)) (snd (snd p))) ps)), None)) /\
  (forall ps n b l2, l = map (fun p => (fst p, SPair (fst (snd p)) (snd (snd p)))) ps ++ (n, SBool b) :: l2 ->
     cmd_settings g = (gprint g (concat (map (fun p => pair_line (fst p) (fst (snd p)) (snd (snd p))) ps)), Some TypeError)).
Proof.
  intros g l B. pose proof (by_name_keys _ _ B) as K. destruct B as [P S].
  assert (N : NoDup (dkeys (gm_settings g))).
  { eapply Permutation_NoDup; [apply (py_sorted_perm (list_cmp zcmp))|]. rewrite K. clear P K.
    eapply (sset_NoDup _ kcmp_good). unfold sset.
    induction S as [|e l S IH F]; cbn [map]; constructor; auto.
    rewrite Forall_forall in *. intros k I. apply in_map_iff in I. destruct I as [x [<- I]]. apply before_cmp, F; auto. }
  assert (D : forall n v, In (n, v) l -> dget str_eqb (gm_settings g) n = Ok v).
  { intros n v I. apply (dget_NoDup str_eqb str_eqb_eq); auto. eapply Permutation_in; [apply Permutation_sym, P|]; auto. }
  assert (M : forall ps : list (pystr * (Z * Z)), map fst (map (fun p => (fst p, SPair (fst (snd p)) (snd (snd p)))) ps) = map fst ps).
  { intros ps. rewrite map_map. apply map_ext. reflexivity. }
  unfold cmd_settings. rewrite K. fold show_one. split.
  - intros ps ->. rewrite M, <- (app_nil_r (map fst ps)).
    refine (eq_trans (show_pairs (gm_settings g) ps [] g eq_refl _) eq_refl).
    intros n a b I. apply D. apply in_map_iff. exists (n, (a, b)). auto.
  - intros ps n b l2 ->. rewrite map_app, M. cbn [map fst].
    refine (eq_trans (show_pairs (gm_settings g) ps (n :: map fst l2) g eq_refl _) _).
    + intros m x y I. apply D. apply in_app_iff. left. apply in_map_iff. exists (m, (x, y)). auto.
    + cbn [for_each]. unfold show_one at 1. cbn [gprint gm_settings]. rewrite (D n (SBool b)); [reflexivity|].
      apply in_app_iff. right. left. auto.
Qed.
Lemma by_name_exists : forall cfg, NoDup (map fst cfg) -> exists l, by_name cfg l.
Proof.
  induction cfg as [|[n v] cfg IH]; intros H; [exists []; split; constructor|]. cbn [map fst] in H. inv H.
  destruct (IH H3) as [l [P S]].
  assert (X : forall l, StronglySorted (fun a b => before (fst a) (fst b)) l -> ~ In n (map fst l) ->
    exists l', Permutation ((n, v) :: l) l' /\ StronglySorted (fun a b => before (fst a) (fst b)) l').
  { clear. pose proof kcmp_good as G. induction l as [|[m u] l IH]; intros S N.
    - exists [(n, v)]. split; auto. constructor; constructor.
    - inv S. destruct (list_cmp zcmp n m) eqn:C.
      + apply (gc_eq _ G) in C. exfalso. apply N. left. auto.
      + exists ((n, v) :: (m, u) :: l). split; auto. constructor; [constructor; auto|]. constructor; [apply before_cmp; auto|].
        rewrite Forall_forall in *. intros x I. apply before_cmp. apply (gc_trans _ G _ m); auto. apply before_cmp, (H2 x I).
      + destruct (IH H1) as [l' [P S]]; [intros I; apply N; right; auto|]. exists ((m, u) :: l'). split.
        * eapply perm_trans; [apply perm_swap|]. constructor; auto.
        * constructor; auto. rewrite Forall_forall in *. intros x I. apply (Permutation_in x (Permutation_sym P)) in I. destruct I as [<-|I]; auto.
          cbn [fst]. apply before_cmp. rewrite (gc_anti _ G n m), C. reflexivity. }
  destruct (X l S) as [l' [P' S']]; [|exists l'; split; auto].
  - intros I. apply H2. eapply Permutation_in; [apply Permutation_sym, Permutation_map, P|exact I].
  - eapply perm_trans; [|exact P']. constructor; auto.
Qed.

(** ** Settings that are not used *)
Lemma same_dget : forall cfg cfg' n, NoDup (map fst cfg) -> NoDup (map fst cfg') -> same_entry cfg cfg' n -> dget str_eqb cfg n = dget str_eqb cfg' n.
Proof.
  intros cfg cfg' n N N' H. destruct (dget str_eqb cfg n) as [v|e] eqn:E.
  - symmetry. apply (dget_NoDup str_eqb str_eqb_eq); auto. apply H. apply (dget_In str_eqb str_eqb_eq); auto.
  - pose proof (dget_err_inv str_eqb cfg n e E). subst e. symmetry. apply (dget_err str_eqb str_eqb_eq). intros I.
    apply in_map_iff in I. destruct I as [[k v] [E1 I]]. cbn in E1. subst k. apply H in I.
    apply (dget_NoDup str_eqb str_eqb_eq) in I; auto. congruence.
Qed.
Definition agree (cfg cfg' : settings) : Prop := forall n, In n used_names -> dget str_eqb cfg n = dget str_eqb cfg' n.
Lemma agree_on : forall cfg cfg' n, agree cfg cfg' -> In n used_names -> setting_on cfg n = setting_on cfg' n.
Proof. intros cfg cfg' n A I. unfold setting_on. rewrite (A n I). reflexivity. Qed.
Lemma autofill_agree : forall cfg cfg', agree cfg cfg' -> forall fuel verbose s, autofill fuel cfg verbose s = autofill fuel cfg' verbose s.
Proof.
  intros cfg cfg' A fuel verbose s. unfold autofill.
  assert (P : forall st, autofill_pass cfg verbose st = autofill_pass cfg' verbose st).
  { intros st. unfold autofill_pass. rewrite (agree_on cfg cfg' (lit "autoremove") A) by (cbn; tauto).
    rewrite (agree_on cfg cfg' (lit "autoset") A) by (cbn; tauto). reflexivity. }
  replace (autofill_loop fuel cfg verbose (mkFill s [] true)) with (autofill_loop fuel cfg' verbose (mkFill s [] true)); [reflexivity|].
  generalize (mkFill s [] true) as st. induction fuel as [|fuel IH]; intros st; [reflexivity|]. cbn [autofill_loop]. rewrite P.
  destruct (autofill_pass cfg' verbose st) as [st1 [e|]]; cbn [andthen]; auto. destruct (f_changed st1); auto.
Qed.

Section Map.
Variable cfg' : settings.
Notation f := (with_settings cfg').
Lemma map_with_value : forall {A} (r : res A) g K K', (forall a, r = Ok a -> K' a = map_game f (K a)) ->
  with_value r (f g) K' = map_game f (with_value r g K).
Proof. intros A [a|e] g K K' H; cbn [with_value]; auto. Qed.
Lemma map_for_each : forall {A} (F : A -> stmt game), (forall x g, F x (f g) = map_game f (F x g)) ->
  forall l g, for_each F l (f g) = map_game f (for_each F l g).
Proof.
  intros A F H l. induction l as [|x l IH]; intros g; cbn [for_each]; [reflexivity|]. rewrite H.
  destruct (F x g) as [g1 [e|]]; cbn [map_game fst snd andthen]; auto.
Qed.
Lemma map_andthen : forall (o o' : game * option exn) (K : stmt game), o' = map_game f o -> (forall g, K (f g) = map_game f (K g)) ->
  andthen o' K = map_game f (andthen o K).
Proof. intros [g [e|]] o' K -> H; cbn [map_game fst snd andthen]; auto. Qed.
Lemma map_hint : forall E s g, cmd_hint E s (f g) = map_game f (cmd_hint E s g).
Proof.
  intros E s g. unfold cmd_hint. cbn [with_settings gm_hints gm_hinted gm_calls].
  apply map_with_value. intros b _.
  apply map_andthen.
  - destruct b; [|reflexivity]. apply map_with_value. reflexivity.
  - intros g1. cbn [with_settings gm_hints]. destruct (gm_hints g1) as [[o k]|]; [destruct k|]; reflexivity.
Qed.
Lemma map_conflicts : forall s g, cmd_conflicts s (f g) = map_game f (cmd_conflicts s g).
Proof.
  intros s g. unfold cmd_conflicts. apply map_with_value. intros l _.
  match goal with |- context [for_each ?F l (f g, [])] => set (G := F) end.
  assert (X : forall l g acc, for_each G l (f g, acc) = (let '(g1, acc1, e) := for_each G l (g, acc) in ((f g1, acc1), e))).
  { clear. induction l as [|x l IH]; intros g acc; [reflexivity|]. cbn [for_each].
    assert (Y : G x (f g, acc) = (let '(g1, acc1, e) := G x (g, acc) in ((f g1, acc1), e))).
    { unfold G. destruct (existsb (same_conflict x) acc); [reflexivity|]. destruct (conflict_line (box_width s) (box_height s) x); reflexivity. }
    rewrite Y. destruct (G x (g, acc)) as [[g1 acc1] [e|]]; cbn [andthen]; auto. }
  rewrite X. destruct (for_each G l (g, [])) as [[g1 acc1] e]. reflexivity.
Qed.
Lemma map_check : forall s g, cmd_check s (f g) = map_game f (cmd_check s g).
Proof.
  intros s g. unfold cmd_check. apply map_for_each. intros x g0. apply map_with_value. intros v _.
  destruct (v =? 0); [reflexivity|]. cbn [with_settings gm_solution]. apply map_with_value. intros w _. destruct (v =? w); [reflexivity|].
  apply map_with_value. reflexivity.
Qed.
Definition map_both (o : game * sudoku * option exn) : game * sudoku * option exn := let '(g, s, e) := o in ((f g, s), e).
Lemma map_action : forall fuel line g s, agree (gm_settings g) cfg' -> cmd_action fuel line (f g, s) = map_both (cmd_action fuel line (g, s)).
Proof.
  intros fuel line g s A. unfold cmd_action. destruct (decode_action line (box_width s) (box_height s)) as [a|e].
  - destruct (apply_action a s) as [[s1|e]|]; [|destruct e; reflexivity|reflexivity].
    cbn [with_settings gm_settings]. rewrite <- (autofill_agree _ _ A). destruct (autofill fuel (gm_settings g) true s1) as [[s2 t] [e|]]; [|reflexivity].
    destruct e; reflexivity.
  - destruct e; reflexivity.
Qed.
Lemma map_command : forall fuel E line command g s, agree (gm_settings g) cfg' -> command <> lit "settings" ->
  command_on fuel E line command (f g, s) = map_both (command_on fuel E line command (g, s)).
Proof.
  intros fuel E line command g s A N. unfold command_on.
  destruct (str_eqb command (lit "hint")).
  { rewrite map_hint. destruct (cmd_hint E s g) as [g1 e]. reflexivity. }
  destruct (str_eqb command (lit "candidates")).
  { destruct (init_candidates s false); reflexivity. }
  destruct (str_eqb command (lit "conflicts")).
  { rewrite map_conflicts. destruct (cmd_conflicts s g) as [g1 e]. reflexivity. }
  destruct (str_eqb command (lit "settings")) eqn:E1; [apply str_eqb_eq in E1; contradiction|].
  destruct (str_eqb command (lit "check")).
  { rewrite map_check. destruct (cmd_check s g) as [g1 e]. reflexivity. }
  destruct (str_eqb command (lit "undo")).
  { cbn [with_settings gm_index]. destruct (gm_index g =? 0); reflexivity. }
  destruct (str_eqb command (lit "redo")).
  { cbn [with_settings gm_index gm_sudokus]. destruct (gm_index g + 1 =? py_len (gm_sudokus g)); reflexivity. }
  apply map_action; auto.
Qed.
Lemma map_line : forall fuel E line g, agree (gm_settings g) cfg' -> ~ first_word line (lit "settings") ->
  game_line fuel E line (f g) = map_game f (game_line fuel E line g).
Proof.
  intros fuel E line g A N. unfold game_line. cbn [with_settings gm_sudokus gm_index].
  apply map_with_value. intros cur _. apply map_with_value. intros s _. apply map_with_value. intros t _.
  destruct (split_blanks line []) as [|command rest] eqn:SB; [reflexivity|].
  assert (NC : command <> lit "settings").
  { intros ->. apply N. destruct (split_blanks_spec line) as [[_ X]|X]; [congruence|].
    destruct X as [w [rest' [X1 X2]]]. rewrite SB in X1. injection X1 as <- _. exact X2. }
  change (gprint (f g) (t ++ [10; 10] ++ lit "> ")) with (f (gprint g (t ++ [10; 10] ++ lit "> "))).
  rewrite map_command; auto.
  destruct (command_on fuel E line command (gprint g (t ++ [10; 10] ++ lit "> "), s)) as [[g1 s1] [e|]]; [reflexivity|].
  cbn [map_both andthen]. destruct (str_eqb command (lit "undo") || str_eqb command (lit "redo")); [reflexivity|].
  cbn [with_settings gm_sudokus gm_index]. apply map_with_value. intros c _. apply map_with_value. intros same _.
  destruct same; reflexivity.
Qed.
End Map.

Lemma with_own : forall g, with_settings (gm_settings g) g = g.
Proof. intros []; reflexivity. Qed.
Lemma agree_refl : forall cfg, agree cfg cfg.
Proof. intros cfg n _. reflexivity. Qed.
Lemma line_keeps_settings : forall fuel E line g, ~ first_word line (lit "settings") ->
  gm_settings (fst (game_line fuel E line g)) = gm_settings g.
Proof.
  intros fuel E line g N. pose proof (map_line (gm_settings g) fuel E line g (agree_refl _) N) as X. rewrite with_own in X.
  rewrite X. reflexivity.
Qed.
Lemma map_play : forall cfg' fuel E lines, (forall line, In line lines -> ~ first_word line (lit "settings")) -> forall g, agree (gm_settings g) cfg' ->
  play fuel E lines (with_settings cfg' g) = map_game (with_settings cfg') (play fuel E lines g).
Proof.
  intros cfg' fuel E lines. induction lines as [|line lines IH]; intros N g A; [reflexivity|]. unfold play in *. cbn [for_each].
  rewrite map_line by (auto; apply N; left; auto). pose proof (line_keeps_settings fuel E line g (N line (or_introl eq_refl))) as K.
  destruct (game_line fuel E line g) as [g1 [e|]]; cbn [map_game fst snd andthen] in *; auto.
  apply IH; [intros l I; apply N; right; auto|]. rewrite K. exact A.
Qed.
Lemma map_new : forall cfg cfg' fuel o out, agree cfg cfg' ->
  new_game fuel o cfg' out = (let* g := new_game fuel o cfg out in Ok (with_settings cfg' g)).
Proof.
  intros cfg cfg' fuel o out A. unfold new_game.
  destruct (generate (no_generate o) 0 SymNone (3, 3)) as [s|e]; cbn [rbind]; [|reflexivity].
  destruct (gnext (bruteforce (no_brute o) s)) as [[sol k]|e]; cbn [rbind]; [|reflexivity].
  destruct (rate fuel (no_rate o) s) as [r|e]; cbn [rbind]; [|reflexivity].
  rewrite (agree_on cfg cfg' (lit "autocandidates") A) by (cbn; tauto).
  destruct (setting_on cfg' (lit "autocandidates")).
  - destruct (init_candidates s false) as [s1|e]; cbn [rbind]; [|reflexivity]. rewrite (autofill_agree cfg cfg' A).
    destruct (autofill fuel cfg' false s1) as [[s2 t] [e|]]; reflexivity.
  - destruct (init_candidates s true) as [s1|e]; reflexivity.
Qed.
Lemma map_run : forall cfg cfg' fuel o E version lines, agree cfg cfg' -> (forall line, In line lines -> ~ first_word line (lit "settings")) ->
  run fuel o E cfg' version lines = (let* (g, e) := run fuel o E cfg version lines in Ok (with_settings cfg' g, e)).
Proof.
  intros cfg cfg' fuel o E version lines A N. unfold run. rewrite (map_new cfg cfg' fuel o _ A).
  match goal with |- context [new_game fuel o cfg ?t] => destruct (new_game fuel o cfg t) as [g|e] eqn:G end; cbn [rbind]; [|reflexivity].
  rewrite map_play; auto.
  - destruct (play fuel E lines g); reflexivity.
  - replace (gm_settings g) with cfg; auto. unfold new_game in G.
    destruct (generate (no_generate o) 0 SymNone (3, 3)) as [s|e]; cbn [rbind] in G; [|discriminate].
    destruct (gnext (bruteforce (no_brute o) s)) as [[sol k]|e]; cbn [rbind] in G; [|discriminate].
    destruct (rate fuel (no_rate o) s) as [r|e]; cbn [rbind] in G; [|discriminate].
    destruct (if setting_on cfg (lit "autocandidates") then _ else _) as [s1|e]; cbn [rbind] in G; [|discriminate].
    injection G as <-. reflexivity.
Qed.
