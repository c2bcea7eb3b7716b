(** Properties C69, C70, C76-C80: the game of shell.py.  Statements use only the model functions and the
    specification files; the proofs are in the L*.v files. *)
From Verif Require Import LGame7 LCheck.
From Verif Require Import MNotation.

(** A game for the examples: two empty fields, r1c1 and r9c9. *)
Definition sol9 : sudoku := of_rows 3 3
  [[5;3;4;6;7;8;9;1;2];[6;7;2;1;9;5;3;4;8];[1;9;8;3;4;2;5;6;7];[8;5;9;7;6;1;4;2;3];[4;2;6;8;5;3;7;9;1];
   [7;1;3;9;2;4;8;5;6];[9;6;1;5;3;7;2;8;4];[2;8;7;4;1;9;6;3;5];[3;4;5;2;8;6;1;7;9]].
Definition ok (r : res sudoku) : sudoku := match r with Ok s => s | Err _ => sol9 end.
Definition two9 : sudoku := ok (init_candidates (ok (setitem (ok (setitem sol9 0 0 0)) 8 8 0)) false).
Definition game0 : game := mkGame default_settings None None [two9] 0 sol9 [] 0.
Definition ord_id : oracle := mkOracle (fun _ _ l => l) (fun _ _ l => l).
Definition show9 (st : step) : pystr := match affected st with p :: _ => field_name p | [] => [] end.
Definition env9 : genv := mkGenv show9 (fun _ => ord_id).
Lemma env9_ok : env_ok env9.
Proof. intros n. split; intros; cbn; auto. Qed.
Lemma nine_wfb : forall s, wfb s = true -> box_size s = (3, 3) -> nine s.
Proof. intros s A B. split; auto. apply wfb_ok; auto. Qed.
Lemma game0_ok : game_ok game0.
Proof.
  constructor; cbn [game0 gm_settings gm_index gm_sudokus gm_solution gm_hinted gm_hints]; try discriminate; auto.
  - vm_compute; intuition congruence.
  - intros s [<-|[]]. apply nine_wfb; vm_compute; reflexivity.
  - apply nine_wfb; vm_compute; reflexivity.
Qed.
Definition hist0 : history := mkHistory [] two9 [].
Lemma game0_history : has_history game0 hist0.
Proof. split; reflexivity. Qed.
(** The game after some lines. *)
Definition after9 (ls : list pystr) : game * option exn := play 2 env9 ls game0.
(** The numbers in r1c1 of the history, and the index. *)
Definition firsts (g : game) : list Z * Z := (map (fun s => num s (0, 0)) (gm_sudokus g), gm_index g).
(** What has been printed after the prompts: the output with the board cut off is the part after the last "> ". *)
Definition ends (t u : pystr) : bool := match skipn (length t - length u) t with x => str_eqb x u end.

(** C69: one line.  The history is valid again; undo and redo move in it, a change is recorded and discards the redo branch, and a line that changes nothing or crashes leaves it alone. *)
Theorem C69_line : forall fuel E line g H g' e, env_ok E -> game_ok g -> has_history g H -> (2 <= fuel)%nat ->
  game_line fuel E line g = (g', e) ->
  game_ok g' /\ gm_solution g' = gm_solution g /\
  (exists v t, prompt (current H) v /\ gm_out g' = gm_out g ++ v ++ t) /\
  match e with
  | Some x => crashes line x /\ has_history g' H
  | None => exists w, first_word line w /\
      (w = lit "undo" -> has_history g' (undone H)) /\
      (w = lit "redo" -> has_history g' (redone H)) /\
      (w <> lit "undo" -> w <> lit "redo" -> exists s', line_result (current H) line w s' /\
         (s' = current H -> has_history g' H) /\ (s' <> current H -> has_history g' (changed_to s' H)))
  end.
Proof. exact line_ok. Qed.
Print Assumptions C69_line.

(** C69: any sequence of lines, from any state of the game: the lines before the first crash act on the history one after the other. *)
Theorem C69_play : forall fuel E lines g H g' e, env_ok E -> game_ok g -> has_history g H -> (2 <= fuel)%nat ->
  play fuel E lines g = (g', e) ->
  game_ok g' /\ gm_solution g' = gm_solution g /\ (exists t, gm_out g' = gm_out g ++ t) /\
  exists ran rest H', lines = ran ++ rest /\ steps H ran H' /\ has_history g' H' /\
    match e with
    | None => rest = []
    | Some x => exists line more, rest = line :: more /\ crashes line x
    end.
Proof. exact play_ok. Qed.
Print Assumptions C69_play.

(** C69: after lines that contain no undo and no redo, as many undos as there were changes restore the sudoku with its candidates and its past, and as many redos restore the last state with its whole history. *)
Theorem C69_undo_redo : forall fuel E lines g H g1 H1, env_ok E -> game_ok g -> has_history g H -> (2 <= fuel)%nat ->
  (forall line, In line lines -> ~ first_word line (lit "undo") /\ ~ first_word line (lit "redo")) ->
  play fuel E lines g = (g1, None) -> has_history g1 H1 ->
  exists m, (m <= length lines)%nat /\
    forall undos, only (lit "undo") undos -> length undos = m ->
    exists g2 H2, play fuel E undos g1 = (g2, None) /\ has_history g2 H2 /\ current H2 = current H /\ earlier H2 = earlier H /\
    forall redos, only (lit "redo") redos -> length redos = m ->
    exists g3, play fuel E redos g2 = (g3, None) /\ has_history g3 H1.
Proof. exact undo_redo_ok. Qed.
Print Assumptions C69_undo_redo.

Example C69_ex : game_ok game0 /\ has_history game0 hist0 /\ env_ok env9 /\
  let g1 := fst (after9 [lit "r1c1=7"; lit "check"; lit "r1c1=8"; lit "undo"; lit "undo"]) in
  let g2 := fst (after9 [lit "r1c1=7"; lit "check"; lit "r1c1=8"; lit "undo"; lit "undo"; lit "redo"]) in
  let g3 := fst (after9 [lit "r1c1=7"; lit "check"; lit "r1c1=8"; lit "undo"; lit " r1c1=9"]) in
  firsts g1 = ([0; 7; 8], 0) /\ firsts g2 = ([0; 7; 8], 1) /\ firsts g3 = ([0; 7; 9], 2).
Proof. split; [apply game0_ok|]. split; [apply game0_history|]. split; [apply env9_ok|]. vm_compute. auto. Qed.

(** C70: with the default settings autofill terminates and removes exactly the numbers of filled peers from the candidates; what it prints says so. *)
Theorem C70_autofill_default : forall cfg verbose s fuel, wf s -> verbose = false \/ box_width s * box_height s <= 9 ->
  is_set cfg (lit "autoremove") true -> is_set cfg (lit "autoset") false -> (2 <= fuel)%nat ->
  exists s' out, autofill fuel cfg verbose s = ((s', out), None) /\
    numbers_kept s s' /\
    (forall q n, field s q -> (In n (cand s' q) <-> In n (cand s q) /\ ~ taken s q n)) /\
    (verbose = false -> out = []) /\
    (verbose = true -> exists ms ls, out = concat ls /\ Forall2 autoremove_line ms ls /\
       (forall m, In m ms -> snd m <> [] /\ forall q, In q (snd m) -> field s q) /\
       (forall q n, field s q -> ((In n (cand s q) /\ taken s q n) <-> exists cs, In (n, cs) ms /\ In q cs))).
Proof. exact autofill_default. Qed.
Print Assumptions C70_autofill_default.

(** C70: the settings of a GameShell are such. *)
Theorem C70_default_settings : is_set default_settings (lit "autoremove") true /\ is_set default_settings (lit "autoset") false.
Proof. split; reflexivity. Qed.
Print Assumptions C70_default_settings.

Example C70_ex : let s := ok (set_candidates two9 0 0 [3; 5; 6]) in
  match autofill 2 default_settings true s with
  | ((s', out), e) => cand s' (0, 0) = [5] /\ e = None /\ out = lit "autoremove: r1c1<>3" ++ [10] ++ lit "autoremove: r1c1<>6" ++ [10]
  end.
Proof. vm_compute. auto. Qed.

(** C70: with any settings autofill raises nothing, keeps filled fields, adds no candidates, keeps every solution compatible with numbers and candidates, and when it ends there is nothing left to do. *)
Theorem C70_autofill_safe : forall cfg verbose fuel s s' out e, wf s -> verbose = false \/ box_width s * box_height s <= 9 ->
  autofill fuel cfg verbose s = ((s', out), e) ->
  (e = None \/ e = Some OutOfFuel) /\ wf s' /\ box_size s' = box_size s /\
  (forall p, field s p -> num s p <> 0 -> num s' p = num s p) /\
  (forall p n, field s p -> In n (cand s' p) -> In n (cand s p)) /\
  (forall f, consistent s f -> consistent s' f) /\
  (e = None -> forall p, field s p ->
    (setting_on cfg (lit "autoremove") = true -> forall n, taken s' p n -> ~ In n (cand s' p)) /\
    (setting_on cfg (lit "autoset") = true -> num s' p = 0 -> forall v, cand s' p <> [v])).
Proof. exact autofill_safe. Qed.
Print Assumptions C70_autofill_safe.

(** C70: with any settings autofill terminates if 0 is not a candidate. *)
Theorem C70_autofill_terminates : forall cfg verbose s, wf s -> verbose = false \/ box_width s * box_height s <= 9 ->
  (forall p, field s p -> ~ In 0 (cand s p)) ->
  exists s' out n, forall fuel, (n <= fuel)%nat -> autofill fuel cfg verbose s = ((s', out), None).
Proof. exact autofill_terminates. Qed.
Print Assumptions C70_autofill_terminates.

(** C70: with autoset and an empty field whose only candidate is 0 it does not. *)
Theorem C70_autofill_diverges : forall cfg verbose fuel s p, wf s -> verbose = false \/ box_width s * box_height s <= 9 ->
  is_set cfg (lit "autoset") true -> field s p -> num s p = 0 -> cand s p = [0] ->
  snd (autofill fuel cfg verbose s) = Some OutOfFuel.
Proof. exact autofill_diverges. Qed.
Print Assumptions C70_autofill_diverges.

Example C70_ex2 : let cfg := [(lit "autoremove", SBool true); (lit "autoset", SBool true)] in
  is_set cfg (lit "autoset") true /\
  match autofill 4 cfg true two9 with ((s', _), e) => e = None /\ num s' (0, 0) = 5 /\ num s' (8, 8) = 9 end /\
  cand (ok (set_candidates two9 0 0 [0])) (0, 0) = [0].
Proof. vm_compute. auto. Qed.

(** C76: the lines on which the game crashes are exactly: blank lines (IndexError), settings (TypeError), and actions whose fields make the notation raise TypeError. *)
Theorem C76_crashes : forall fuel E line g H x, env_ok E -> (2 <= fuel)%nat -> game_ok g -> has_history g H ->
  (snd (game_line fuel E line g) = Some x <-> crashes line x).
Proof. exact line_crash_iff. Qed.
Print Assumptions C76_crashes.

(** C76: what happens then: the board has been shown, nothing else has changed. *)
Theorem C76_crash_effect : forall fuel E line g H x, (2 <= fuel)%nat -> game_ok g -> has_history g H -> crashes line x ->
  exists v, prompt (current H) v /\ game_line fuel E line g = (gprint g v, Some x).
Proof. exact line_crashes. Qed.
Print Assumptions C76_crash_effect.

(** C76: other lines that are no commands are reported. *)
Theorem C76_unknown : forall fuel E line w g H, (2 <= fuel)%nat -> game_ok g -> has_history g H -> first_word line w -> ~ In w named ->
  decode_action line 3 3 = Err ValueError ->
  exists v, prompt (current H) v /\
    game_line fuel E line g = (gprint g (v ++ lit "Unknown command '" ++ line ++ lit "'" ++ [10]), None).
Proof. exact line_unknown. Qed.
Print Assumptions C76_unknown.

Example C76_ex : crashes (lit " ") IndexError /\ crashes (lit "settings x") TypeError /\ crashes (lit "r=5") TypeError /\
  decode_action (lit "help") 3 3 = Err ValueError /\ first_word (lit "help") (lit "help").
Proof.
  split; [left; split; auto; intros c [<-|[]]; reflexivity|].
  split; [right; left; split; auto|].
  { exists [], (lit " x"). repeat split; try discriminate; try (intros c []; fail); [|right; exists 32, (lit "x"); auto].
    intros c H. cbn in H. repeat (destruct H as [<-|H]; [reflexivity|]). destruct H. }
  split.
  { right; right. split; [auto|]. split; [vm_compute; reflexivity|]. exists (lit "r=5"). split.
    - exists [], []. repeat split; try discriminate; auto; try (intros c []; fail).
      intros c H. cbn in H. repeat (destruct H as [<-|H]; [reflexivity|]). destruct H.
    - intros H. cbn in H. intuition discriminate. }
  split; [vm_compute; reflexivity|]. exists [], []. repeat split; try discriminate; auto; try (intros c []; fail).
  intros c H. cbn in H. repeat (destruct H as [<-|H]; [reflexivity|]). destruct H.
Qed.

(** C77: check lists exactly the filled fields that differ from the solution, in reading order. *)
Theorem C77_check : forall fuel E line g H, game_ok g -> has_history g H -> first_word line (lit "check") ->
  exists v ps, prompt (current H) v /\
    game_line fuel E line g = (gprint g (v ++ concat (map (check_line (current H)) ps)), None) /\
    StronglySorted lex_lt ps /\
    forall p, In p ps <-> field (current H) p /\ num (current H) p <> 0 /\ num (current H) p <> num (gm_solution g) p.
Proof. exact line_check. Qed.
Print Assumptions C77_check.

Example C77_ex : ends (gm_out (fst (after9 [lit "r1c1=7"; lit "check"])))
    (lit "> [F] r1c1 = 7" ++ [10]) = true /\
  ends (gm_out (fst (after9 [lit "r1c1=5"; lit "check"]))) (lit "> ") = true.
Proof. split; vm_compute; reflexivity. Qed.

(** C78: conflicts lists every pair of peers with the same number exactly once, and nothing else. *)
Theorem C78_conflicts : forall fuel E line g H, game_ok g -> has_history g H -> first_word line (lit "conflicts") ->
  let s := current H in
  exists v ps, prompt s v /\
    game_line fuel E line g = (gprint g (v ++ concat (map conflict_text ps)), None) /\ NoDup ps /\
    (forall p q n, In (p, q, n) ps -> field s p /\ field s q /\ peers 3 3 p q /\ n <> 0 /\ num s p = n /\ num s q = n) /\
    (forall p q n, field s p -> field s q -> peers 3 3 p q -> n <> 0 -> num s p = n -> num s q = n ->
       (In (p, q, n) ps /\ ~ In (q, p, n) ps) \/ (In (q, p, n) ps /\ ~ In (p, q, n) ps)).
Proof. exact line_conflicts. Qed.
Print Assumptions C78_conflicts.

Example C78_ex : ends (gm_out (fst (after9 [lit "r1c1=3"; lit "conflicts"])))
    (lit "> [F]r1c1 = r1c2 = 3" ++ [10] ++ lit "[F]r1c1 = r9c1 = 3" ++ [10]) = true.
Proof. vm_compute; reflexivity. Qed.

(** C79: a new game never fails and starts with a uniquely solvable puzzle, its solution, the candidates of calc_candidates and a rating from 1 to 10. *)
Theorem C79_new_game : forall fuel o out, new_ok o -> (812 <= fuel)%nat ->
  exists g s r, new_game fuel o default_settings out = Ok g /\ game_ok g /\ has_history g (mkHistory [] s []) /\
    unique_solution s /\ solution s (num (gm_solution g)) /\ in_range s /\ conflict_free s /\ recomputed s s /\
    1 <= r <= 10 /\ gm_out g = out ++ lit "Generating new sudoku. Rating: " ++ str_of_int r ++ lit "/10" ++ [10].
Proof. exact new_game_ok. Qed.
Print Assumptions C79_new_game.

(** C79: so does run, for all lines entered afterwards. *)
Theorem C79_run : forall fuel o E version lines, new_ok o -> env_ok E -> (812 <= fuel)%nat ->
  exists s r g e, run fuel o E default_settings version lines = Ok (g, e) /\ game_ok g /\
    unique_solution s /\ solution s (num (gm_solution g)) /\ recomputed s s /\ 1 <= r <= 10 /\
    (exists t, gm_out g = banner version ++ (lit "Generating new sudoku. Rating: " ++ str_of_int r ++ lit "/10" ++ [10]) ++ t) /\
    exists ran rest H, lines = ran ++ rest /\ steps (mkHistory [] s []) ran H /\ has_history g H /\
    match e with
    | None => rest = []
    | Some x => exists line more, rest = line :: more /\ crashes line x
    end.
Proof. exact run_ok. Qed.
Print Assumptions C79_run.

Example C79_ex : new_ok (mkNew (Build_generate_oracle (Build_create_oracle 5 2 (fun l => l) (fun _ l => l)) (fun l => l) (fun _ _ l => l)) (fun _ l => l) ord_id).
Proof. split; [|split]; [|split; intros; cbn; auto|intros; cbn; auto]. split; [split; intros; cbn; auto|]. split; intros; cbn; auto. Qed.

(** C80: what hint shows.  Missing: that it starts again when only candidates have changed, which is false. *)
Theorem C80_hint_partial : forall fuel E line g H, env_ok E -> game_ok g -> has_history g H -> first_word line (lit "hint") ->
  let s := current H in
  exists v g' o k, prompt s v /\ game_line fuel E line g = (g', None) /\ has_history g' H /\
    ((gm_hints g = Some (o, k) /\ exists h, gm_hinted g = Some h /\ (forall p, field s p -> num h p = num s p) /\ gm_hinted g' = Some h) \/
     ((gm_hints g = None \/ forall h, gm_hinted g = Some h -> exists p, field s p /\ num h p <> num s p) /\
      o = s /\ k = hints (ge_oracle E (gm_calls g)) s /\ gm_hinted g' = Some s)) /\
    match k with
    | Yield st k' => gm_out g' = gm_out g ++ v ++ ge_show E st ++ [10] /\ gm_hints g' = Some (o, k' o)
    | _ => gm_out g' = gm_out g ++ v ++ no_more /\ gm_hints g' = Some (o, k)
    end.
Proof. exact line_hint. Qed.
Print Assumptions C80_hint_partial.

(** C80: after two hints, removing the candidate 9 of r9c9 and another hint the game shows a step (a hidden single) that the current sudoku does not offer. *)
Definition three9 : sudoku := ok (init_candidates (ok (foldM (fun s p => setitem s (fst p) (snd p) 0) [(2, 8); (8, 7); (8, 8)] sol9)) false).
Definition game3 : game := mkGame default_settings None None [three9] 0 sol9 [] 0.
Lemma game3_ok : game_ok game3.
Proof.
  constructor; cbn [game3 gm_settings gm_index gm_sudokus gm_solution gm_hinted gm_hints]; try discriminate; auto.
  - vm_compute; intuition congruence.
  - intros s [<-|[]]. apply nine_wfb; vm_compute; reflexivity.
  - apply nine_wfb; vm_compute; reflexivity.
Qed.
Lemma hint_head : forall (x : option (sudoku * gen sudoku step sudoku)) o w,
  match x with Some (o, Yield st _) => Some (o, (st_class st, affected st, values st)) | _ => None end = Some (o, w) ->
  exists st k, x = Some (o, Yield st k) /\ (st_class st, affected st, values st) = w.
Proof. intros [[o' [r|st k|e]]|] o w E; try discriminate. injection E as -> E. exists st, k. auto. Qed.
Definition lines80 : list pystr := [lit "hint"; lit "hint"; lit "r9c9<>9"].
Theorem C80_stale_refuted : exists fuel E g0 H0 g H st k,
  game_ok g0 /\ has_history g0 H0 /\ env_ok E /\
  play fuel E lines80 g0 = (g, None) /\ has_history g H /\ current H <> current H0 /\
  gm_hints g = Some (current H0, Yield st k) /\
  gyields (hints (ge_oracle E (gm_calls g)) (current H)) (current H) <> [] /\
  forall st', In st' (gyields (hints (ge_oracle E (gm_calls g)) (current H)) (current H)) ->
    (st_class st', affected st', values st') <> (st_class st, affected st, values st).
Proof.
  exists 2%nat, env9, game3, (mkHistory [] three9 []).
  assert (H0h : has_history game3 (mkHistory [] three9 [])) by (split; reflexivity).
  destruct (play 2 env9 lines80 game3) as [g e] eqn:EP.
  destruct (play_ok _ _ _ _ _ _ _ env9_ok game3_ok H0h (le_n 2) EP) as [_ [_ [_ [ran [rest [H [_ [_ [HH _]]]]]]]]].
  exists g, H.
  assert (EG : g = fst (play 2 env9 lines80 game3)) by (rewrite EP; auto).
  assert (Ee : e = snd (play 2 env9 lines80 game3)) by (rewrite EP; auto).
  assert (EH : H = mkHistory [three9] (ok (set_candidates three9 8 8 [7])) []).
  { apply (history_unique g); auto. rewrite EG. clear. split; vm_compute; reflexivity. }
  assert (Eh : exists st k, gm_hints g = Some (three9, Yield st k) /\ (st_class st, affected st, values st) = (HiddenSingle, [(2, 8)], [7])).
  { assert (X : match gm_hints g with Some (o, Yield st _) => Some (o, (st_class st, affected st, values st)) | _ => None end =
      Some (three9, (HiddenSingle, [(2, 8)], [7]))) by (rewrite EG; clear; vm_compute; reflexivity).
    exact (hint_head _ _ _ X). }
  destruct Eh as [st [k [Eh Ea]]]. exists st, k.
  split; [apply game3_ok|]. split; [auto|]. split; [apply env9_ok|].
  split; [rewrite Ee; f_equal; clear; vm_compute; reflexivity|]. split; [auto|].
  subst H. split; [intros X; apply (f_equal (fun s => cand s (8, 8))) in X; revert X; clear; vm_compute; discriminate|].
  split; [exact Eh|]. rewrite Ea.
  set (what := fun st => (st_class st, affected st, values st)).
  assert (Y : map what (gyields (hints ord_id (ok (set_candidates three9 8 8 [7]))) (ok (set_candidates three9 8 8 [7]))) =
    [(NakedSingle, [(2, 8)], [7]); (NakedSingle, [(8, 7)], [7]); (NakedSingle, [(8, 8)], [7]);
     (HiddenSingle, [(2, 8)], [9]); (HiddenSingle, [(8, 7)], [7]); (HiddenSingle, [(8, 8)], [9])]).
  { clear. vm_compute. reflexivity. }
  cbn [env9 ge_oracle current]. revert Y. clear. generalize (gyields (hints ord_id (ok (set_candidates three9 8 8 [7]))) (ok (set_candidates three9 8 8 [7]))).
  intros l Y. split.
  - intros X. rewrite X in Y. discriminate.
  - intros st' X1 X2. apply (in_map what) in X1. unfold what at 1 in X1. rewrite Y, X2 in X1. cbn in X1. intuition discriminate.
Qed.
Print Assumptions C80_stale_refuted.
