(** Proofs about the lines of the game shell and the history. *)
From Verif Require Export LGame4.
From Verif Require Import MNotation.

(** * candidates *)
Lemma recompute_ok : forall s, wf s -> exists s', init_candidates s false = Ok s' /\ recomputed s s'.
Proof.
  intros s W. destruct (init_candidates_ok s false W) as [t [E [Wt [Ew [Eh [En Ec]]]]]]. exists t. split; auto.
  split; [split; [auto|split; [unfold box_size; congruence|auto]]|].
  intros q F. rewrite Ec by auto. cbn [andb]. destruct (num s q =? 0) eqn:Z0.
  - b2p. intros n. rewrite in_pcalc_empty by auto. split; intros [A B]; split; auto.
    + intros [p [Fp [P [N1 N2]]]]. apply (B p); auto. apply peers_sym; auto.
    + intros p Fp P X. apply B. exists p. splits; auto; [apply peers_sym; auto|lia].
  - unfold pcalc. rewrite Z0. auto.
Qed.

(** * actions *)
Lemma decode_action_outcome : forall line w h,
  (exists a, decode_action line w h = Ok a /\ forall s, wf s -> box_size s = (w, h) ->
     exists s1, apply_action a s = Some (Ok s1) /\ acted a s s1) \/
  decode_action line w h = Err ValueError \/ decode_action line w h = Err TypeError.
Proof.
  intros line w h. unfold decode_action.
  assert (I : forall t, (exists n, int_of_str t = Ok n) \/ int_of_str t = Err ValueError).
  { intros t. unfold int_of_str. repeat match goal with |- context [match ?x with _ => _ end] => destruct x end; eauto. }
  assert (Is : forall t, (exists n, ints_of_chars t = Ok n) \/ ints_of_chars t = Err ValueError).
  { unfold ints_of_chars. induction t as [|c t IH]; cbn [mapM]; eauto.
    destruct (I [c]) as [[n ->]| ->]; cbn [rbind]; auto. destruct IH as [[l ->]| ->]; cbn [rbind]; eauto. }
  assert (Rm : forall cs t ds, ndecode t w h (lit ",") [] = Ok cs -> forall s, wf s -> box_size s = (w, h) ->
     exists s1, apply_action (RemoveCandidates cs (map AInt ds)) s = Some (Ok s1) /\ acted (RemoveCandidates cs (map AInt ds)) s s1).
  { intros cs t ds N s W B. apply ndecode_cells in N. destruct N as [_ [_ [_ N]]].
    injection B as Bw Bh.
    destruct (apply_remove s cs ds W) as [s1 [A [B [C D]]]]; [intros p Hp; unfold field; rewrite Bw, Bh; auto|].
    exists s1. split; auto. unfold acted. splits; auto. intros p Hp. destruct (D p Hp) as [D1 [D2 D3]]. splits; auto.
    intros Hi v. rewrite D2 by auto.
    split; intros [X Y]; split; auto; intros Q; apply Y; [apply in_map_iff in Q; destruct Q as [y [Q1 Q2]]; congruence|apply in_map; auto]. }
  assert (St : forall cs t n, ndecode t w h (lit ",") [] = Ok cs -> forall s, wf s -> box_size s = (w, h) ->
     exists s1, apply_action (SetNumber cs (AInt n)) s = Some (Ok s1) /\ acted (SetNumber cs (AInt n)) s s1).
  { intros cs t n N s W B. apply ndecode_cells in N. destruct N as [_ [_ [_ N]]].
    injection B as Bw Bh.
    destruct (apply_set s cs n W) as [s1 [A [B [C D]]]]; [intros p Hp; unfold field; rewrite Bw, Bh; auto|].
    exists s1. split; auto. unfold acted. splits; auto. }
  destruct (starts_with (lit "-") (strip line)).
  - destruct (str_partition (lit " ") (strip line)) as [l r].
    destruct (ndecode_outcome r w h (lit ",") []) as [[[x Ex]|Ex]|Ex]; rewrite Ex; cbn [rbind]; auto.
    destruct (Is l) as [[n ->]| ->]; cbn [rbind]; auto. left. eexists. split; [reflexivity|]. eauto.
  - destruct (str_in (lit "<>") (strip line)).
    + destruct (str_partition (lit "<>") (strip line)) as [l r].
      destruct (Is r) as [[n ->]| ->]; cbn [rbind]; auto.
      destruct (ndecode_outcome l w h (lit ",") []) as [[[x Ex]|Ex]|Ex]; rewrite Ex; cbn [rbind]; auto.
      left. eexists. split; [reflexivity|]. eauto.
    + destruct (str_in (lit "=") (strip line)); auto.
      destruct (str_partition (lit "=") (strip line)) as [l r].
      destruct (I r) as [[n ->]| ->]; cbn [rbind]; auto.
      destruct (ndecode_outcome l w h (lit ",") []) as [[[x Ex]|Ex]|Ex]; rewrite Ex; cbn [rbind]; auto.
      left. eexists. split; [reflexivity|]. eauto.
Qed.

(** The lines that autofill prints after an action. *)
Lemma action_ok : forall fuel line g s, gm_settings g = default_settings -> nine s -> (2 <= fuel)%nat ->
  exists t s' e, cmd_action fuel line (g, s) = ((gprint g t, s'), e) /\ nine s' /\
    match decode_action line 3 3 with
    | Ok a => e = None /\ exists s1, acted a s s1 /\ pruned s1 s' /\ exists ms ls, t = concat ls /\ Forall2 autoremove_line ms ls /\
       (forall m, In m ms -> snd m <> [] /\ forall q, In q (snd m) -> field s q) /\
       (forall q n, field s q -> ((In n (cand s1 q) /\ taken s1 q n) <-> exists cs, In (n, cs) ms /\ In q cs))
    | Err x => s' = s /\ (x = ValueError /\ e = None /\ t = lit "Unknown command '" ++ line ++ lit "'" ++ [10] \/
                          x = TypeError /\ e = Some TypeError /\ t = [])
    end.
Proof.
  intros fuel line g s Gs N Hf. unfold cmd_action. destruct (nine_dims s N) as [Dw Dh]. rewrite Dw, Dh.
  destruct (decode_action_outcome line 3 3) as [[a [Ea A]]|[Ea|Ea]]; rewrite Ea.
  - destruct (A s (nine_wf s N)) as [s1 [E1 A1]]; [apply N|]. rewrite E1, Gs.
    destruct A1 as [W1 [B1 M1]].
    assert (B1' : box_size s1 = (3, 3)) by (rewrite B1; apply N).
    assert (N1 : nine s1) by (split; auto).
    destruct (autofill_default default_settings true s1 fuel) as [s' [out [E' [K [C [_ L]]]]]]; auto.
    { right. rewrite nine_NN by auto. lia. }
    { reflexivity. }
    { reflexivity. }
    rewrite E'. exists out, s', None. splits; auto.
    + destruct K as [K1 [K2 _]]. split; auto. congruence.
    + exists s1. assert (F : forall q, field s q <-> field s1 q) by (intros q; rewrite !nine_field by auto; tauto).
      splits; auto; [split; auto|split; auto|].
      destruct (L eq_refl) as [ms [ls [X1 [X2 [X3 X4]]]]]. exists ms, ls. splits; auto.
      * intros m Hm. destruct (X3 m Hm) as [Y1 Y2]. split; auto. intros q Hq. apply F; auto.
      * intros q n Fq. apply X4, F; auto.
  - eexists _, s, None. splits; [reflexivity|auto|auto|]. left; auto.
  - exists [], s, (Some TypeError). rewrite gprint_nil. splits; auto.
Qed.

(** * The commands other than undo and redo *)
Lemma settings_raises : forall g, gm_settings g = default_settings -> cmd_settings g = (g, Some TypeError).
Proof.
  intros g E. unfold cmd_settings. rewrite E.
  replace (py_sorted (list_cmp zcmp) (dkeys default_settings)) with (dkeys default_settings) by (vm_compute; reflexivity).
  cbn [dkeys default_settings map fst for_each]. rewrite E. reflexivity.
Qed.

Lemma command_ok : forall fuel E line w g s, env_ok E -> game_ok g -> nine s -> (2 <= fuel)%nat -> first_word line w ->
  w <> lit "undo" -> w <> lit "redo" ->
  exists g' s' e, command_on fuel E line w (g, s) = ((g', s'), e) /\ game_ok g' /\ same_frame g g' /\ nine s' /\
    (e = None /\ line_result s line w s' \/ e = Some TypeError /\ crashes line TypeError).
Proof.
  intros fuel E line w g s He G N Hf Hw Nu Nr. unfold command_on, line_result. cbn [existsb].
  destruct (str_eqb w (lit "hint")) eqn:E1.
  { destruct (hint_ok E s g He G N) as [g' [A [B C]]]. rewrite A. exists g', s, None. splits; auto. left; cbn [orb]; auto. }
  destruct (str_eqb w (lit "candidates")) eqn:E2.
  { destruct (recompute_ok s (nine_wf s N)) as [s' [A B]]. rewrite A. cbn [with_value]. exists g, s', None. splits; auto.
    - apply frame_refl.
    - destruct B as [[B1 [B2 _]] _]. split; auto. rewrite B2. apply N.
    - left. split; auto. apply str_eqb_eq in E2. subst w. cbn. auto. }
  destruct (str_eqb w (lit "conflicts")) eqn:E3.
  { destruct (conflicts_ok s g N) as [ps [A _]]. rewrite A. eexists _, s, None. splits; [reflexivity|..]; auto using gprint_ok, gprint_frame.
    left; cbn [orb]; rewrite ?orb_true_r; auto. }
  destruct (str_eqb w (lit "settings")) eqn:E4.
  { rewrite settings_raises by apply G. exists g, s, (Some TypeError). splits; auto; [apply frame_refl|].
    right. split; auto. right; left. apply str_eqb_eq in E4. subst w. auto. }
  destruct (str_eqb w (lit "check")) eqn:E5.
  { rewrite check_ok; [|auto|apply (go_solution g G)]. eexists _, s, None. splits; [reflexivity|..]; auto using gprint_ok, gprint_frame.
    left; cbn [orb]; rewrite ?orb_true_r; auto. }
  destruct (str_eqb w (lit "undo")) eqn:E6; [apply str_eqb_eq in E6; congruence|].
  destruct (str_eqb w (lit "redo")) eqn:E7; [apply str_eqb_eq in E7; congruence|].
  cbn [orb].
  destruct (action_ok fuel line g s (go_settings g G) N Hf) as [t [s' [e [A [B C]]]]]. rewrite A.
  eexists _, s', e. splits; [reflexivity|..]; auto using gprint_ok, gprint_frame.
  destruct (decode_action line 3 3) as [a|x] eqn:Ed.
  - left. destruct C as [C1 [s1 [C2 [C3 _]]]]. split; auto. eauto.
  - destruct C as [C1 [[C2 [C3 _]]|[C2 [C3 _]]]]; [left|right]; split; auto.
    right; right. splits; auto; [congruence|]. exists w. split; auto.
    intros X. cbn [In named] in X. repeat match type of X with _ \/ _ => destruct X as [X|X] end; try contradiction; subst w; try discriminate; auto.
Qed.

(** * The history *)
Lemma history_current : forall g H, has_history g H -> list_get (gm_sudokus g) (gm_index g) = Ok (current H).
Proof.
  intros g H [A B]. rewrite (list_get_ok _ _ (current H)).
  - rewrite A, B. unfold py_len. rewrite Nat2Z.id. rewrite app_nth2; rewrite rev_length; [|lia]. rewrite Nat.sub_diag. auto.
  - rewrite A, B. unfold py_len. rewrite app_length, rev_length. cbn [length]. lia.
Qed.

Lemma history_nine : forall g H, game_ok g -> has_history g H -> nine (current H).
Proof. intros g H G [A _]. apply (go_nine g G). rewrite A. apply in_app_iff; right; left; auto. Qed.

Lemma history_frame : forall g g' H, same_frame g g' -> has_history g H -> has_history g' H.
Proof. intros g g' H [A [B _]] [C D]. split; congruence. Qed.

Lemma game_ok_index : forall g i, game_ok g -> 0 <= i < py_len (gm_sudokus g) -> game_ok (set_index g i).
Proof. intros g i []; constructor; auto. Qed.

Lemma history_index : forall g H, has_history g H -> 0 <= gm_index g < py_len (gm_sudokus g).
Proof. intros g H [A B]. rewrite A, B. unfold py_len. rewrite app_length, rev_length. cbn [length]. lia. Qed.

Lemma undo_ok : forall g H, game_ok g -> has_history g H -> exists t g',
  (if gm_index g =? 0 then gprint g (lit "Nothing to undo." ++ [10]) else set_index g (gm_index g - 1)) = g' /\
  game_ok g' /\ has_history g' (undone H) /\ gm_solution g' = gm_solution g /\ gm_out g' = gm_out g ++ t /\
  t = match earlier H with [] => lit "Nothing to undo." ++ [10] | _ => [] end.
Proof.
  intros g H G HH. pose proof (history_index g H HH) as I. pose proof HH as [A B].
  unfold undone. destruct (earlier H) as [|x l] eqn:Ee.
  - rewrite B. cbn [py_len length Z.of_nat Z.eqb]. eexists _, _. splits; [reflexivity|..]; auto using gprint_ok. reflexivity.
  - assert (L : gm_index g = 1 + Z.of_nat (length l)) by (rewrite B; unfold py_len; cbn [length]; lia).
    replace (gm_index g =? 0) with false by (symmetry; apply Z.eqb_neq; lia).
    exists [], (set_index g (gm_index g - 1)). rewrite app_nil_r. splits; auto.
    + apply game_ok_index; auto. lia.
    + split; cbn [set_index gm_sudokus gm_index earlier current later].
      * rewrite A. cbn [rev]. rewrite <- app_assoc. auto.
      * unfold py_len. lia.
Qed.

Lemma redo_ok : forall g H, game_ok g -> has_history g H -> exists t g',
  (if gm_index g + 1 =? py_len (gm_sudokus g) then gprint g (lit "Nothing to redo." ++ [10]) else set_index g (gm_index g + 1)) = g' /\
  game_ok g' /\ has_history g' (redone H) /\ gm_solution g' = gm_solution g /\ gm_out g' = gm_out g ++ t /\
  t = match later H with [] => lit "Nothing to redo." ++ [10] | _ => [] end.
Proof.
  intros g H G HH. pose proof (history_index g H HH) as I. pose proof HH as [A B].
  assert (L : py_len (gm_sudokus g) = gm_index g + 1 + Z.of_nat (length (later H))).
  { rewrite A, B. unfold py_len. rewrite app_length, rev_length. cbn [length]. lia. }
  unfold redone. destruct (later H) as [|x l] eqn:Ee; cbn [length] in L.
  - replace (gm_index g + 1 =? py_len (gm_sudokus g)) with true by (symmetry; apply Z.eqb_eq; lia).
    eexists _, _. splits; [reflexivity|..]; auto using gprint_ok. reflexivity.
  - replace (gm_index g + 1 =? py_len (gm_sudokus g)) with false by (symmetry; apply Z.eqb_neq; lia).
    exists [], (set_index g (gm_index g + 1)). rewrite app_nil_r. splits; auto.
    + apply game_ok_index; auto. lia.
    + split; cbn [set_index gm_sudokus gm_index earlier current later].
      * rewrite A. cbn [rev]. rewrite <- app_assoc. auto.
      * rewrite B. unfold py_len. cbn [length]. lia.
Qed.

Lemma change_ok : forall g H s, game_ok g -> has_history g H -> nine s ->
  let g' := set_index (set_sudokus g (history_to g ++ [s])) (gm_index g + 1) in
  game_ok g' /\ has_history g' (changed_to s H).
Proof.
  intros g H s G HH N g'. pose proof HH as [A B].
  assert (T : history_to g = rev (earlier H) ++ [current H]).
  { unfold history_to. rewrite A, B. unfold py_len.
    replace (Z.to_nat (Z.of_nat (length (earlier H)) + 1)) with (length (rev (earlier H)) + 1)%nat by (rewrite rev_length; lia).
    rewrite firstn_app_2. auto. }
  assert (HH' : has_history g' (changed_to s H)).
  { split; unfold g'; cbn [set_index set_sudokus gm_sudokus gm_index changed_to earlier current later].
    - rewrite T. auto.
    - rewrite B. unfold py_len; cbn [length]. lia. }
  split; auto. pose proof (history_index _ _ HH') as I. unfold g' in *. pose proof (go_nine g G) as GN. destruct G. constructor; auto.
  cbn [set_index set_sudokus gm_sudokus]. intros x Hx. apply in_app_iff in Hx. destruct Hx as [Hx|[<-|[]]]; auto.
  apply GN. unfold history_to in Hx. rewrite <- (firstn_skipn (Z.to_nat (gm_index g + 1)) (gm_sudokus g)).
  apply in_app_iff; auto.
Qed.

Lemma equals_true : forall a b, nine a -> nine b -> exists e, equals a b true = Ok e /\ (e = true <-> a = b).
Proof.
  intros a b A B. destruct (C06_proof a b) as [d [e [q [qn [_ [_ [E [_ [_ [_ [_ [_ [X _]]]]]]]]]]]]];
    [apply nine_wf; auto|apply nine_wf; auto|rewrite !nine_NN; auto|].
  exists q. split; auto. rewrite X. split; [|intros ->; auto].
  intros Y. destruct (nine_dims a A) as [A1 A2], (nine_dims b B) as [B1 B2].
  apply sudoku_ext; try (apply nine_wf; auto); try congruence; intros; apply Y; auto.
Qed.

(** * A line *)
Lemma str_eqb_refl' : forall s, str_eqb s s = true.
Proof. intros s. apply str_eqb_eq; auto. Qed.

Lemma line_blank : forall fuel E line g H, game_ok g -> has_history g H -> blank_line line ->
  exists v, prompt (current H) v /\ game_line fuel E line g = (gprint g v, Some IndexError).
Proof.
  intros fuel E line g H G HH B. pose proof (history_nine g H G HH) as N. unfold game_line.
  rewrite (history_current g H HH). cbn [with_value]. rewrite copy_true by (apply nine_wf; auto). cbn [with_value].
  destruct (view_total (current H) (nine_wf _ N)) as [v V]. rewrite V. cbn [with_value].
  rewrite split_blank_line by auto. eexists. split; [exists v; auto|reflexivity].
Qed.

Lemma line_undo : forall fuel E line g H, game_ok g -> has_history g H -> first_word line (lit "undo") ->
  exists v g', prompt (current H) v /\ game_line fuel E line g = (g', None) /\ game_ok g' /\ has_history g' (undone H) /\
    gm_solution g' = gm_solution g /\ gm_out g' = gm_out g ++ v ++ match earlier H with [] => lit "Nothing to undo." ++ [10] | _ => [] end.
Proof.
  intros fuel E line g H G HH Hw. pose proof (history_nine g H G HH) as N. unfold game_line.
  rewrite (history_current g H HH). cbn [with_value]. rewrite copy_true by (apply nine_wf; auto). cbn [with_value].
  destruct (view_total (current H) (nine_wf _ N)) as [v V]. rewrite V. cbn [with_value].
  destruct (split_first line _ Hw) as [rest ->]. set (p := v ++ [10; 10] ++ lit "> ").
  destruct (undo_ok (gprint g p) H) as [t [g' [A [B [C [S [D F]]]]]]]; [apply gprint_ok; auto|auto|].
  exists p, g'. split; [exists v; auto|]. splits; auto.
  - unfold command_on. cbn [str_eqb lit]. rewrite A. reflexivity.
  - rewrite D, F. cbn [gprint gm_out]. rewrite <- app_assoc. reflexivity.
Qed.

Lemma line_redo : forall fuel E line g H, game_ok g -> has_history g H -> first_word line (lit "redo") ->
  exists v g', prompt (current H) v /\ game_line fuel E line g = (g', None) /\ game_ok g' /\ has_history g' (redone H) /\
    gm_solution g' = gm_solution g /\ gm_out g' = gm_out g ++ v ++ match later H with [] => lit "Nothing to redo." ++ [10] | _ => [] end.
Proof.
  intros fuel E line g H G HH Hw. pose proof (history_nine g H G HH) as N. unfold game_line.
  rewrite (history_current g H HH). cbn [with_value]. rewrite copy_true by (apply nine_wf; auto). cbn [with_value].
  destruct (view_total (current H) (nine_wf _ N)) as [v V]. rewrite V. cbn [with_value].
  destruct (split_first line _ Hw) as [rest ->]. set (p := v ++ [10; 10] ++ lit "> ").
  destruct (redo_ok (gprint g p) H) as [t [g' [A [B [C [S [D F]]]]]]]; [apply gprint_ok; auto|auto|].
  exists p, g'. split; [exists v; auto|]. splits; auto.
  - unfold command_on. cbn [str_eqb lit]. rewrite A. reflexivity.
  - rewrite D, F. cbn [gprint gm_out]. rewrite <- app_assoc. reflexivity.
Qed.

(** The other lines: the command runs on the current sudoku, and a change is appended to the history. *)
Lemma line_other : forall fuel E line g H w g1 s' e, game_ok g -> has_history g H -> first_word line w ->
  w <> lit "undo" -> w <> lit "redo" ->
  forall v, prompt (current H) v -> command_on fuel E line w (gprint g v, current H) = ((g1, s'), e) ->
  game_ok g1 -> same_frame (gprint g v) g1 -> nine s' ->
  exists g', game_line fuel E line g = (g', e) /\ game_ok g' /\ gm_solution g' = gm_solution g1 /\ gm_out g' = gm_out g1 /\
    (e <> None -> g' = g1 /\ has_history g' H) /\
    (e = None -> (s' = current H -> g' = g1 /\ has_history g' H) /\ (s' <> current H -> has_history g' (changed_to s' H))).
Proof.
  intros fuel E line g H w g1 s' e G HH Hw Nu Nr v [v0 [V ->]] EC G1 SF N'. pose proof (history_nine g H G HH) as N.
  assert (H1 : has_history g1 H) by (eapply history_frame; [exact SF|exact HH]).
  assert (X : game_line fuel E line g = andthen (g1, e) (fun g =>
            with_value (list_get (gm_sudokus g) (gm_index g)) g (fun cur =>
            with_value (equals s' cur true) g (fun same =>
              if same : bool then (g, None)
              else (set_index (set_sudokus g (history_to g ++ [s'])) (gm_index g + 1), None))))).
  { unfold game_line. rewrite (history_current g H HH). cbn [with_value]. rewrite copy_true by (apply nine_wf; auto). cbn [with_value].
    rewrite V. cbn [with_value]. destruct (split_first line _ Hw) as [rest ->]. rewrite EC. 
    destruct (str_eqb w (lit "undo")) eqn:E1; [apply str_eqb_eq in E1; congruence|].
    destruct (str_eqb w (lit "redo")) eqn:E2; [apply str_eqb_eq in E2; congruence|]. reflexivity. }
  rewrite X. destruct e as [x|]; cbn [andthen].
  - exists g1. splits; auto. congruence.
  - rewrite (history_current g1 H H1). cbn [with_value].
    destruct (equals_true s' (current H) N' N) as [b [-> B]]. cbn [with_value]. destruct b.
    + exists g1. splits; auto. intros _. split; [auto|]. intros Y. exfalso; apply Y, B; auto.
    + destruct (change_ok g1 H s' G1 H1 N') as [C1 C2]. eexists. splits; [reflexivity|auto|auto|auto|congruence|].
      intros _. split; [|auto]. intros Y. apply B in Y. discriminate.
Qed.

Lemma line_ok : forall fuel E line g H g' e, env_ok E -> game_ok g -> has_history g H -> (2 <= fuel)%nat ->
  game_line fuel E line g = (g', e) ->
  game_ok g' /\ gm_solution g' = gm_solution g /\
  (exists v t, prompt (current H) v /\ gm_out g' = gm_out g ++ v ++ t) /\
  match e with
  | Some x => crashes line x /\ has_history g' H
  | None => exists w, first_word line w /\
      (w = lit "undo" -> has_history g' (undone H)) /\
      (w = lit "redo" -> has_history g' (redone H)) /\
      (w <> lit "undo" -> w <> lit "redo" -> exists s', line_result (current H) line w s' /\
         (s' = current H -> has_history g' H) /\ (s' <> current H -> has_history g' (changed_to s' H)))
  end.
Proof.
  intros fuel E line g H g' e He G HH Hf EL. pose proof (history_nine g H G HH) as N.
  destruct (split_blanks_spec line) as [[B _]|[w [rest [_ Hw]]]].
  { destruct (line_blank fuel E line g H G HH B) as [v [V X]]. rewrite X in EL. injection EL as <- <-.
    splits; auto using gprint_ok.
    - exists v, []. rewrite app_nil_r. auto.
    - left. auto. }
  destruct (str_eqb w (lit "undo")) eqn:E1.
  { apply str_eqb_eq in E1. subst w.
    destruct (line_undo fuel E line g H G HH Hw) as [v [g2 [V [X [G2 [H2 [S2 O2]]]]]]]. rewrite X in EL. injection EL as <- <-.
    splits; auto; [eauto|]. exists (lit "undo"). splits; auto; [discriminate|]. intros Y; congruence. }
  destruct (str_eqb w (lit "redo")) eqn:E2.
  { apply str_eqb_eq in E2. subst w.
    destruct (line_redo fuel E line g H G HH Hw) as [v [g2 [V [X [G2 [H2 [S2 O2]]]]]]]. rewrite X in EL. injection EL as <- <-.
    splits; auto; [eauto|]. exists (lit "redo"). splits; auto; [discriminate|]. intros _ Y; congruence. }
  assert (Nu : w <> lit "undo") by (intros ->; rewrite str_eqb_refl' in E1; discriminate).
  assert (Nr : w <> lit "redo") by (intros ->; rewrite str_eqb_refl' in E2; discriminate).
  destruct (view_total (current H) (nine_wf _ N)) as [v0 V0]. set (v := v0 ++ [10; 10] ++ lit "> ").
  assert (V : prompt (current H) v) by (exists v0; auto).
  destruct (command_ok fuel E line w (gprint g v) (current H) He (gprint_ok g v G) N Hf Hw Nu Nr)
    as [g1 [s' [e1 [C1 [C2 [C3 [C4 C5]]]]]]].
  destruct (line_other fuel E line g H w g1 s' e1 G HH Hw Nu Nr v V C1 C2 C3 C4) as [g2 [X [G2 [S2 [O2 [D1 D2]]]]]].
  rewrite X in EL. injection EL as <- <-. splits; auto.
  - rewrite S2. apply C3.
  - destruct C3 as [_ [_ [_ [_ [t Ht]]]]]. exists v, t. split; auto. rewrite O2, Ht. cbn [gprint gm_out]. rewrite app_assoc. auto.
  - destruct e1 as [x|].
    + destruct C5 as [[C5 _]|[C5 C6]]; [discriminate|]. injection C5 as ->. split; auto. apply D1; congruence.
    + exists w. splits; auto; try (intros; congruence). intros _ _. exists s'.
      destruct C5 as [[_ C5]|[C5 _]]; [|discriminate]. destruct (D2 eq_refl) as [D3 D4]. splits; auto. intros Y; apply D3; auto.
Qed.

(** * The shape of a history: what undo and redo do to it *)
Lemma undone_redone : forall H, earlier H <> [] -> redone (undone H) = H.
Proof. intros [[|x l] c r] N; [cbn in N; congruence|reflexivity]. Qed.
Lemma redone_undone : forall H, later H <> [] -> undone (redone H) = H.
Proof. intros [l c [|x r]] N; [cbn in N; congruence|reflexivity]. Qed.
