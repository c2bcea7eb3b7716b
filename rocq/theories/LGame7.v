(** Proofs about single lines of the game shell: check, conflicts, hint and crashes. *)
From Verif Require Export LGame6.
From Verif Require Import MNotation.

(** A line whose command prints [t] and changes nothing. *)
Lemma line_quiet : forall fuel E line g H w g1, game_ok g -> has_history g H -> first_word line w ->
  w <> lit "undo" -> w <> lit "redo" ->
  forall v, prompt (current H) v -> command_on fuel E line w (gprint g v, current H) = ((g1, current H), None) ->
  game_ok g1 -> same_frame (gprint g v) g1 ->
  game_line fuel E line g = (g1, None) /\ has_history g1 H.
Proof.
  intros fuel E line g H w g1 G HH Hw Nu Nr v V C G1 F. pose proof (history_nine g H G HH) as N.
  destruct (line_other fuel E line g H w g1 (current H) None G HH Hw Nu Nr v V C G1 F N) as [g2 [A [B [_ [_ [_ D]]]]]].
  destruct (D eq_refl) as [D1 _]. destruct (D1 eq_refl) as [-> D2]. auto.
Qed.

Lemma prompt_ex : forall g H, game_ok g -> has_history g H -> exists v, prompt (current H) v.
Proof.
  intros g H G HH. destruct (view_total (current H) (nine_wf _ (history_nine g H G HH))) as [v V].
  eexists. exists v. auto.
Qed.

Lemma line_check : forall fuel E line g H, game_ok g -> has_history g H -> first_word line (lit "check") ->
  exists v ps, prompt (current H) v /\
    game_line fuel E line g = (gprint g (v ++ concat (map (check_line (current H)) ps)), None) /\
    StronglySorted lex_lt ps /\
    forall p, In p ps <-> field (current H) p /\ num (current H) p <> 0 /\ num (current H) p <> num (gm_solution g) p.
Proof.
  intros fuel E line g H G HH Hw. destruct (prompt_ex g H G HH) as [v V]. pose proof (history_nine g H G HH) as N.
  exists v, (filter (wrong g (current H)) (coords (current H))). splits; auto.
  - rewrite <- gprint_app. destruct (line_quiet fuel E line g H (lit "check")
      (gprint (gprint g v) (concat (map (check_line (current H)) (filter (wrong g (current H)) (coords (current H)))))) G HH Hw) with (v := v) as [A _]; auto.
    + discriminate.
    + discriminate.
    + unfold command_on. cbn [str_eqb lit]. rewrite check_ok; [reflexivity|auto|apply (go_solution _ G)].
    + apply gprint_ok, gprint_ok; auto.
    + apply gprint_frame.
  - apply filter_sorted. apply coords_sorted.
  - intros p. rewrite filter_In, in_coords. unfold wrong. rewrite andb_true_iff, !negb_true_iff, !Z.eqb_neq. tauto.
Qed.

Lemma line_conflicts : forall fuel E line g H, game_ok g -> has_history g H -> first_word line (lit "conflicts") ->
  let s := current H in
  exists v ps, prompt s v /\
    game_line fuel E line g = (gprint g (v ++ concat (map conflict_text ps)), None) /\ NoDup ps /\
    (forall p q n, In (p, q, n) ps -> field s p /\ field s q /\ peers 3 3 p q /\ n <> 0 /\ num s p = n /\ num s q = n) /\
    (forall p q n, field s p -> field s q -> peers 3 3 p q -> n <> 0 -> num s p = n -> num s q = n ->
       (In (p, q, n) ps /\ ~ In (q, p, n) ps) \/ (In (q, p, n) ps /\ ~ In (p, q, n) ps)).
Proof.
  intros fuel E line g H G HH Hw s. destruct (prompt_ex g H G HH) as [v V]. pose proof (history_nine g H G HH) as N.
  destruct (conflicts_ok s (gprint g v) N) as [ps [A [B [C [D F]]]]]. exists v, ps. splits; auto.
  - rewrite <- gprint_app. destruct (line_quiet fuel E line g H (lit "conflicts")
      (gprint (gprint g v) (concat (map conflict_text ps))) G HH Hw) with (v := v) as [X _]; auto.
    + discriminate.
    + discriminate.
    + unfold command_on. cbn [str_eqb lit]. fold s. rewrite A. reflexivity.
    + apply gprint_ok, gprint_ok; auto.
    + apply gprint_frame.
  - intros p q n Fp Fq P Nn Ep Eq. destruct (C p q n Fp Fq P Nn Ep Eq) as [X|X]; [left|right]; split; auto; apply D; auto.
Qed.

(** * hint *)
(** The stored generator [k] is used if the numbers of the sudoku it was created for are those of the current one. *)
Lemma line_hint : forall fuel E line g H, env_ok E -> game_ok g -> has_history g H -> first_word line (lit "hint") ->
  let s := current H in
  exists v g' o k, prompt s v /\ game_line fuel E line g = (g', None) /\ has_history g' H /\
    ((gm_hints g = Some (o, k) /\ exists h, gm_hinted g = Some h /\ (forall p, field s p -> num h p = num s p) /\ gm_hinted g' = Some h) \/
     ((gm_hints g = None \/ forall h, gm_hinted g = Some h -> exists p, field s p /\ num h p <> num s p) /\
      o = s /\ k = hints (ge_oracle E (gm_calls g)) s /\ gm_hinted g' = Some s)) /\
    match k with
    | Yield st k' => gm_out g' = gm_out g ++ v ++ ge_show E st ++ [10] /\ gm_hints g' = Some (o, k' o)
    | _ => gm_out g' = gm_out g ++ v ++ no_more /\ gm_hints g' = Some (o, k)
    end.
Proof.
  intros fuel E line g H He G HH Hw s. destruct (prompt_ex g H G HH) as [v V]. pose proof (history_nine g H G HH) as N.
  set (g0 := gprint g v). assert (G0 : game_ok g0) by (apply gprint_ok; auto).
  destruct (hint_ok E s g0 He G0 N) as [g' [A [B C]]].
  destruct (line_quiet fuel E line g H (lit "hint") g' G HH Hw) with (v := v) as [X X2]; auto; try discriminate.
  { unfold command_on. cbn [str_eqb lit]. fold s. fold g0. rewrite A. reflexivity. }
  exists v, g'. unfold cmd_hint in A.
  assert (P : forall g1 o k, gm_hints g1 = Some (o, k) -> gresult k o = Ok o ->
    match gm_hints g1 with
      | Some (o, Yield st k) => (gprint (set_hints g1 (Some (o, k o))) (ge_show E st ++ [10]), None)
      | Some (_, Ret _) => (gprint g1 (lit "No more hints available." ++ [10]), None)
      | Some (_, Raise e) => (g1, Some e)
      | None => (g1, Some AttributeError)
      end = (g', None) -> gm_hinted g' = gm_hinted g1 /\
    match k with
    | Yield st k' => gm_out g' = gm_out g1 ++ ge_show E st ++ [10] /\ gm_hints g' = Some (o, k' o)
    | _ => gm_out g' = gm_out g1 ++ no_more /\ gm_hints g' = Some (o, k)
    end).
  { intros g1 o k Eh R Q. rewrite Eh in Q. destruct k as [r|st k|e]; cbn [gresult] in R; [| |discriminate]; injection Q as <-; auto. }
  assert (Fresh : andthen (with_value (copy s true) g0 (fun h => (new_hints g0 (s, hints (ge_oracle E (gm_calls g0)) s) h, None))) (fun g =>
      match gm_hints g with
      | Some (o, Yield st k) => (gprint (set_hints g (Some (o, k o))) (ge_show E st ++ [10]), None)
      | Some (_, Ret _) => (gprint g (lit "No more hints available." ++ [10]), None)
      | Some (_, Raise e) => (g, Some e)
      | None => (g, Some AttributeError)
      end) = (g', None) ->
      gm_hinted g' = Some s /\ match hints (ge_oracle E (gm_calls g)) s with
    | Yield st k' => gm_out g' = gm_out g ++ v ++ ge_show E st ++ [10] /\ gm_hints g' = Some (s, k' s)
    | k => gm_out g' = gm_out g ++ v ++ no_more /\ gm_hints g' = Some (s, k)
    end).
  { rewrite copy_true by (apply nine_wf; auto). cbn [with_value andthen]. intros Q.
    eapply P in Q; [|reflexivity|apply hints_result; [apply He|apply nine_wf; auto]].
    cbn [new_hints gm_hinted gm_out] in Q. change (gm_calls g0) with (gm_calls g) in Q. change (gm_out g0) with (gm_out g ++ v) in Q.
    destruct Q as [Q1 Q2]. split; auto. destruct (hints (ge_oracle E (gm_calls g)) s); rewrite <- !app_assoc in Q2; auto. }
  change (gm_hints g0) with (gm_hints g) in A. change (gm_hinted g0) with (gm_hinted g) in A.
  destruct (gm_hints g) as [[o k]|] eqn:Eh.
  - destruct (gm_hinted g) as [h|] eqn:Ed.
    + pose proof (go_hinted g G h Ed) as Nh.
      rewrite sudoku_eq_ok in A; [|apply nine_wf; auto|apply nine_wf; auto|rewrite !nine_NN; auto].
      cbn [with_value] in A. destruct (forallb (fun p => num h p =? num s p) (coords h)) eqn:Ef; cbn [negb] in A.
      * exists o, k. splits; auto.
        -- left. split; auto. exists h. splits; auto.
           ++ intros p Fp. rewrite forallb_forall in Ef. apply Z.eqb_eq, Ef, in_coords, (nine_field h); auto. apply (nine_field s); auto.
           ++ cbn [andthen] in A. eapply P in A; [|exact Eh|apply (go_hints g G); auto]. rewrite (proj1 A). exact Ed.
        -- cbn [andthen] in A. eapply P in A; [|exact Eh|apply (go_hints g G); auto]. destruct A as [_ A].
           change (gm_out g0) with (gm_out g ++ v) in A. destruct k; rewrite <- !app_assoc in A; auto.
      * apply Fresh in A. exists s, (hints (ge_oracle E (gm_calls g)) s). destruct A as [A1 A2]. splits; [auto|auto|auto| |destruct (hints (ge_oracle E (gm_calls g)) s); auto].
        right. splits; auto. right. intros h' X'. injection X' as <-. apply Bool.not_true_iff_false in Ef.
        destruct (existsb (fun p => negb (num h p =? num s p)) (coords h)) eqn:Ex.
        -- apply existsb_exists in Ex. destruct Ex as [p [P1 P2]]. exists p. apply in_coords in P1. split.
           ++ apply (nine_field s); auto. apply (nine_field h); auto.
           ++ apply Z.eqb_neq, negb_true_iff; auto.
        -- exfalso. apply Ef, forallb_forall. intros p Hp. rewrite existsb_false_iff in Ex. apply negb_false_iff, Ex; auto.
    + cbn [with_value] in A. apply Fresh in A. exists s, (hints (ge_oracle E (gm_calls g)) s). destruct A as [A1 A2]. splits; [auto|auto|auto| |destruct (hints (ge_oracle E (gm_calls g)) s); auto].
      right. splits; auto. right. discriminate.
  - cbn [with_value] in A. apply Fresh in A. exists s, (hints (ge_oracle E (gm_calls g)) s). destruct A as [A1 A2]. splits; [auto|auto|auto| |destruct (hints (ge_oracle E (gm_calls g)) s); auto].
    right. splits; auto.
Qed.

(** * Unknown commands and crashes *)
Lemma reserved_eqb : forall w, ~ In w named -> forall n, In n named -> str_eqb w n = false.
Proof.
  intros w H n Hn. destruct (str_eqb w n) eqn:E; auto. apply str_eqb_eq in E. subst. contradiction.
Qed.

Lemma command_action : forall fuel E line w g s, ~ In w named -> command_on fuel E line w (g, s) = cmd_action fuel line (g, s).
Proof.
  intros fuel E line w g s H. unfold command_on.
  rewrite !(reserved_eqb w H) by (cbn; tauto). auto.
Qed.

Lemma line_unknown : forall fuel E line w g H, (2 <= fuel)%nat -> game_ok g -> has_history g H -> first_word line w -> ~ In w named ->
  decode_action line 3 3 = Err ValueError ->
  exists v, prompt (current H) v /\
    game_line fuel E line g = (gprint g (v ++ lit "Unknown command '" ++ line ++ lit "'" ++ [10]), None).
Proof.
  intros fuel E line w g H Hf G HH Hw Nw D. destruct (prompt_ex g H G HH) as [v V]. pose proof (history_nine g H G HH) as N.
  exists v. split; auto.
  destruct (action_ok fuel line (gprint g v) (current H)) as [t [s' [e [A [B C]]]]]; auto; [apply (go_settings g G)|].
  rewrite D in C. destruct C as [-> [[_ [-> ->]]|[C _]]]; [|discriminate].
  destruct (line_quiet fuel E line g H w (gprint (gprint g v) (lit "Unknown command '" ++ line ++ lit "'" ++ [10])) G HH Hw) with (v := v) as [X _]; auto.
  - intros ->; apply Nw; cbn; tauto.
  - intros ->; apply Nw; cbn; tauto.
  - rewrite command_action by auto. auto.
  - apply gprint_ok, gprint_ok; auto.
  - apply gprint_frame.
  - rewrite X, gprint_app. auto.
Qed.

Lemma line_crashes : forall fuel E line g H x, (2 <= fuel)%nat -> game_ok g -> has_history g H -> crashes line x ->
  exists v, prompt (current H) v /\ game_line fuel E line g = (gprint g v, Some x).
Proof.
  intros fuel E line g H x Hf G HH C. pose proof (history_nine g H G HH) as N.
  destruct C as [[-> C]|[[-> C]|[-> [C1 [w [C2 C3]]]]]].
  - apply line_blank; auto.
  - destruct (prompt_ex g H G HH) as [v V]. exists v. split; auto.
    destruct (line_other fuel E line g H (lit "settings") (gprint g v) (current H) (Some TypeError) G HH C) with (v := v) as [g2 [A [_ [_ [_ [B _]]]]]]; auto.
    + discriminate.
    + discriminate.
    + unfold command_on. cbn [str_eqb lit]. rewrite settings_raises by apply (go_settings g G). auto.
    + apply gprint_ok; auto.
    + apply frame_refl.
    + rewrite A. destruct B as [-> _]; [discriminate|]. auto.
  - destruct (prompt_ex g H G HH) as [v V]. exists v. split; auto.
    destruct (action_ok fuel line (gprint g v) (current H)) as [t [s' [e [A [B C]]]]]; auto; [apply (go_settings g G)|].
    rewrite C1 in C. destruct C as [-> [[C _]|[_ [-> ->]]]]; [discriminate|]. rewrite gprint_nil in A.
    destruct (line_other fuel E line g H w (gprint g v) (current H) (Some TypeError) G HH C2) with (v := v) as [g2 [A2 [_ [_ [_ [B2 _]]]]]]; auto.
    + intros ->; apply C3; cbn; tauto.
    + intros ->; apply C3; cbn; tauto.
    + rewrite command_action by auto. auto.
    + apply gprint_ok; auto.
    + apply frame_refl.
    + rewrite A2. destruct B2 as [-> _]; [discriminate|]. auto.
Qed.

Lemma line_crash_iff : forall fuel E line g H x, env_ok E -> (2 <= fuel)%nat -> game_ok g -> has_history g H ->
  (snd (game_line fuel E line g) = Some x <-> crashes line x).
Proof.
  intros fuel E line g H x He Hf G HH. split.
  - intros S. destruct (game_line fuel E line g) as [g' e] eqn:EL. cbn [snd] in S. subst e.
    destruct (line_ok fuel E line g H g' (Some x) He G HH Hf EL) as [_ [_ [_ [A _]]]]. auto.
  - intros C. destruct (line_crashes fuel E line g H x Hf G HH C) as [v [_ ->]]. auto.
Qed.
