(** Proofs about the commands of the game shell. *)
From Verif Require Export LGame3 LSolvers4 LSolvers5 LNotation6.

(** * Words *)
Lemma split_blanks_word : forall s w : pystr, w <> [] -> exists u rest,
  split_blanks s w = (w ++ u) :: rest /\
  exists b, s = u ++ b /\ (forall c, In c u -> is_space c = false) /\ (b = [] \/ exists c b', b = c :: b' /\ is_space c = true).
Proof.
  induction s as [|c s IH]; intros w Hw; cbn [split_blanks].
  - destruct w as [|x w]; [congruence|]. exists [], []. rewrite app_nil_r. split; auto. exists []. splits; auto. intros c [].
  - destruct (is_space c) eqn:E.
    + destruct w as [|x w]; [congruence|]. exists [], (split_blanks s []). rewrite app_nil_r. split; auto.
      exists (c :: s). splits; auto; [intros d []|]. right. eauto.
    + destruct (IH (w ++ [c])) as [u [rest [A [b [B [C D]]]]]]; [destruct w; discriminate|].
      exists (c :: u), rest. split; [rewrite A, <- app_assoc; auto|]. exists b. splits; auto.
      * cbn; congruence.
      * intros d [<-|Hd]; auto.
Qed.

Lemma split_blanks_spec : forall s : pystr, (blank_line s /\ split_blanks s [] = []) \/
  (exists w rest, split_blanks s [] = w :: rest /\ first_word s w).
Proof.
  induction s as [|c s IH]; cbn [split_blanks].
  - left. split; auto. intros c [].
  - destruct (is_space c) eqn:E.
    + destruct IH as [[A B]|[w [rest [A [a [b [B [C [D [F G]]]]]]]]]].
      * left. split; auto. intros d [<-|Hd]; auto.
      * right. exists w, rest. split; auto. exists (c :: a), b. splits; auto; [cbn; congruence|]. intros d [<-|Hd]; auto.
    + right. destruct (split_blanks_word s ([] ++ [c])) as [u [rest [A [b [B [C D]]]]]]; [discriminate|].
      exists ([c] ++ u), rest. split; auto. exists [], b. splits; auto.
      * cbn [app]. rewrite B. auto.
      * discriminate.
      * intros d [<-|Hd]; auto.
Qed.

Lemma first_word_blank : forall s w : pystr, first_word s w -> ~ blank_line s.
Proof.
  intros s w [a [b [-> [N [_ [C _]]]]]] B. destruct w as [|c w]; [congruence|].
  specialize (C c (or_introl eq_refl)). rewrite (B c) in C; [discriminate|]. rewrite !in_app_iff; cbn; auto.
Qed.

Lemma first_word_unique : forall s w w' : pystr, first_word s w -> first_word s w' -> w = w'.
Proof.
  intros s w w' [a [b [-> [N [A [C D]]]]]]. revert A.
  induction a as [|x a IH]; intros A [a' [b' [E [N' [A' [C' D']]]]]].
  - destruct a' as [|y a'].
    + cbn [app] in E. clear - E C D C' D'. revert w' E C'. induction w as [|c w IHw]; intros [|c' w'] E C'; cbn [app] in E; auto.
      * exfalso. destruct D as [->|[x [b1 [-> X]]]]; [discriminate|]. inversion E; subst. rewrite (C' c') in X; [discriminate|left; auto].
      * exfalso. destruct D' as [->|[x [b1 [-> X]]]]; [discriminate|]. inversion E; subst. rewrite (C x) in X; [discriminate|left; auto].
      * inversion E; subst. f_equal. apply IHw; auto; intros d Hd; [apply C|apply C']; right; auto.
    + exfalso. destruct w as [|c w]; [congruence|]. cbn [app] in E. inversion E; subst.
      assert (X : is_space y = false) by (apply C; left; auto). rewrite A' in X; [discriminate|left; auto].
  - destruct a' as [|y a'].
    + exfalso. destruct w' as [|c w']; [congruence|]. cbn [app] in E. inversion E; subst.
      assert (X : is_space c = false) by (apply C'; left; auto). rewrite A in X; [discriminate|left; auto].
    + cbn [app] in E. inversion E; subst. apply IH; [intros d Hd; apply A; right; auto|].
      exists a', b'. splits; auto. intros d Hd; apply A'; right; auto.
Qed.

Lemma split_first : forall s w : pystr, first_word s w -> exists rest, split_blanks s [] = w :: rest.
Proof.
  intros s w H. destruct (split_blanks_spec s) as [[A B]|[w' [rest [A B]]]].
  - exfalso. eapply first_word_blank; eauto.
  - rewrite (first_word_unique _ _ _ H B). eauto.
Qed.

Lemma split_blank_line : forall s : pystr, blank_line s -> split_blanks s [] = [].
Proof.
  intros s H. destruct (split_blanks_spec s) as [[A B]|[w' [rest [A B]]]]; auto.
  exfalso. eapply first_word_blank; eauto.
Qed.

(** * Names of fields *)
Lemma nencode_one : forall p, cell 3 3 p -> nencode [p] 3 3 None (lit ",") [] = Ok (field_name p).
Proof.
  assert (H : forallb (fun p => match nencode [p] 3 3 None (lit ",") [] with
                                | Ok t => str_eqb t (field_name p) | Err _ => false end)
                      (list_prod (py_range 9) (py_range 9)) = true) by (vm_compute; reflexivity).
  intros p C. rewrite forallb_forall in H. specialize (H p).
  assert (I : In p (list_prod (py_range 9) (py_range 9))).
  { destruct p as [r c]. apply in_prod; apply in_py_range; unfold cell in C; cbn [fst snd] in C; lia. }
  specialize (H I). destruct (nencode [p] 3 3 None (lit ",") []) as [t|]; [|discriminate].
  apply str_eqb_eq in H. congruence.
Qed.

(** * Nine *)
Lemma nine_dims : forall s, nine s -> box_width s = 3 /\ box_height s = 3.
Proof. intros s [_ H]. unfold box_size in H. injection H; auto. Qed.
Lemma nine_field : forall s p, nine s -> (field s p <-> cell 3 3 p).
Proof. intros s p N. unfold field. destruct (nine_dims s N) as [-> ->]. tauto. Qed.
Lemma nine_NN : forall s, nine s -> NN s = 9.
Proof. intros s N. unfold NN. destruct (nine_dims s N) as [-> ->]. auto. Qed.
Lemma nine_wf : forall s, nine s -> wf s.
Proof. intros s []; auto. Qed.

(** * view never raises *)
Lemma foldM_total : forall {A S} (f : S -> A -> res S) l acc, (forall acc x, In x l -> exists acc', f acc x = Ok acc') ->
  exists acc', foldM f l acc = Ok acc'.
Proof.
  intros A S f l; induction l as [|x l IH]; intros acc H; cbn [foldM]; eauto.
  destruct (H acc x (or_introl eq_refl)) as [a ->]. cbn [rbind]. apply IH. intros; apply H; right; auto.
Qed.

Lemma view_total : forall s, wf s -> exists t, view s true None (lit "*") true = Ok t.
Proof.
  intros s W. unfold view. assert (N : 1 <= NN s) by (apply NN_pos; auto).
  assert (L : exists m, MCodec.list_max (map (fun n => py_len (str_of_int n)) (numbers s)) = Ok m).
  { assert (I : In 1 (numbers s)) by (apply in_numbers; lia). destruct (numbers s); [destruct I|]. cbn. eauto. }
  destruct L as [m ->]. cbn [rbind].
  assert (G : forall r c, 0 <= r < NN s -> 0 <= c < NN s -> exists v, get_candidates s r c = Ok v).
  { intros r c Hr Hc. eexists. apply get_candidates_ok; auto. split; auto. }
  assert (M : exists k, foldM (fun m rc =>
               let* c := get_candidates s (fst rc) (snd rc) in
               let length := py_len (join (if 1 <? m then lit "," else []) (map str_of_int c)) + py_len (lit "*") in
               Ok (if m <? length then length else m)) (coords s) m = Ok k).
  { apply foldM_total. intros acc [r c] Hx. apply in_coords in Hx. cbn [fst snd]. rewrite get_candidates_ok by auto. cbn [rbind]. eauto. }
  match goal with |- context [foldM ?f (coords s) m] => assert (M' : exists k, foldM f (coords s) m = Ok k) end.
  { apply foldM_total. intros acc [r c] Hx. apply in_coords in Hx. cbn [fst snd]. rewrite get_candidates_ok by auto. cbn [rbind]. eauto. }
  destruct M' as [k ->]. cbn [rbind]. apply foldM_total. intros acc r Hr. apply in_py_range in Hr.
  assert (R : exists t, view_row s true (if 1 <? m then lit "," else []) (lit "*") true k r = Ok t).
  { unfold view_row. match goal with |- context [mapM ?f (indices s)] => destruct (mapM_total f (fun _ _ => True) (indices s)) as [l [-> _]] end.
    - intros c Hc. apply in_py_range in Hc. rewrite getitem_ok by (auto; split; auto). cbn [rbind].
      destruct (negb (num s (r, c) =? 0)); cbn [rbind negb]; [eauto|].
      rewrite get_candidates_ok by (auto; split; auto). cbn [rbind]. eauto.
    - cbn [rbind]. eauto. }
  destruct R as [t ->]. cbn [rbind]. eauto.
Qed.

(** * Printing *)
Lemma gprint_app : forall g a b, gprint (gprint g a) b = gprint g (a ++ b).
Proof. intros g a b. unfold gprint; cbn. rewrite app_assoc. auto. Qed.
Lemma gprint_nil : forall g, gprint g [] = g.
Proof. intros []. unfold gprint; cbn. rewrite app_nil_r. auto. Qed.
Lemma gprint_ok : forall g t, game_ok g -> game_ok (gprint g t).
Proof. intros g t []. constructor; auto. Qed.

Definition same_frame (g g' : game) : Prop :=
  gm_sudokus g' = gm_sudokus g /\ gm_index g' = gm_index g /\ gm_solution g' = gm_solution g /\
  gm_settings g' = gm_settings g /\ exists t, gm_out g' = gm_out g ++ t.

Lemma gprint_frame : forall g t, same_frame g (gprint g t).
Proof. intros; unfold same_frame; splits; auto. cbn. eauto. Qed.
Lemma frame_refl : forall g, same_frame g g.
Proof. intros; unfold same_frame; splits; auto. exists []. rewrite app_nil_r; auto. Qed.

(** * check *)
Definition wrong (g : game) (s : sudoku) (p : coord) : bool :=
  negb (num s p =? 0) && negb (num s p =? num (gm_solution g) p).

Lemma check_ok : forall s g, nine s -> nine (gm_solution g) ->
  cmd_check s g = (gprint g (concat (map (check_line s) (filter (wrong g s) (coords s)))), None).
Proof.
  intros s g N NS. unfold cmd_check.
  assert (H : forall l t, (forall p, In p l -> field s p) ->
    for_each (fun rc g =>
      with_value (getitem s (fst rc) (snd rc)) g (fun value =>
        if value =? 0 then (g, None)
        else with_value (getitem (gm_solution g) (fst rc) (snd rc)) g (fun w =>
          if value =? w then (g, None)
          else with_value (nencode [rc] (box_width s) (box_height s) None (lit ",") []) g (fun t =>
            (gprint g (lit "[F] " ++ t ++ lit " = " ++ str_of_int value ++ [10]), None))))) l (gprint g t)
    = (gprint g (t ++ concat (map (check_line s) (filter (wrong g s) l))), None)).
  { induction l as [|[r c] l IH]; intros t F.
    - cbn. rewrite app_nil_r. auto.
    - assert (Fp : field s (r, c)) by (apply F; left; auto).
      assert (Fl : forall p, In p l -> field s p) by (intros; apply F; right; auto).
      cbn [for_each fst snd filter]. rewrite getitem_ok by (auto; apply nine_wf; auto). cbn [with_value].
      assert (X : wrong g s (r, c) = negb (num s (r, c) =? 0) && negb (num s (r, c) =? num (gm_solution g) (r, c))) by reflexivity.
      destruct (num s (r, c) =? 0) eqn:E0; cbn [negb andb] in X.
      { rewrite X. cbn [andthen]. apply IH; auto. }
      change (gm_solution (gprint g t)) with (gm_solution g).
      rewrite getitem_ok; [|apply nine_wf; auto|apply (nine_field (gm_solution g)); auto; apply (nine_field s); auto].
      cbn [with_value]. destruct (num s (r, c) =? num (gm_solution g) (r, c)) eqn:E1; cbn [negb] in X; rewrite X.
      { cbn [andthen]. apply IH; auto. }
      assert (Y : nencode [(r, c)] (box_width s) (box_height s) None (lit ",") [] = Ok (field_name (r, c))).
      { destruct (nine_dims s N) as [-> ->]. apply nencode_one. apply (nine_field s); auto. }
      rewrite Y. cbn [with_value andthen].
      rewrite gprint_app, IH by auto. cbn [map concat]. unfold check_line at 2. rewrite <- !app_assoc. auto. }
  specialize (H (coords s) []). rewrite gprint_nil in H. rewrite H; auto. intros p; apply in_coords.
Qed.

(** * conflicts *)
Lemma same_conflict_iff : forall p q v p' q' v', same_conflict (p, q, v) (p', q', v') = true <->
  v = v' /\ ((p = p' /\ q = q') \/ (p = q' /\ q = p')).
Proof.
  intros. unfold same_conflict. rewrite andb_true_iff, orb_true_iff, !andb_true_iff, Z.eqb_eq, !coord_eqb_eq. tauto.
Qed.

Lemma conflicts_print : forall s, nine s -> forall l listed g,
  (forall p q v, In (p, q, v) l -> field s p /\ field s q) ->
  exists ps,
    for_each (fun x '(g, listed) =>
        if existsb (same_conflict x) listed then ((g, listed), None)
        else with_value (conflict_line (box_width s) (box_height s) x) (g, listed ++ [x])
               (fun t => ((gprint g t, listed ++ [x]), None))) l (g, listed)
    = ((gprint g (concat (map conflict_text ps)), listed ++ ps), None) /\
    incl ps l /\ (forall x, In x l -> exists y, In y (listed ++ ps) /\ same_conflict x y = true) /\
    ForallOrdPairs (fun x y => same_conflict y x = false) ps /\
    (forall x y, In x listed -> In y ps -> same_conflict y x = false).
Proof.
  intros s N l; induction l as [|x l IH]; intros listed g F.
  - exists []. cbn. rewrite gprint_nil, app_nil_r. splits; auto.
    + intros x [].
    + intros x [].
    + constructor.
    + intros x y _ [].
  - assert (F' : forall p q v, In (p, q, v) l -> field s p /\ field s q) by (intros; eapply F; right; eauto).
    cbn [for_each]. destruct (existsb (same_conflict x) listed) eqn:E.
    + cbn [andthen]. destruct (IH listed g F') as [ps [A [B [C [D G]]]]]. exists ps. splits; auto.
      * intros y Hy; right; auto.
      * intros y [<-|Hy]; auto. apply existsb_exists in E. destruct E as [z [Z1 Z2]]. exists z. rewrite in_app_iff; auto.
    + destruct x as [[p q] v]. destruct (F p q v (or_introl eq_refl)) as [Fp Fq].
      destruct (nine_dims s N) as [Dw Dh]. unfold conflict_line at 1. rewrite Dw, Dh.
      rewrite !nencode_one by (apply (nine_field s); auto). cbn [rbind with_value andthen].
      rewrite Dw, Dh in IH.
      destruct (IH (listed ++ [(p, q, v)]) (gprint g (conflict_text (p, q, v))) F') as [ps [A [B [C [D G]]]]].
      exists ((p, q, v) :: ps). cbn [map concat]. splits.
      * unfold conflict_text in A at 1. etransitivity; [exact A|]. rewrite gprint_app, <- app_assoc. auto.
      * intros y [<-|Hy]; [left|right]; auto.
      * intros y [<-|Hy].
        -- exists (p, q, v). rewrite in_app_iff; cbn [In]. split; auto. apply same_conflict_iff; auto.
        -- destruct (C y Hy) as [z [Z1 Z2]]. exists z. rewrite <- app_assoc in Z1. auto.
      * constructor; auto. apply Forall_forall. intros y Hy. apply G; auto. rewrite in_app_iff; cbn; auto.
      * intros y z Hy [<-|Hz].
        -- destruct (same_conflict (p, q, v) y) eqn:X; auto. rewrite <- E. symmetry. apply existsb_exists. eauto.
        -- apply G; auto. rewrite in_app_iff; auto.
Qed.

Lemma conflicts_ok : forall s g, nine s -> exists ps,
  cmd_conflicts s g = (gprint g (concat (map conflict_text ps)), None) /\
  (forall p q v, In (p, q, v) ps -> field s p /\ field s q /\ peers 3 3 p q /\ v <> 0 /\ num s p = v /\ num s q = v) /\
  (forall p q v, field s p -> field s q -> peers 3 3 p q -> v <> 0 -> num s p = v -> num s q = v ->
     In (p, q, v) ps \/ In (q, p, v) ps) /\
  (forall p q v, In (p, q, v) ps -> ~ In (q, p, v) ps) /\ NoDup ps.
Proof.
  intros s g N. destruct (C16_proof s [] (nine_wf s N)) as [l [E [Hl _]]]; [intros p []|].
  unfold cmd_conflicts. rewrite E. cbn [with_value].
  destruct (nine_dims s N) as [Dw Dh]. rewrite Dw, Dh in Hl.
  destruct (conflicts_print s N l [] g) as [ps [A [B [C [D _]]]]].
  { intros p q v H. apply Hl in H. tauto. }
  exists ps. match goal with |- (let '(_, _) := ?X in _) = _ /\ _ => idtac | _ => idtac end.
  unfold coord in *. rewrite A. cbn [app] in *.
  assert (ND : NoDup ps).
  { clear - D. induction D as [|x l Hx D IH]; constructor; auto. intros H. rewrite Forall_forall in Hx.
    specialize (Hx x H). destruct x as [[p q] v]. assert (Y : same_conflict (p, q, v) (p, q, v) = true) by (apply same_conflict_iff; auto). unfold coord in *; congruence. }
  assert (Sym : forall x y, same_conflict x y = same_conflict y x).
  { intros [[p q] v] [[p' q'] v']. apply eq_true_iff_eq. rewrite !same_conflict_iff. intuition congruence. }
  assert (Q : forall p q v, In (p, q, v) ps -> field s p /\ field s q /\ peers 3 3 p q /\ v <> 0 /\ num s p = v /\ num s q = v).
  { intros p q v H. apply B, Hl in H. tauto. }
  splits; auto.
  - intros p q v Fp Fq P V Ep Eq. destruct (C (p, q, v)) as [[[p' q'] v'] [Y1 Y2]].
    { apply Hl. splits; auto. }
    apply same_conflict_iff in Y2. destruct Y2 as [<- [[<- <-]|[<- <-]]]; auto.
  - intros p q v H1 H2. assert (X : same_conflict (p, q, v) (q, p, v) = true) by (apply same_conflict_iff; auto).
    assert (Np : p <> q) by (apply Q in H1; destruct H1 as [_ [_ [[Y _] _]]]; auto).
    clear - D H1 H2 X Sym Np. induction D as [|x l Hx D IH]; [destruct H1|]. rewrite Forall_forall in Hx.
    destruct H1 as [->|H1], H2 as [H2|H2].
    + congruence.
    + specialize (Hx _ H2). rewrite Sym in Hx. congruence.
    + subst x. specialize (Hx _ H1). congruence.
    + auto.
Qed.

(** * hint *)
Lemma hints_result : forall o s, oracle_ok o -> wf s -> gresult (hints o s) s = Ok s.
Proof.
  intros o s Ho W. pose proof (wf_w _ W) as Hw. pose proof (wf_h _ W) as Hh.
  assert (O : ok_sudoku (box_width s) (box_height s) s) by (apply ok_intro; auto).
  pose proof (none_SInv _ _ s O) as S.
  pose proof (hints_safe _ _ o s none Hw Hh Ho (none_valid _ _) S) as H.
  destruct (gsafe_run _ _ _ _ s S H) as [[r [R1 [R2 _]]] _]. congruence.
Qed.

Lemma hint_ok : forall E s g, env_ok E -> game_ok g -> nine s ->
  exists g', cmd_hint E s g = (g', None) /\ game_ok g' /\
    same_frame g g'.
Proof.
  intros E s g He G N. unfold cmd_hint.
  assert (P : forall g1, game_ok g1 -> gm_hints g1 <> None -> exists g',
    match gm_hints g1 with
      | Some (o, Yield st k) => (gprint (set_hints g1 (Some (o, k o))) (ge_show E st ++ [10]), None)
      | Some (_, Ret _) => (gprint g1 (lit "No more hints available." ++ [10]), None)
      | Some (_, Raise e) => (g1, Some e)
      | None => (g1, Some AttributeError)
      end = (g', None) /\ game_ok g' /\
    same_frame g1 g').
  { intros g1 G1 H1. destruct (gm_hints g1) as [[o k]|] eqn:Eh; [|congruence].
    pose proof (go_hints _ G1 o k Eh) as R. destruct k as [r|st k|e]; cbn [gresult] in R; [| |discriminate].
    - eexists. splits; [reflexivity|apply gprint_ok; auto|apply gprint_frame].
    - eexists. splits; [reflexivity| |exact (gprint_frame (set_hints g1 _) _)]. apply gprint_ok. destruct G1. constructor; auto.
      cbn [set_hints gm_hints]. intros o' k' X. inversion X; subst. auto. }
  assert (Q : exists g', andthen (with_value (copy s true) g (fun h => (new_hints g (s, hints (ge_oracle E (gm_calls g)) s) h, None))) (fun g =>
      match gm_hints g with
      | Some (o, Yield st k) => (gprint (set_hints g (Some (o, k o))) (ge_show E st ++ [10]), None)
      | Some (_, Ret _) => (gprint g (lit "No more hints available." ++ [10]), None)
      | Some (_, Raise e) => (g, Some e)
      | None => (g, Some AttributeError)
      end) = (g', None) /\ game_ok g' /\
    same_frame g g').
  { rewrite copy_true by (apply nine_wf; auto). cbn [with_value andthen].
    destruct (P (new_hints g (s, hints (ge_oracle E (gm_calls g)) s) s)) as [g' [A B]].
    - destruct G. constructor; auto; cbn [new_hints gm_hinted gm_hints].
      + intros h X. inversion X; subst; auto.
      + intros o k X. inversion X; subst. apply hints_result; [apply He|apply nine_wf; auto].
    - discriminate.
    - exists g'. split; auto. }
  destruct (gm_hints g) as [x|] eqn:Eh.
  - destruct (gm_hinted g) as [h|] eqn:Ed.
    + rewrite sudoku_eq_ok; [|apply nine_wf; apply (go_hinted _ G); auto|apply nine_wf; auto|].
      2: { rewrite !nine_NN; auto. apply (go_hinted _ G); auto. }
      cbn [with_value]. destruct (forallb _ (coords h)); cbn [negb].
      * cbn [andthen]. rewrite Eh. destruct (P g G) as [g' X]; [congruence|]. rewrite Eh in X. eauto.
      * exact Q.
    + cbn [with_value]. exact Q.
  - cbn [with_value]. exact Q.
Qed.
