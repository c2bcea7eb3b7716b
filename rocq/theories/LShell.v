(** Lemmas about the shell. *)
From Verif Require Export LBase LSudoku2 LStr LHeap SpecShell.
From Coq Require Export Permutation.

Lemma wf_sudoku_ok : forall s, wf s -> sudoku_ok s.
Proof. intros s H. destruct H. unfold sudoku_ok. cbv zeta. splits; auto. Qed.
Lemma sudoku_ok_wf : forall s, sudoku_ok s -> 1 <= box_width s -> 1 <= box_height s -> wf s.
Proof. intros s [A [B [C [D E]]]] H1 H2. constructor; auto. Qed.

Lemma as_int_iff : forall W v n, as_int W v n <-> to_int W v = Ok n.
Proof.
  intros W v n. unfold as_int, int_value. split.
  - intros [[-> | [[-> ->] | [-> ->]]] | [[s [-> E]] | [k [-> E]]]]; auto.
  - destruct v; cbn [to_int]; intros E; try discriminate E; eauto 6.
    + inversion E. subst. auto.
    + destruct b; inversion E; subst; auto 6.
Qed.
Lemma end_value_iff : forall v, end_value v <-> is_end v = true.
Proof.
  intros v. unfold end_value. split.
  - intros [-> | [-> | ->]]; reflexivity.
  - destruct v as [ | | | |l| | |s|s| ]; cbn [is_end]; intros E; try discriminate E.
    + destruct l as [|[] [|]]; try discriminate E. apply str_eqb_eq in E. subst. auto.
    + apply str_eqb_eq in E. subst. auto.
    + apply str_eqb_eq in E. subst. auto.
Qed.
Lemma as_int_not_end : forall W v n, as_int W v n -> is_end v = false.
Proof. intros W v n H. apply as_int_iff in H. destruct v; auto; discriminate H. Qed.

(** The same tables with another box size *)
Definition redim (w h : Z) (s : sudoku) : sudoku := mkSudoku w h (s_numbers s) (s_candidates s).
Definition map_res {A B} (f : A -> B) (r : res A) : res B := match r with Ok a => Ok (f a) | Err e => Err e end.

Lemma foldM_redim : forall w h (f g : sudoku -> Z * Z -> res sudoku) l s,
  (forall s x, f (redim w h s) x = map_res (redim w h) (g s x)) ->
  foldM f l (redim w h s) = map_res (redim w h) (foldM g l s).
Proof.
  intros w h f g l s H. revert s. induction l as [|x l IH]; intros s; cbn [foldM]; [reflexivity|].
  rewrite H. destruct (g s x) as [s1|e]; cbn [map_res rbind]; auto.
Qed.

Lemma copy_redim : forall w h s, box_width s * box_height s = w * h ->
  copy (redim w h s) true = map_res (redim w h) (copy s true).
Proof.
  intros w h s H. unfold copy, coords, indices, box_size. cbn [redim box_width box_height].
  assert (E : new_sudoku (w, h) = redim w h (new_sudoku (box_width s, box_height s))).
  { unfold new_sudoku, redim. cbn [s_numbers s_candidates]. rewrite H. reflexivity. }
  rewrite E, <- H. clear E. change (@foldM coord) with (@foldM (Z * Z)). set (l := list_prod _ _).
  match goal with |- rbind (foldM ?f _ _) _ = map_res _ (rbind (foldM ?g _ _) _) => rewrite (foldM_redim w h f g) end.
  - destruct (foldM _ l _) as [s1|e]; cbn [map_res rbind]; auto. apply foldM_redim. intros t x.
    change (get_candidates (redim w h s)) with (get_candidates s). destruct (get_candidates s (fst x) (snd x)); cbn [rbind map_res]; auto.
    unfold set_candidates. cbn [redim s_candidates s_numbers box_width box_height].
    destruct (list_get (s_candidates t) (fst x)) as [r|]; cbn [rbind map_res]; auto.
    destruct (list_set r (snd x) _) as [r'|]; cbn [rbind map_res]; auto.
    destruct (list_set (s_candidates t) (fst x) r') as [r''|]; cbn [rbind map_res]; auto.
  - intros t x. change (getitem (redim w h s)) with (getitem s). destruct (getitem s (fst x) (snd x)); cbn [rbind map_res]; auto.
    unfold setitem. cbn [redim s_candidates s_numbers box_width box_height].
    destruct (list_get (s_numbers t) (fst x)) as [r|]; cbn [rbind map_res]; auto.
    destruct (list_set r (snd x) _) as [r'|]; cbn [rbind map_res]; auto.
    destruct (list_set (s_numbers t) (fst x) r') as [r''|]; cbn [rbind map_res]; auto.
Qed.

Lemma copy_ok_true : forall s, sudoku_ok s -> copy s true = Ok s.
Proof.
  intros s H. destruct s as [w h n c]. destruct (Z_le_gt_dec (w * h) 0) as [L|G].
  - destruct H as [A [_ [B _]]]. cbn in A, B. replace (Z.to_nat (w * h)) with O in * by lia.
    apply length_zero_iff_nil in A, B. subst.
    unfold copy, coords, indices, new_sudoku, box_size. cbn [box_width box_height].
    unfold py_range. replace (Z.to_nat (w * h)) with O by lia. reflexivity.
  - assert (W : wf (mkSudoku 1 (w * h) n c)).
    { apply sudoku_ok_wf; cbn [box_width box_height]; try lia. destruct H as [A [B [C [D E]]]]. cbn in *. unfold sudoku_ok. cbn [box_width box_height s_numbers s_candidates].
      replace (1 * (w * h)) with (w * h) by lia. splits; auto. }
    pose proof (copy_redim w h (mkSudoku 1 (w * h) n c) ltac:(cbn [box_width box_height]; lia)) as X. rewrite (copy_true _ W) in X. exact X.
Qed.

Lemma str_eqb_refl : forall s, str_eqb s s = true.
Proof. intros s. apply str_eqb_eq. auto. Qed.
Lemma str_eqb_false : forall a b, a <> b -> str_eqb a b = false.
Proof. intros a b H. destruct (str_eqb a b) eqn:E; auto. apply str_eqb_eq in E. contradiction. Qed.

(** ** Commands other than loop *)
Definition simple_call (W : world) (st : shell) (c : command) : outcome := call W (fun st _ => (st, None)) st c.

Lemma call_simple : forall W exec st c, ~ is_loop c -> call W exec st c = simple_call W st c.
Proof.
  intros W exec st c H. unfold simple_call, call. rewrite (str_eqb_false _ _ H). reflexivity.
Qed.

Definition catch (o : outcome) : outcome :=
  match o with
  | (st, None) => done st
  | (st, Some e) => if is_exception e then error st (MExn e) else (st, Some e)
  end.

Lemma execute_S : forall f W st c, execute (S f) W st c = catch (call W (execute f W) st c).
Proof. intros. cbn [execute]. unfold catch. destruct (call W (execute f W) st c) as [st' [e|]]; reflexivity. Qed.

Lemma execute_simple : forall f W st c, ~ is_loop c -> execute (S f) W st c = catch (simple_call W st c).
Proof. intros f W st c H. rewrite execute_S, call_simple; auto. Qed.

Definition map_st (g : shell -> shell) (o : outcome) : outcome := (g (fst o), snd o).

(** A change of the state that no command but loop can notice. *)
Record neutral (g : shell -> shell) : Prop := {
  ne_ia : forall st, sh_interactive (g st) = sh_interactive st;
  ne_heap : forall st, sh_heap (g st) = sh_heap st;
  ne_cur : forall st, sh_cur (g st) = sh_cur st;
  ne_stack : forall st, sh_stack (g st) = sh_stack st;
  ne_calls : forall st, sh_calls (g st) = sh_calls st;
  ne_set_heap : forall st x, set_heap (g st) x = g (set_heap st x);
  ne_set_cur : forall st x, set_cur (g st) x = g (set_cur st x);
  ne_set_running : forall st x, set_running (g st) x = g (set_running st x);
  ne_set_stack : forall st x, set_stack (g st) x = g (set_stack st x);
  ne_add_out : forall st x, add_out (g st) x = g (add_out st x);
  ne_add_err : forall st x, add_err (g st) x = g (add_err st x);
  ne_next_call : forall st, next_call (g st) = g (next_call st)
}.

Definition pre_out (o : pystr) (st : shell) : shell :=
  mkShell (sh_interactive st) (sh_prompt st) (sh_heap st) (sh_cur st) (sh_running st) (sh_loop_n st) (sh_loop_list st)
    (sh_stack st) (o ++ sh_out st) (sh_err st) (sh_calls st).

Lemma neutral_loop : forall n l, neutral (fun st => set_loop st n l).
Proof. intros; constructor; intros; reflexivity. Qed.
Lemma neutral_prompt : forall p, neutral (fun st => set_prompt st p).
Proof. intros; constructor; intros; reflexivity. Qed.
Lemma neutral_out : forall o, neutral (pre_out o).
Proof.
  intros; constructor; intros; try reflexivity.
  unfold add_out, pre_out; cbn. rewrite <- app_assoc. reflexivity.
Qed.

Section Neutral.
Variable g : shell -> shell.
Hypothesis G : neutral g.

Lemma error_g : forall st m, error (g st) m = map_st g (error st m).
Proof.
  intros st m. unfold error. rewrite (ne_add_err _ G), (ne_ia _ G). destruct (sh_interactive (add_err st m)); reflexivity.
Qed.
Lemma catch_g : forall o, catch (map_st g o) = map_st g (catch o).
Proof.
  intros [st [e|]]; unfold map_st, catch; cbn [fst snd]; auto. destruct (is_exception e); auto. apply error_g.
Qed.
Lemma handle_g : forall st r, handle_result (g st) r = map_st g (handle_result st r).
Proof.
  intros st r. unfold handle_result. destruct r; auto.
  - unfold shell_print. rewrite (ne_add_out _ G). reflexivity.
  - rewrite (ne_set_heap _ G), (ne_set_cur _ G), (ne_heap _ G). reflexivity.
Qed.
Lemma simple_call_g : forall W st c, ~ is_loop c -> simple_call W (g st) c = map_st g (simple_call W st c).
Proof.
  intros W st c H. unfold simple_call, call. rewrite (str_eqb_false _ _ H).
  destruct (str_eqb (c_func c) (lit "exit")).
  { destruct (bind0 _ _); [|reflexivity]. unfold exit_command. rewrite (ne_set_running _ G). reflexivity. }
  destruct (str_eqb (c_func c) (lit "push")).
  { destruct (bind0 _ _); [|reflexivity]. unfold push_command. rewrite (ne_heap _ G), (ne_cur _ G).
    destruct (nth_error _ _); [|reflexivity]. destruct (copy s true); [|reflexivity].
    rewrite (ne_stack _ G), (ne_set_heap _ G), (ne_set_stack _ G). reflexivity. }
  destruct (str_eqb (c_func c) (lit "pop")).
  { destruct (bind1 _ _ _ _) as [v|]; [|reflexivity]. unfold pop_command. rewrite (ne_stack _ G).
    assert (P : forall p, stack_pop (g st) p = map_st g (stack_pop st p)).
    { intros p. unfold stack_pop. rewrite (ne_stack _ G). destruct (nth_error _ _); [|reflexivity].
      rewrite (ne_set_stack _ G), (ne_set_cur _ G). reflexivity. }
    rewrite !error_g. destruct (sh_stack st); [reflexivity|]. destruct v; try apply P;
      destruct (to_int W _) as [p|[]]; try reflexivity; destruct (_ && _); auto. }
  destruct (str_eqb (c_func c) (lit "stack")).
  { destruct (bind0 _ _); [|reflexivity]. unfold shell_print. rewrite (ne_add_out _ G), (ne_stack _ G). reflexivity. }
  rewrite (ne_heap _ G), (ne_cur _ G), (ne_calls _ G). destruct (str_mem _ _).
  - destruct (nth_error _ _); [|reflexivity]. destruct (w_sudoku _ _ _ _ _ _) as [s' r].
    rewrite (ne_set_heap _ G), (ne_next_call _ G). apply handle_g.
  - rewrite (ne_next_call _ G). apply handle_g.
Qed.
Lemma execute_g : forall f W st c, ~ is_loop c -> execute (S f) W (g st) c = map_st g (execute (S f) W st c).
Proof. intros f W st c H. rewrite !execute_simple, simple_call_g; auto. apply catch_g. Qed.
End Neutral.

Lemma set_loop_same : forall st, set_loop st (sh_loop_n st) (sh_loop_list st) = st.
Proof. intros []; reflexivity. Qed.
Lemma set_prompt_same : forall st, set_prompt st (sh_prompt st) = st.
Proof. intros []; reflexivity. Qed.

Lemma execute_keeps_loop : forall f W st c st' oe, ~ is_loop c -> execute (S f) W st c = (st', oe) ->
  sh_loop_n st' = sh_loop_n st /\ sh_loop_list st' = sh_loop_list st /\ sh_prompt st' = sh_prompt st.
Proof.
  intros f W st c st' oe H E.
  pose proof (execute_g _ (neutral_loop (sh_loop_n st) (sh_loop_list st)) f W st c H) as X. cbv beta in X. rewrite set_loop_same, E in X.
  pose proof (execute_g _ (neutral_prompt (sh_prompt st)) f W st c H) as Y. cbv beta in Y. rewrite set_prompt_same, E in Y.
  unfold map_st in X, Y. cbn [fst snd] in X, Y.
  injection X as X. injection Y as Y. splits.
  - rewrite X. reflexivity.
  - rewrite X. reflexivity.
  - rewrite Y. reflexivity.
Qed.

(** ** The heap *)
Record mem_ok (st : shell) : Prop := {
  mo_nodup : NoDup (sh_cur st :: sh_stack st);
  mo_bound : forall a, In a (sh_cur st :: sh_stack st) -> (a < length (sh_heap st))%nat;
  mo_heap : forall s, In s (sh_heap st) -> sudoku_ok s
}.

(** What is on the stack afterwards was there before, with the same contents, or is new. *)
Definition kept (st st' : shell) : Prop :=
  (length (sh_heap st) <= length (sh_heap st'))%nat /\ sh_interactive st' = sh_interactive st /\
  forall a, In a (sh_stack st') -> (a < length (sh_heap st))%nat ->
    In a (sh_stack st) /\ nth_error (sh_heap st') a = nth_error (sh_heap st) a.

Lemma kept_refl : forall st, kept st st.
Proof. intros st; unfold kept; splits; auto. Qed.
Lemma kept_trans : forall a b c, kept a b -> kept b c -> kept a c.
Proof.
  intros a b c [A1 [A2 A3]] [B1 [B2 B3]]. unfold kept; splits; [lia|congruence|].
  intros x X L. destruct (B3 x X) as [Y1 Y2]; [lia|]. destruct (A3 x Y1 L) as [Z1 Z2]. split; auto. congruence.
Qed.

Definition good (st : shell) (o : outcome) : Prop := mem_ok (fst o) /\ kept st (fst o).

Lemma good_same : forall st st' oe, mem_ok st -> sh_heap st' = sh_heap st -> sh_cur st' = sh_cur st -> sh_stack st' = sh_stack st ->
  sh_interactive st' = sh_interactive st -> good st (st', oe).
Proof.
  intros st st' oe [M1 M2 M3] H1 H2 H3 H4. split; cbn [fst].
  - constructor; rewrite ?H1, ?H2, ?H3; auto.
  - unfold kept. rewrite H1, H3, H4. splits; auto.
Qed.

Lemma good_self : forall st oe, mem_ok st -> good st (st, oe).
Proof. intros. apply good_same; auto. Qed.
Lemma good_trans : forall st st1 o, kept st st1 -> good st1 o -> good st o.
Proof. intros st st1 o H [M K]. split; auto. eapply kept_trans; eauto. Qed.

Lemma good_error : forall st m, mem_ok st -> good st (error st m).
Proof. intros st m M. unfold error. destruct (sh_interactive (add_err st m)); apply good_same; auto. Qed.

Lemma good_catch : forall st o, good st o -> good st (catch o).
Proof.
  intros st [st' [e|]] [M K]; cbn [fst] in *; unfold catch.
  - destruct (is_exception e); [|split; auto]. eapply good_trans; eauto. apply good_error; auto.
  - split; auto.
Qed.

Lemma good_seq : forall st o f, good st o -> (forall st1, o = (st1, None) -> mem_ok st1 -> good st1 (f st1)) -> good st (seq_do o f).
Proof.
  intros st [st1 [e|]] f [M K] Hf; cbn [fst] in *; cbn [seq_do]; [split; auto|].
  eapply good_trans; eauto.
Qed.

Lemma firstn_skipn_in : forall {A} (l : list A) p a x, nth_error l p = Some a -> (In x (firstn p l ++ skipn (S p) l) -> In x l).
Proof.
  intros A l p a x H I. rewrite <- (firstn_skipn p l). apply in_app_iff in I. apply in_app_iff. destruct I as [I|I]; auto. right.
  replace (S p) with (p + 1)%nat in I by lia.
  assert (skipn p l = a :: skipn (S p) l). { clear I. revert l H. induction p as [|p IH]; intros [|y l] H; try discriminate; cbn in *; [inv H; auto|]. apply IH; auto. }
  rewrite H0. right. replace (S p) with (p + 1)%nat by lia. auto.
Qed.

Lemma pop_perm : forall {A} (l : list A) p a, nth_error l p = Some a -> Permutation l (a :: firstn p l ++ skipn (S p) l).
Proof.
  intros A l; induction l as [|x l IH]; intros [|p] a H; try discriminate; cbn [firstn skipn app] in *.
  - inv H. apply Permutation_refl.
  - apply (IH p a) in H. eapply perm_trans; [apply perm_skip, H|]. cbn [skipn]. apply perm_swap.
Qed.

Lemma good_fresh : forall st s oe, mem_ok st -> sudoku_ok s ->
  good st (set_cur (set_heap st (sh_heap st ++ [s])) (length (sh_heap st)), oe).
Proof.
  intros st s oe [M1 M2 M3] Hs. apply NoDup_cons_iff in M1. destruct M1 as [M0 M1]. split; cbn [fst].
  - constructor; cbn [sh_cur sh_stack sh_heap set_cur set_heap].
    + constructor; auto. intros I. pose proof (M2 _ (or_intror I)). lia.
    + intros a Ha. rewrite app_length. cbn [length]. destruct Ha as [<-|Ha]; [lia|]. pose proof (M2 a (or_intror Ha)). lia.
    + intros s' Hs'. apply in_app_iff in Hs'. destruct Hs' as [?|[<-|[]]]; auto.
  - unfold kept; cbn [sh_cur sh_stack sh_heap set_cur set_heap sh_interactive]. splits; auto.
    + rewrite app_length; lia.
    + intros a Ha L. split; auto. apply nth_error_app1; auto.
Qed.

Lemma frame_of : forall W, world_ok W -> world_frame W.
Proof.
  intros W H. constructor; intros.
  - intros s E. pose proof (wo_fun _ H n f args kw) as X. rewrite E in X. exact X.
  - intros t E. pose proof (wo_res _ H n f s args kw H0) as X. rewrite E in X. exact X.
  - apply (wo_cur _ H); auto.
Qed.
Coercion frame_of : world_ok >-> world_frame.
#[export] Hint Resolve frame_of : core.

Lemma good_handle : forall st r, mem_ok st -> result_frame r -> good st (handle_result st r).
Proof.
  intros st r M R. unfold handle_result. destruct r; try (apply good_self; auto; fail).
  - apply good_same; auto.
  - apply good_fresh; auto.
Qed.

Lemma In_upd_self : forall {A} k (v : A) l x, In x (list_upd k v l) -> x = v \/ In x l.
Proof.
  intros A k; induction k as [|k IH]; intros v [|y l] x H; cbn in *; auto; destruct H as [H|H]; auto.
  apply IH in H. tauto.
Qed.

Lemma good_cur_upd : forall st s' oe, mem_ok st -> sudoku_ok s' ->
  good st (next_call (set_heap st (list_upd (sh_cur st) s' (sh_heap st))), oe).
Proof.
  intros st s' oe [M1 M2 M3] Hs. split; cbn [fst].
  - constructor; cbn [sh_cur sh_stack sh_heap set_heap next_call]; auto.
    + intros a Ha. rewrite length_list_upd. auto.
    + intros x Hx. apply In_upd_self in Hx. destruct Hx as [->|Hx]; auto.
  - unfold kept; cbn [sh_cur sh_stack sh_heap set_heap next_call sh_interactive]. splits; auto.
    + rewrite length_list_upd; auto.
    + intros a Ha L. split; auto. rewrite nth_error_upd. destruct (Nat.eqb_spec a (sh_cur st)) as [->|]; auto.
      apply NoDup_cons_iff in M1. tauto.
Qed.

Lemma good_push : forall st, mem_ok st -> good st (push_command st).
Proof.
  intros st M. pose proof M as [M1 M2 M3]. unfold push_command. destruct (nth_error (sh_heap st) (sh_cur st)) as [s|] eqn:E; [|apply good_self; auto].
  rewrite copy_ok_true by (apply M3; eapply nth_error_In; eauto).
  apply NoDup_cons_iff in M1. destruct M1 as [M0 M1]. split; cbn [fst done].
  - constructor; cbn [sh_cur sh_stack sh_heap set_heap set_stack]; auto.
    + constructor.
      * intros I. apply in_app_iff in I. destruct I as [I|[I|[]]]; auto. pose proof (M2 _ (or_introl eq_refl)). lia.
      * apply NoDup_app_iff. splits; auto; [repeat constructor; auto|]. intros x X [<-|[]]. pose proof (M2 _ (or_intror X)). lia.
    + intros a Ha. rewrite app_length; cbn [length]. destruct Ha as [<-|Ha]; [pose proof (M2 _ (or_introl eq_refl)); lia|].
      apply in_app_iff in Ha. destruct Ha as [Ha|[<-|[]]]; [pose proof (M2 _ (or_intror Ha))|]; lia.
    + intros x X. apply in_app_iff in X. destruct X as [X|[<-|[]]]; auto. apply M3. eapply nth_error_In; eauto.
  - unfold kept; cbn [sh_cur sh_stack sh_heap set_heap set_stack sh_interactive done fst]. splits; auto.
    + rewrite app_length; lia.
    + intros a Ha L. split; [|apply nth_error_app1; auto]. apply in_app_iff in Ha. destruct Ha as [Ha|[<-|[]]]; auto. lia.
Qed.

Lemma good_stack_pop : forall st p, mem_ok st -> good st (stack_pop st p).
Proof.
  intros st p M. pose proof M as [M1 M2 M3]. unfold stack_pop. destruct (nth_error (sh_stack st) p) as [a|] eqn:E; [|apply good_self; auto].
  pose proof (pop_perm _ _ _ E) as P. apply NoDup_cons_iff in M1. destruct M1 as [M0 M1]. split; cbn [fst done].
  - constructor; cbn [sh_cur sh_stack sh_heap set_cur set_stack]; auto.
    + eapply Permutation_NoDup; eauto.
    + intros x X. apply M2. right. eapply Permutation_in; [apply Permutation_sym; exact P|exact X].
  - unfold kept; cbn [sh_cur sh_stack sh_heap set_cur set_stack sh_interactive done fst]. splits; auto.
    intros x X L. split; auto. eapply Permutation_in; [apply Permutation_sym; exact P|right; exact X].
Qed.

Lemma good_pop : forall W st v, mem_ok st -> good st (pop_command W st v).
Proof.
  intros W st v M. unfold pop_command. destruct (sh_stack st); [apply good_error; auto|].
  destruct v; try (apply good_stack_pop; auto); destruct (to_int W _) as [p|[]]; try (apply good_self; auto);
    try (apply good_error; auto); destruct (_ && _); try (apply good_error; auto); apply good_stack_pop; auto.
Qed.

Section World.
Variable W : world.
Hypothesis HW : world_frame W.

Lemma good_simple : forall st c, mem_ok st -> ~ is_loop c -> good st (simple_call W st c).
Proof.
  intros st c M H. unfold simple_call, call. rewrite (str_eqb_false _ _ H).
  destruct (str_eqb (c_func c) (lit "exit")).
  { destruct (bind0 _ _); apply good_same; auto. }
  destruct (str_eqb (c_func c) (lit "push")).
  { destruct (bind0 _ _); [|apply good_self; auto]. apply good_push; auto. }
  destruct (str_eqb (c_func c) (lit "pop")).
  { destruct (bind1 _ _ _ _) as [v|]; [|apply good_self; auto]. apply good_pop; auto. }
  destruct (str_eqb (c_func c) (lit "stack")).
  { destruct (bind0 _ _); apply good_same; auto. }
  destruct (str_mem _ _).
  - destruct (nth_error _ _) as [s|] eqn:E; [|apply good_self; auto].
    assert (Hs : sudoku_ok s) by (apply (mo_heap _ M); eapply nth_error_In; eauto).
    pose proof (wf_res _ HW (sh_calls st) (c_func c) s (c_args c) (c_kwargs c) Hs) as H1.
    pose proof (wf_cur _ HW (sh_calls st) (c_func c) s (c_args c) (c_kwargs c) Hs) as H2.
    destruct (w_sudoku _ _ _ _ _ _) as [s' r]. cbn [fst snd] in *.
    destruct (good_cur_upd st s' None M H2) as [M' K']. eapply good_trans; [exact K'|]. apply good_handle; auto.
  - destruct (good_same st (next_call st) None M) as [M' K']; auto. eapply good_trans; [exact K'|]. apply good_handle; auto. apply (wf_fun _ HW).
Qed.

Lemma good_execute_simple : forall f st c, mem_ok st -> ~ is_loop c -> good st (execute (S f) W st c).
Proof. intros f st c M H. rewrite execute_simple by auto. apply good_catch, good_simple; auto. Qed.
End World.
