(** The effect of command texts with numbers. *)
From Verif Require Export LParse.
From Verif Require Import LShellFull LMain LHeap LSudoku2 LCodec2.

Lemma join_first : forall sep (x : pystr) l, exists t, join sep (x :: l) = x ++ t.
Proof. intros sep x [|y l]; [exists []; rewrite app_nil_r; reflexivity|]. exists (sep ++ join sep (y :: l)). apply join_cons. Qed.
Lemma join_last : forall sep (x : pystr) l, exists t, join sep (l ++ [x]) = t ++ x.
Proof.
  intros sep x l. induction l as [|y l [t IH]]; [exists []; reflexivity|]. exists (y ++ sep ++ t).
  cbn [app]. destruct (l ++ [x]) as [|z m] eqn:E; [destruct l; discriminate|]. rewrite join_cons.
  unfold pystr in *. rewrite IH, !app_assoc. reflexivity.
Qed.
Lemma text_strip : forall name l, is_name name -> strip (command_text name l) = command_text name l.
Proof.
  intros name l H. destruct (name_chars name H) as [N C]. apply strip_ends.
  - intros c t E. unfold command_text in E. destruct (join_first (lit " ") name (map str_of_int l)) as [u U]. unfold pystr in *. rewrite U in E.
    destruct name as [|d name]; [contradiction|]. cbn [app] in E. injection E as <- _. specialize (C d (or_introl eq_refl)). unfold is_space. lia.
  - intros t c E. unfold command_text in E.
    assert (K : exists l0 x, name :: map str_of_int l = l0 ++ [x] /\ x <> [] /\ forall d, In d x -> 33 <= d <= 122).
    { destruct l as [|n l _] using rev_ind.
      - exists [], name. split; [reflexivity|]. split; auto. intros d I. specialize (C d I). lia.
      - exists (name :: map str_of_int l), (str_of_int n). rewrite map_app. split; [reflexivity|]. split; [apply str_of_int_nonempty|].
        intros d I. apply digits_char in I. lia. }
    destruct K as [l0 [x [K [X D]]]]. unfold pystr in *. rewrite K in E. destruct (join_last (lit " ") x l0) as [u U]. unfold pystr in *. rewrite U in E.
    destruct (last_char x X) as [x' [d ->]]. rewrite app_assoc in E. apply app_inj_tail in E. destruct E as [_ <-].
    assert (I : In d (x' ++ [d])) by (apply in_app_iff; right; left; auto). specialize (D d I). unfold is_space. lia.
Qed.
Lemma part_line : forall f W st s, ~ In 59 s -> execute_line f W st s = execute_part f W st s.
Proof.
  intros f W st s H. unfold execute_line. rewrite semi_none by auto. cbn [do_each]. destruct (execute_part f W st s) as [st1 [e|]]; reflexivity.
Qed.
Lemma text_line : forall f W st name l, is_name name -> execute_line f W st (command_text name l) = execute_part f W st (command_text name l).
Proof. intros f W st name l H. apply part_line. intros I. apply text_char in I; auto. lia. Qed.

Lemma given_names : forall name sp, dget str_eqb COMMANDS name = Ok sp -> given name sp.
Proof. intros. apply given_iff; auto. Qed.

Lemma set_line : forall docs C O, world_ok O -> chance_ok C -> literal_ints O ->
  forall st s r k v, reachable (full_world docs C O) st -> sh_loop_n st = None -> current st = Some s ->
  1 <= box_width s -> 1 <= box_height s ->
  (valid_index s r -> valid_index s k -> exists st' s', execute_line 2 (full_world docs C O) st (command_text (lit "set") [r; k; v]) = done st' /\
     only_current st st' /\ current st' = Some s' /\ getitem s' r k = Ok v /\ box_width s' = box_width s /\ box_height s' = box_height s /\
     (forall i j, ~ same_place s r k i j -> getitem s' i j = getitem s i j) /\
     (forall i j, get_candidates s' i j = get_candidates s i j)) /\
  (~ (valid_index s r /\ valid_index s k) ->
     execute_line 2 (full_world docs C O) st (command_text (lit "set") [r; k; v]) = error (next_call st) (MExn IndexError)).
Proof.
  intros docs C O HO HC HL st s r k v R L Es B1 B2. set (W := full_world docs C O).
  assert (G : given (lit "set") [lit "sudoku"]) by (apply given_names; reflexivity).
  assert (N : is_name (lit "set")) by (eexists; eauto).
  assert (P : parse W (strip (command_text (lit "set") [r; k; v])) = Ok (mkCommand (lit "set") [lit "sudoku"] (map VInt [r; k; v]) [])).
  { rewrite text_strip by auto. apply parse_numbers; auto. }
  pose proof (current_wf docs C O HO HC st s R Es B1 B2) as Ws.
  assert (K : calls (mkCommand (lit "set") [lit "sudoku"] (map VInt [r; k; v]) []) (lit "set") (map VInt [r; k; v])).
  { split; [reflexivity|]. exists (mkFspec [lit "self"; lit "row"; lit "col"; lit "value"] [] false 1).
    split; [unfold SPECS; cbn [In]; tauto|]. cbn [c_args c_kwargs]. unfold binds. split; [reflexivity|]. split; [cbn; lia|].
    split; [intros ? ? []|]. split; [auto|]. intros i n d Hi E. exfalso. assert (X : nth_error (params (mkFspec [lit "self"; lit "row"; lit "col"; lit "value"] [] false 1)) i <> None) by congruence.
    apply nth_error_Some in X. cbn in Hi, X. lia. }
  destruct (C95_edit_proof docs C O HO HC st _ _ s (lit "set") (map VInt [r; k; v]) (fun s => setitem s r k v) R L P K
    (edit_set _ _ _ _ _ (or_introl eq_refl) (or_introl eq_refl)) Es B1 B2) as [Hok Herr].
  subst W. rewrite text_line by auto. destruct (C01_proof s r k v Ws) as [W1 W2]. split.
  - intros Vr Vk. destruct (W1 (conj Vr Vk)) as [s' [E1 [E2 [E3 [E4 [E5 E6]]]]]]. rewrite (Hok s' E1).
    pose proof (inv_reachable _ (full_world_ok docs C O HO HC) st R) as I. pose proof (mo_nodup _ (si_mem _ I)) as ND.
    eexists. exists s'. split; [reflexivity|]. split.
    + unfold only_current, next_call, set_heap. cbn. split; [auto|]. split; [auto|]. split; [|tauto].
      unfold stacked. cbn. apply map_ext_in. intros b Hb. rewrite nth_error_upd. destruct (Nat.eqb_spec b (sh_cur st)); auto. subst. inv ND; contradiction.
    + split; [|tauto]. unfold current, next_call, set_heap. cbn. rewrite nth_error_upd. rewrite Nat.eqb_refl.
      unfold current in Es. rewrite Es. reflexivity.
  - intros H. apply Herr. apply W2; auto.
Qed.

Lemma print_line : forall docs C O, world_ok O -> chance_ok C ->
  forall st s t, reachable (full_world docs C O) st -> sh_loop_n st = None -> current st = Some s -> sudoku_str s = Ok t ->
  execute_line 2 (full_world docs C O) st (lit "print") = done (add_out (next_call st) (t ++ [10])).
Proof.
  intros docs C O HO HC st s t R L Es E. rewrite part_line by (intros X; cbn in X; intuition discriminate).
  assert (P : parse (full_world docs C O) (strip (lit "print")) = Ok (mkCommand (lit "print") [lit "sudoku"] [] [])) by reflexivity.
  refine (proj1 (C95_show_proof docs C O st _ _ s (lit "print") [] sudoku_str L P _ show_print Es) t E).
  split; [reflexivity|]. exists (mkFspec [lit "self"] [] false 1). split; [unfold SPECS; cbn [In]; tauto|]. cbn [c_args c_kwargs].
  unfold binds. split; [reflexivity|]. split; [cbn; lia|]. split; [intros ? ? []|]. split; [auto|].
  intros i n d Hi X. destruct i; discriminate.
Qed.
Lemma pop_line : forall W, world_ok W -> literal_ints W -> forall st k a, reachable W st -> sh_loop_n st = None ->
  0 <= k -> nth_error (sh_stack st) (Z.to_nat k) = Some a ->
  exists st', execute_line 2 W st (command_text (lit "pop") [k]) = done st' /\ current st' = nth_error (sh_heap st) a /\
    stacked st' = firstn (Z.to_nat k) (stacked st) ++ skipn (S (Z.to_nat k)) (stacked st) /\ sh_out st' = sh_out st /\ sh_err st' = sh_err st.
Proof.
  intros W HW HL st k a R L Hk E. assert (G : given (lit "pop") [lit "shell"]) by (apply given_names; reflexivity).
  assert (N : is_name (lit "pop")) by (eexists; eauto). rewrite text_line by auto.
  destruct (pop_effect W st (command_text (lit "pop") [k]) (mkCommand (lit "pop") [lit "shell"] [VInt k] []) (VInt k) (Z.to_nat k) a) as
    [st1 [X [_ [X2 [X3 [X4 [_ [_ [X5 X6]]]]]]]]]; auto.
  - eapply inv_reachable; eauto.
  - rewrite text_strip by auto. apply (parse_numbers W _ _ [k]); auto.
  - split; [reflexivity|]. left; split; reflexivity.
  - right. split; [discriminate|]. exists k. split; [left; left; reflexivity|]. split; [|reflexivity].
    assert (nth_error (sh_stack st) (Z.to_nat k) <> None) as Y by congruence. apply nth_error_Some in Y. lia.
  - exists st1. split; [exact X|]. split; [exact X2|]. split; [|auto]. unfold stacked. rewrite X3, X4, map_app, firstn_map, skipn_map. reflexivity.
Qed.
Lemma loop_lines : forall W, world_ok W -> literal_ints W -> forall st n parts cs, reachable W st -> sh_loop_n st = None -> 0 < n ->
  Forall2 (fun s c => parse W (strip s) = Ok c /\ ~ is_loop c /\ ~ is_exit c) parts cs -> (forall s, In s parts -> ~ In 59 s) ->
  let o1 := do_each (execute_line 2 W) ([command_text (lit "loop") [n]] ++ parts ++ [lit "loop end"]) st in
  let o2 := do_times (Z.to_nat n) (do_each (execute_line 2 W) parts) st in
  snd o1 = snd o2 /\ loop_reset (fst o1) = fst o2 /\ (snd o2 = None -> fst o1 = fst o2).
Proof.
  intros W HW HL st n parts cs R L Hn F Hp. assert (G : given (lit "loop") [lit "shell"]) by (apply given_names; reflexivity).
  assert (N : is_name (lit "loop")) by (eexists; eauto).
  assert (X : forall l, (forall s, In s l -> ~ In 59 s) -> forall st0, do_each (execute_line 2 W) l st0 = do_each (execute_part 2 W) l st0).
  { induction l as [|y l IH]; intros H st0; [reflexivity|]. cbn [do_each]. rewrite part_line by (apply H; left; auto).
    destruct (execute_part 2 W st0 y) as [st1 [e|]]; cbn [seq_do]; auto. apply IH. intros z Hz. apply H; right; auto. }
  assert (Y : forall k st0, do_times k (do_each (execute_line 2 W) parts) st0 = do_times k (do_each (execute_part 2 W) parts) st0).
  { induction k as [|k IH]; intros st0; [reflexivity|]. cbn [do_times]. rewrite X by auto.
    destruct (do_each (execute_part 2 W) parts st0) as [st1 [e|]]; cbn [seq_do]; auto. }
  cbv zeta. rewrite Y, X.
  - apply (loop_equiv W HW 0 st (command_text (lit "loop") [n]) (mkCommand (lit "loop") [lit "shell"] [VInt n] []) (VInt n) n (lit "loop end")
      (mkCommand (lit "loop") [lit "shell"] [VKeyword (lit "end")] []) (VKeyword (lit "end")) parts cs); auto.
    + eapply inv_reachable; eauto.
    + rewrite text_strip by auto. apply (parse_numbers W _ _ [n]); auto.
    + split; [reflexivity|]. left; split; reflexivity.
    + left; left; reflexivity.
    + split; [reflexivity|]. left; split; reflexivity.
    + left; reflexivity.
  - intros s I. apply in_app_iff in I. destruct I as [[<-|[]]|I].
    + intros J. apply text_char in J; auto. lia.
    + apply in_app_iff in I. destruct I as [I|[<-|[]]]; auto. intros J; cbn in J; intuition discriminate.
Qed.
