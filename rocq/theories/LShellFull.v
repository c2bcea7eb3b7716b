(** Proofs about the commands of the shell with all library functions (C91-C94). *)
From Verif Require Import LNegative SpecHelp LShell6 LHelp LBrute LGenerate LGen LDict.

Lemma fresh_ok : forall r, (forall t, r = Ok t -> sudoku_ok t) -> (forall e, r = Err e -> is_exception e = true) -> result_ok (fresh_result r).
Proof. intros [t|e] A B; cbn; auto. Qed.

Section Full.
Variable docs : pystr -> option pystr.
Variable C : chance.
Variable O : world.
Hypothesis HO : world_ok O.
Hypothesis HC : chance_ok C.
Notation W := (full_world docs C O).

Lemma solve_result : forall n s, sudoku_ok s ->
  (exists u, (let* (u, _) := gnext (bruteforce (ch_brute C n) s) in Ok u) = Ok u /\ In u (gyields (bruteforce (ch_brute C n) s) tt)) \/
  ((let* (u, _) := gnext (bruteforce (ch_brute C n) s) in Ok u) = Err StopIteration /\ gyields (bruteforce (ch_brute C n) s) tt = []).
Proof.
  intros n s Hs. destruct HC as [_ [_ P]]. destruct (brute_any (ch_brute C n) s (P n) Hs) as [R _].
  pose proof (gnext_spec (bruteforce (ch_brute C n) s)) as G.
  destruct (gyields (bruteforce (ch_brute C n) s) tt) as [|u l].
  - right. rewrite G, R. split; reflexivity.
  - left. destruct G as [g' [-> _]]. exists u. split; [reflexivity|]. left; auto.
Qed.

Lemma full_fun_ok : forall n name vs r, full_fun docs C n name vs = Some r -> result_ok r.
Proof.
  intros n name vs r E. unfold full_fun in E.
  destruct (str_eqb name (lit "new")).
  { repeat match type of E with (match ?b with _ => _ end) = _ => destruct b; try discriminate end.
    injection E as <-. apply new_shape. }
  destruct (str_eqb name (lit "generate")).
  { destruct vs as [|m [|y [|b [|]]]]; try discriminate.
    destruct (int_of_value m) as [m'|]; [|discriminate]. destruct (symmetry_of y) as [y'|]; [|discriminate].
    destruct (box_size_of b) as [[w h]|]; [|discriminate].
    injection E as <-.
    destruct (Z_le_gt_dec w 0) as [B1|B1]; [|destruct (Z_le_gt_dec h 0) as [B2|B2]].
    1, 2: rewrite neg_generate by auto; destruct (_ <? _); [reflexivity|]; destruct y'; reflexivity.
    assert (B1' : 1 <= w) by lia. assert (B2' : 1 <= h) by lia. clear B1 B2. rename B1' into B1. rename B2' into B2.
    destruct HC as [P _]. destruct (C33_proof (ch_generate C n) m' y' w h B1 B2 (P n)) as [R1 R2].
    apply fresh_ok; [|intros e X; rewrite (R2 e X); reflexivity].
    intros t Ht. assert (L : m' <= w ^ 2 * h ^ 2 /\ y' <> SymOther).
    { assert (~ (m' > w ^ 2 * h ^ 2 \/ y' = SymOther)) by (intros X; apply R1 in X; congruence).
      split; [lia|]. intros X. apply H. auto. }
    destruct (C29_proof (ch_generate C n) m' y' w h B1 B2 (P n) (proj1 L) (proj2 L)) as [s [E [Ws _]]].
    rewrite E in Ht. injection Ht as <-. apply wf_sudoku_ok; auto. }
  destruct (str_eqb name (lit "decode")).
  { repeat match type of E with
    | (if ?b then _ else _) = _ => destruct b; try discriminate
    | (match ?b with _ => _ end) = _ => destruct b; try discriminate end;
    injection E as <-; (apply fresh_ok; [intros t Ht; eapply decode_ok; eauto|]; intros e X;
    match type of X with ?d = _ => pose proof (proj1 (decode_ok _ _ _ _ _ _ : exn_ok d /\ _)) as D end;
    exact (D e X)). }
  destruct (str_eqb name (lit "clear")); [injection E as <-; exact I|].
  destruct (str_eqb name (lit "help")); [|discriminate].
  destruct vs as [|c [|v [|]]]; try discriminate.
  destruct (help_command docs c v) as [[t|e]|] eqn:Hc; try discriminate; injection E as <-; [exact I|].
  cbn [result_ok]. unfold help_command in Hc. destruct (truth c) as [[|]|] eqn:Tc; try discriminate.
  - destruct (truth v) as [b|]; [|discriminate]. injection Hc as Hc.
    assert (H1 : forall x, help_one docs x b = Err e -> is_exception e = true).
    { intros x Hx. destruct (in_dec (list_eq_dec Z.eq_dec) x (dkeys SPECS)) as [D|D].
      - destruct (help_one_ok docs x b D) as [l [r [_ [_ X]]]]. congruence.
      - unfold help_one in Hx. rewrite (dget_err str_eqb str_eqb_eq _ _ D) in Hx. injection Hx as <-. reflexivity. }
    destruct c; try (injection Hc as <-; reflexivity); eapply H1; eauto.
  - destruct (truth v) as [b|] eqn:Tv; [|discriminate].
    destruct (help_all_ok docs c v Tc) as [t [X _]]; [congruence|]. unfold help_command in X. rewrite Tc, Tv in X.
    rewrite Hc in X. discriminate.
Qed.

Lemma full_sudoku_ok : forall n name s vs r, full_sudoku C n name s vs = Some r -> sudoku_ok s ->
  result_ok (snd r) /\ sudoku_ok (fst r).
Proof.
  intros n name s vs r E H.
  assert (T : forall x, exn_ok x -> result_ok (snd (text_result s x)) /\ sudoku_ok (fst (text_result s x))).
  { intros x Hx. split; auto. unfold text_result. cbn [snd]. destruct x as [|e]; cbn; auto. }
  assert (Ob : forall A (x : res A), exn_ok x -> result_ok (snd (object_result s x)) /\ sudoku_ok (fst (object_result s x))).
  { intros A x Hx. split; auto. unfold object_result. cbn [snd]. destruct x as [|e]; cbn; auto. }
  assert (Ch : forall x, exn_ok x -> (forall t, x = Ok t -> sudoku_ok t) -> result_ok (snd (change_result s x)) /\ sudoku_ok (fst (change_result s x))).
  { intros x Hx Hs. unfold change_result. destruct x as [t|e]; cbn [fst snd]; split; auto; cbn; auto. }
  unfold full_sudoku in E.
  assert (Tm : forall t, (0 <=? t) = true ->
     Some (s, fresh_result (generate_from_template (S (Z.to_nat t)) (ch_template C n) s t)) = Some r -> result_ok (snd r) /\ sudoku_ok (fst r)).
  { intros t B Er. injection Er as <-. cbn [fst snd]. split; auto. apply Z.leb_le in B. rename B into B3.
    destruct (Z_le_gt_dec (box_width s) 0) as [B1|B1]; [|destruct (Z_le_gt_dec (box_height s) 0) as [B2|B2]].
    1, 2: rewrite neg_template by auto; destruct (_ =? _); reflexivity.
    assert (B1' : 1 <= box_width s) by lia. assert (B2' : 1 <= box_height s) by lia.
    assert (Ws : wf s) by (apply sudoku_ok_wf; auto). destruct HC as [_ [P _]].
    destruct (C34_failure_proof (S (Z.to_nat t)) (ch_template C n) s t Ws B3 ltac:(lia) (P n)) as [R _].
    apply fresh_ok.
    - intros u Hu. apply wf_sudoku_ok. eapply (C34_success_proof (S (Z.to_nat t)) (ch_template C n) s t u Ws (P n)); auto.
    - intros e He. destruct R as [[u R]|R]; [congruence|]. rewrite R in He. injection He as <-. reflexivity. }
  assert (Sv : Some (s, fresh_result (let* (u, _) := gnext (bruteforce (ch_brute C n) s) in Ok u)) = Some r -> result_ok (snd r) /\ sudoku_ok (fst r)).
  { intros Er. injection Er as <-. cbn [fst snd]. split; auto.
    destruct (solve_result n s H) as [[u [-> Hu]]|[-> _]]; [|reflexivity]. cbn.
    destruct HC as [_ [_ P]]. apply (brute_any (ch_brute C n) s (P n) H); auto. }
  repeat match type of E with
  | (if str_eqb _ _ then _ else _) = _ => destruct (str_eqb _ _)
  | (if ?b then _ else _) = _ => let X := fresh in destruct b eqn:X; [|discriminate]
  | (match ?b with _ => _ end) = _ => let X := fresh in destruct b eqn:X; try discriminate
  end; try discriminate; eauto; injection E as <-;
  try (apply T; apply exn_encode || apply exn_view); try (apply Ob; apply exn_getitem || apply exn_get_candidates);
  try (apply Ch; [apply exn_setitem || apply exn_set_candidates || apply exn_remove_candidates|]; intros t Et;
       eapply setitem_shape in Et || eapply set_candidates_shape in Et || eapply remove_candidates_shape in Et; eauto; fail);
  split; cbn [fst snd]; auto; try exact I; eapply init_shape; eauto.
Qed.

Lemma bind_exn : forall name args kw e, (let* f := dget str_eqb SPECS name in bind (params f) args kw) = Err e -> is_exception e = true.
Proof.
  intros name args kw e E. destruct (dget str_eqb SPECS name) as [f|e'] eqn:D; cbn [rbind] in E.
  - unfold bind in E. destruct (_ <? _)%nat; [injection E as <-; reflexivity|].
    destruct (forallb _ _); [|injection E as <-; reflexivity].
    destruct (bind_rest _ kw) as [l|] eqn:B; cbn [rbind] in E; [discriminate|]. injection E as <-.
    rewrite (bind_rest_err _ _ _ B). reflexivity.
  - injection E as <-. rewrite (dget_err_inv _ _ _ _ D). reflexivity.
Qed.

Lemma full_world_ok : world_ok W.
Proof.
  destruct HO as [H1 H2 H3 H4 H5]. constructor; cbn [full_world w_fun w_sudoku w_int w_literal]; auto.
  - intros n f args kw. destruct (let* _ := _ in _) as [vs|e] eqn:B; [|cbn; eapply bind_exn; eauto].
    destruct (full_fun docs C n f vs) as [r|] eqn:E; [|apply H1]. eapply full_fun_ok; eauto.
  - intros n f s args kw Hs. destruct (let* _ := _ in _) as [vs|e] eqn:B; [|cbn; eapply bind_exn; eauto].
    destruct (full_sudoku C n f s vs) as [r|] eqn:E; [|apply H2; auto]. eapply full_sudoku_ok; eauto.
  - intros n f s args kw Hs. destruct (let* _ := _ in _) as [vs|e] eqn:B; [|cbn; auto].
    destruct (full_sudoku C n f s vs) as [r|] eqn:E; [|apply H3; auto]. eapply full_sudoku_ok; eauto.
Qed.

(** ** Arguments *)
Lemma item_nodup : forall items args kw args' kw', foldM (parse_item W) items (args, kw) = Ok (args', kw') ->
  NoDup (map fst kw) -> NoDup (map fst kw').
Proof.
  induction items as [|x items IH]; intros args kw args' kw' E N; cbn [foldM] in E; [injection E as <- <-; auto|].
  unfold parse_item in E at 1. destruct (cut (lit "=") x) as [[k v]|].
  - destruct (literal W v) as [y|]; cbn [rbind] in E; [|discriminate]. eapply IH; [exact E|].
    apply (dset_NoDup str_eqb str_eqb_eq kw k y); auto.
  - destruct (str_mem x (dkeys COMMANDS)); [|destruct (str_mem x SHELL_KEYWORDS)]; cbn [rbind] in E; try (eapply IH; eauto; fail).
    destruct (literal W x) as [y|]; cbn [rbind] in E; [|discriminate]. eapply IH; eauto.
Qed.
Lemma parse_nodup : forall s c, parse W s = Ok c -> NoDup (map fst (c_kwargs c)).
Proof.
  intros s c E. unfold parse in E. destruct (PyStr.split (lit " ") s) as [items|]; cbn [rbind] in E; [|discriminate].
  destruct items as [|f rest]; [discriminate|].
  destruct (foldM (parse_item W) rest ([], [])) as [[args kw]|] eqn:F; cbn [rbind] in E; [|discriminate].
  destruct (dget str_eqb COMMANDS f) as [sp|]; cbn [rbind] in E; [|discriminate].
  destruct (forallb _ sp); [|discriminate]. injection E as <-. cbn [c_kwargs]. eapply item_nodup; eauto. constructor.
Qed.

Lemma bind1_bind : forall name d args kw,
  bind1 name d args kw = (let* vs := bind [(name, d)] args kw in Ok (hd VNone vs)) \/ ~ NoDup (map fst kw).
Proof.
  intros name d args kw. unfold bind1, bind. destruct args as [|v [|v2 args]].
  - destruct kw as [|[k v] [|[k2 v2] kw]].
    + left. cbn. destruct d; reflexivity.
    + left. cbn. rewrite orb_false_r. destruct (str_eqb k name) eqn:E; cbn.
      * apply str_eqb_eq in E. subst. rewrite (proj2 (str_eqb_eq name name) eq_refl). reflexivity.
      * reflexivity.
    + destruct (str_eqb k name) eqn:E1; [|left; cbn; rewrite E1; reflexivity].
      destruct (str_eqb k2 name) eqn:E2; [|left; cbn; rewrite E1, E2; reflexivity].
      right. apply str_eqb_eq in E1, E2. subst. cbn. intros N. inversion N; subst. apply H1. left; auto.
  - left. destruct kw as [|[k w] kw]; reflexivity.
  - left. cbn. reflexivity.
Qed.
Lemma bind0_bind : forall args kw, bind0 args kw = (let* _ := bind [] args kw in Ok tt).
Proof. intros [|v args] [|[k w] kw]; reflexivity. Qed.

Lemma spec_get : forall name f, In (name, f) SPECS -> dget str_eqb SPECS name = Ok f.
Proof.
  intros name f H. apply (dget_NoDup str_eqb str_eqb_eq); auto. destruct help_names as [_ [N E]]. change (NoDup (dkeys SPECS)).
  rewrite E. exact N.
Qed.
Lemma spec_of : forall s c, parse W s = Ok c -> exists f, In (c_func c, f) SPECS.
Proof.
  intros s c P. apply parse_special in P. destruct help_names as [_ [_ E]].
  destruct (dget_keys str_eqb str_eqb_eq SPECS (c_func c)) as [X _]. destruct X as [f Hf].
  - rewrite E. apply (dget_keys str_eqb str_eqb_eq). eauto.
  - exists f. eapply dget_In; [exact str_eqb_eq|exact Hf].
Qed.

(** The call depends on the values of the parameters only. *)
Definition call_by (exec : shell -> command -> outcome) (st : shell) (name : pystr) (special : list pystr) (vs : list value) : outcome :=
  if str_eqb name (lit "loop") then loop_command W exec st (hd VNone vs)
  else if str_eqb name (lit "exit") then exit_command st
  else if str_eqb name (lit "push") then push_command st
  else if str_eqb name (lit "pop") then pop_command W st (hd VNone vs)
  else if str_eqb name (lit "stack") then
    shell_print st (lit "stack has " ++ str_of_int (py_len (sh_stack st)) ++ lit " sudokus")
  else if str_mem (lit "sudoku") special then
    match nth_error (sh_heap st) (sh_cur st) with
    | None => (st, Some AttributeError)
    | Some s =>
        let (s', r) := match full_sudoku C (sh_calls st) name s vs with
                       | Some r => r
                       | None => w_sudoku O (sh_calls st) name s vs []
                       end in
        handle_result (next_call (set_heap st (list_upd (sh_cur st) s' (sh_heap st)))) r
    end
  else handle_result (next_call st) (match full_fun docs C (sh_calls st) name vs with
                                     | Some r => r
                                     | None => w_fun O (sh_calls st) name vs []
                                     end).

Lemma call_bound : forall exec st c f, NoDup (map fst (c_kwargs c)) -> In (c_func c, f) SPECS ->
  (forall vs, bind (params f) (c_args c) (c_kwargs c) = Ok vs -> call W exec st c = call_by exec st (c_func c) (c_special c) vs) /\
  (bind (params f) (c_args c) (c_kwargs c) = Err TypeError -> nth_error (sh_heap st) (sh_cur st) <> None ->
     call W exec st c = (st, Some TypeError) \/ call W exec st c = (next_call st, Some TypeError)).
Proof.
  intros exec st c f N I. pose proof (spec_get _ _ I) as G.
  assert (X : forall name g, str_eqb (c_func c) name = true -> dget str_eqb SPECS name = Ok g -> f = g).
  { intros name g E D. apply str_eqb_eq in E. rewrite E in G. congruence. }
  unfold call, call_by.
  destruct (str_eqb (c_func c) (lit "loop")) eqn:E1.
  { rewrite (X _ _ E1 eq_refl). destruct (bind1_bind (lit "n") None (c_args c) (c_kwargs c)) as [B|B]; [|contradiction].
    rewrite B. change (params _) with [(lit "n", @None value)]. split.
    - intros vs ->. reflexivity.
    - intros -> _. left; reflexivity. }
  destruct (str_eqb (c_func c) (lit "exit")) eqn:E2.
  { rewrite (X _ _ E2 eq_refl). rewrite bind0_bind. change (params _) with (@nil (pystr * option value)). split.
    - intros vs ->. reflexivity.
    - intros -> _. left; reflexivity. }
  destruct (str_eqb (c_func c) (lit "push")) eqn:E3.
  { rewrite (X _ _ E3 eq_refl). rewrite bind0_bind. change (params _) with (@nil (pystr * option value)). split.
    - intros vs ->. reflexivity.
    - intros -> _. left; reflexivity. }
  destruct (str_eqb (c_func c) (lit "pop")) eqn:E4.
  { rewrite (X _ _ E4 eq_refl). destruct (bind1_bind (lit "position") (Some VNone) (c_args c) (c_kwargs c)) as [B|B]; [|contradiction].
    rewrite B. change (params _) with [(lit "position", Some VNone)]. split.
    - intros vs ->. reflexivity.
    - intros -> _. left; reflexivity. }
  destruct (str_eqb (c_func c) (lit "stack")) eqn:E5.
  { rewrite (X _ _ E5 eq_refl). rewrite bind0_bind. change (params _) with (@nil (pystr * option value)). split.
    - intros vs ->. reflexivity.
    - intros -> _. left; reflexivity. }
  cbn [full_world w_fun w_sudoku]. rewrite G. cbn [rbind].
  destruct (str_mem (lit "sudoku") (c_special c)).
  - split.
    + intros vs ->. reflexivity.
    + intros -> H. destruct (nth_error (sh_heap st) (sh_cur st)) as [s|] eqn:E; [|congruence].
      right. rewrite (LShell6.list_upd_same _ _ _ E), set_heap_same. reflexivity.
  - split.
    + intros vs ->. reflexivity.
    + intros -> _. right. reflexivity.
Qed.

Lemma parts_execute : forall n st s c, sh_loop_n st = None -> parse W (strip s) = Ok c -> execute_part n W st s = execute n W st c.
Proof.
  intros n st s c L P. unfold execute_part. rewrite P. unfold loop_active. rewrite L. cbn [andb].
  destruct (str_eqb (c_func c) (lit "exit")); reflexivity.
Qed.

Lemma calls_bind : forall s c name vs, parse W s = Ok c -> calls c name vs ->
  exists f, In (c_func c, f) SPECS /\ bind (params f) (c_args c) (c_kwargs c) = Ok vs /\ c_func c = name.
Proof.
  intros s c name vs P [E [f [I B]]]. exists f. subst. splits; auto. apply C92_bind_proof; auto. eapply parse_nodup; eauto.
Qed.

Lemma C92_same_proof : forall n st line1 line2 c1 c2 name vs, sh_loop_n st = None ->
  parse W (strip line1) = Ok c1 -> parse W (strip line2) = Ok c2 -> calls c1 name vs -> calls c2 name vs ->
  execute_part n W st line1 = execute_part n W st line2.
Proof.
  intros n st l1 l2 c1 c2 name vs L P1 P2 K1 K2. rewrite (parts_execute n st l1 c1), (parts_execute n st l2 c2) by auto.
  destruct n as [|n]; [reflexivity|]. rewrite !execute_S.
  destruct (calls_bind _ _ _ _ P1 K1) as [f1 [I1 [B1 F1]]]. destruct (calls_bind _ _ _ _ P2 K2) as [f2 [I2 [B2 F2]]].
  rewrite (proj1 (call_bound (execute n W) st c1 f1 (parse_nodup _ _ P1) I1) vs B1).
  rewrite (proj1 (call_bound (execute n W) st c2 f2 (parse_nodup _ _ P2) I2) vs B2).
  apply parse_special in P1, P2. rewrite F1 in *. rewrite F2 in *. rewrite P1 in P2. injection P2 as ->. reflexivity.
Qed.

Lemma C92_bad_proof : forall st line c, reachable W st -> sh_loop_n st = None -> parse W (strip line) = Ok c ->
  (forall vs, ~ calls c (c_func c) vs) ->
  execute_part 2 W st line = error st (MExn TypeError) \/ execute_part 2 W st line = error (next_call st) (MExn TypeError).
Proof.
  intros st line c R L P K. rewrite (parts_execute 2 st line c), execute_S by auto.
  destruct (spec_of _ _ P) as [f I]. pose proof (parse_nodup _ _ P) as N.
  destruct (C92_bind_proof (params f) (c_args c) (c_kwargs c) N) as [B1 B2].
  assert (B : bind (params f) (c_args c) (c_kwargs c) = Err TypeError).
  { destruct (bind _ _ _) as [vs|e] eqn:B; [|f_equal; auto]. exfalso. apply (K vs). split; auto. exists f. split; auto. apply B1; auto. }
  destruct (current_some st (inv_reachable W full_world_ok st R)) as [s [Es _]].
  destruct (proj2 (call_bound (execute 1 W) st c f N I) B) as [-> | ->]; [|left|right]; try reflexivity.
  unfold current in Es. congruence.
Qed.

(** ** Calls of library functions *)
Definition own_names : list pystr := [lit "loop"; lit "exit"; lit "push"; lit "pop"; lit "stack"].
Lemma full_call : forall n st line c name vs special, sh_loop_n st = None -> parse W (strip line) = Ok c -> calls c name vs ->
  str_mem name own_names = false -> dget str_eqb COMMANDS name = Ok special ->
  execute_part (S n) W st line = catch (call_by (execute n W) st name special vs).
Proof.
  intros n st line c name vs sp L P K Nm D. rewrite (parts_execute (S n) st line c), execute_S by auto.
  destruct (calls_bind _ _ _ _ P K) as [f [I [B F]]].
  rewrite (proj1 (call_bound (execute n W) st c f (parse_nodup _ _ P) I) vs B).
  apply parse_special in P. rewrite F in *. rewrite D in P. injection P as <-. reflexivity.
Qed.

Lemma own_false : forall name x, str_mem name own_names = false -> In x own_names -> str_eqb name x = false.
Proof.
  intros name x H I. destruct (str_eqb name x) eqn:E; auto. apply str_eqb_eq in E. subst. apply str_mem_iff in I. congruence.
Qed.
Lemma call_by_sudoku : forall exec st name sp vs s r, str_mem name own_names = false -> str_mem (lit "sudoku") sp = true ->
  current st = Some s -> full_sudoku C (sh_calls st) name s vs = Some (s, r) ->
  call_by exec st name sp vs = handle_result (next_call st) r.
Proof.
  intros exec st name sp vs s r Nm Sp Es F. unfold call_by. unfold current in Es.
  rewrite !(own_false name) by (auto; cbn; tauto). rewrite Sp, Es, F.
  rewrite (LShell6.list_upd_same _ _ _ Es), set_heap_same. reflexivity.
Qed.
Lemma call_by_fun : forall exec st name sp vs r, str_mem name own_names = false -> str_mem (lit "sudoku") sp = false ->
  full_fun docs C (sh_calls st) name vs = Some r ->
  call_by exec st name sp vs = handle_result (next_call st) r.
Proof.
  intros exec st name sp vs r Nm Sp F. unfold call_by.
  rewrite !(own_false name) by (auto; cbn; tauto). rewrite Sp, F. reflexivity.
Qed.
Lemma if_true : forall {A} (b : bool) (x y : A), b = true -> (if b then x else y) = x.
Proof. intros A b x y ->. reflexivity. Qed.

Lemma replaced_ok : forall st s u, shell_inv st -> current st = Some s -> 
  exists st', handle_result (next_call st) (RFresh u) = done st' /\ replaced st st' u.
Proof.
  intros st s u I Es. eexists. split; [reflexivity|]. destruct (si_mem _ I) as [M1 M2 M3].
  unfold replaced, current. cbn [set_cur set_heap next_call sh_heap sh_cur sh_stack sh_out sh_err sh_prompt sh_running sh_loop_n sh_loop_list].
  splits; auto.
  - rewrite nth_error_app2, Nat.sub_diag by lia. reflexivity.
  - intros H. pose proof (M2 _ (or_intror H)). lia.
  - pose proof (M2 _ (or_introl eq_refl)). lia.
  - intros a Ha. rewrite nth_error_app1; auto.
Qed.

Lemma C93_proof : forall st line c s, reachable W st -> sh_loop_n st = None -> parse W (strip line) = Ok c ->
  calls c (lit "solve") [] -> current st = Some s -> 1 <= box_width s -> 1 <= box_height s ->
  (exists u st', execute_part 2 W st line = done st' /\ replaced st st' u /\ wf u /\ box_size u = box_size s /\ completion s (num u)) \/
  ((forall f, ~ completion s f) /\ execute_part 2 W st line = error (next_call st) (MExn StopIteration)).
Proof.
  intros st line c s R L P K Es B1 B2. pose proof (inv_reachable W full_world_ok st R) as I.
  assert (Ws : wf s). { destruct (current_some st I) as [s' [E' H']]. rewrite Es in E'. injection E' as <-. apply sudoku_ok_wf; auto. }
  rewrite (full_call 1 st line c _ _ _ L P K eq_refl eq_refl).
  rewrite (call_by_sudoku _ st (lit "solve") [lit "shell"; lit "sudoku"] [] s _ eq_refl eq_refl Es eq_refl).
  destruct HC as [_ [_ Hb]].
  destruct (C19_proof (ch_brute C (sh_calls st)) s (Hb _) Ws) as [_ [En1 [En2 _]]].
  destruct (solve_result (sh_calls st) s (wf_sudoku_ok s Ws)) as [[u [Eu Hu]]|[Eu Hu]]; rewrite Eu; cbn [fresh_result].
  - left. destruct (replaced_ok st s u I Es) as [st' [E' R']]. exists u, st'. rewrite E'. destruct (En1 u Hu) as [A1 [A2 A3]]. auto.
  - right. split; [|reflexivity]. intros f Hf. destruct (En2 f Hf) as [y [Hy _]]. rewrite Hu in Hy. destruct Hy.
Qed.

Lemma current_wf : forall st s, reachable W st -> current st = Some s -> 1 <= box_width s -> 1 <= box_height s -> wf s.
Proof.
  intros st s R Es B1 B2. pose proof (inv_reachable W full_world_ok st R) as I.
  destruct (current_some st I) as [s' [E' H']]. rewrite Es in E'. injection E' as <-. apply sudoku_ok_wf; auto.
Qed.

Lemma box_value : forall b w h, box_size_value b w h -> box_size_of b = Some (w, h).
Proof. intros b w h [-> | ->]; reflexivity. Qed.
Lemma symmetry_value : forall y y', In (y, y') symmetry_names -> symmetry_of y = Some y' /\ y' <> SymOther.
Proof.
  intros y y' H. unfold symmetry_names in H. cbn [In] in H.
  repeat destruct H as [H|H]; try contradiction; injection H as <- <-; split; try reflexivity; discriminate.
Qed.
Lemma symmetry_unknown : forall t, (forall y', ~ In (VStr t, y') symmetry_names) -> symmetry_of (VStr t) = Some SymOther.
Proof.
  intros t H. assert (X : forall x y', In (VStr x, y') symmetry_names -> str_eqb t x = false).
  { intros x y' Hx. destruct (str_eqb t x) eqn:E; auto. apply str_eqb_eq in E. subst. destruct (H y' Hx). }
  cbn [symmetry_of]. rewrite (X (lit "rotate-90") SymRotate90), (X (lit "rotate-180") SymRotate180), (X (lit "mirror-x") SymMirrorX),
    (X (lit "mirror-y") SymMirrorY), (X (lit "mirror-xy") SymMirrorXY) by (unfold symmetry_names; cbn [In]; tauto). reflexivity.
Qed.
Lemma int_value_ok : forall v n, int_value v n -> int_of_value v = Some n.
Proof. intros v n [-> | [[-> ->] | [-> ->]]]; reflexivity. Qed.
Lemma flag_value_ok : forall v b, flag_value v b -> truth v = Some b.
Proof.
  intros v b [[-> H]|[-> [H O']]].
  - unfold false_values in H. cbn [In] in H. repeat destruct H as [<-|H]; try reflexivity. contradiction.
  - unfold false_values in H. cbn [In] in H. destruct v as [n|b|s| |l|l|l|s|s|k]; cbn [truth]; try reflexivity.
    + destruct (Z.eqb_spec n 0) as [-> |]; [tauto|reflexivity].
    + destruct b; [reflexivity|tauto].
    + destruct s; [tauto|]. unfold py_len. cbn [length]. destruct (Z.eqb_spec (Z.of_nat (S (length s))) 0); [lia|reflexivity].
    + tauto.
    + destruct l; [tauto|]. unfold py_len. cbn [length]. destruct (Z.eqb_spec (Z.of_nat (S (length l))) 0); [lia|reflexivity].
    + destruct l; [tauto|]. unfold py_len. cbn [length]. destruct (Z.eqb_spec (Z.of_nat (S (length l))) 0); [lia|reflexivity].
    + destruct l; [tauto|]. unfold py_len. cbn [length]. destruct (Z.eqb_spec (Z.of_nat (S (length l))) 0); [lia|reflexivity].
    + destruct (O' k); reflexivity.
Qed.
Lemma generate_fun : forall n m m' y b w h y', int_value m m' -> box_size_value b w h -> symmetry_of y = Some y' ->
  full_fun docs C n (lit "generate") [m; y; b] = Some (fresh_result (generate (ch_generate C n) m' y' (w, h))).
Proof.
  intros n m m' y b w h y' Hm Hb Hy.
  change (full_fun docs C n (lit "generate") [m; y; b]) with
    (match int_of_value m, symmetry_of y, box_size_of b with
        | Some m, Some y, Some (w, h) =>
            Some (fresh_result (generate (ch_generate C n) m y (w, h)))
        | _, _, _ => None
        end).
  rewrite (int_value_ok _ _ Hm), Hy, (box_value _ _ _ Hb). reflexivity.
Qed.

Lemma C94_generate_proof : forall st line c m m' y b w h y', reachable W st -> sh_loop_n st = None ->
  parse W (strip line) = Ok c -> calls c (lit "generate") [m; y; b] -> int_value m m' ->
  box_size_value b w h -> 1 <= w -> 1 <= h -> In (y, y') symmetry_names -> m' <= w ^ 2 * h ^ 2 ->
  exists u st' n, execute_part 2 W st line = done st' /\ replaced st st' u /\ wf u /\ box_size u = (w, h) /\ unique_solution u /\
    count u = Ok n /\ m' <= n /\
    (forall g p, In g (sym_maps (w * h) y') -> field u p -> field u (g p) /\ (num u p = 0 <-> num u (g p) = 0)).
Proof.
  intros st line c m m' y b w h y' R L P K Hi Hb Hw Hh Hy Hm. pose proof (inv_reachable W full_world_ok st R) as I.
  destruct (symmetry_value _ _ Hy) as [Sy Ny].
  rewrite (full_call 1 st line c _ _ _ L P K eq_refl eq_refl).
  rewrite (call_by_fun _ st (lit "generate") [] _ _ eq_refl eq_refl (generate_fun (sh_calls st) m m' y b w h y' Hi Hb Sy)).
  destruct HC as [Hg _]. specialize (Hg (sh_calls st)).
  destruct (C29_proof _ m' y' w h Hw Hh Hg Hm Ny) as [u [E [A1 [A2 [A3 _]]]]].
  destruct (C30_proof _ m' y' w h Hw Hh Hg Hm Ny) as [u' [n [E' [A4 A5]]]]. rewrite E in E'. injection E' as <-.
  destruct (C31_proof _ m' y' w h Hw Hh Hg Hm Ny) as [u' [E' A6]]. rewrite E in E'. injection E' as <-.
  rewrite E. destruct (current_some st I) as [s [Es _]].
  destruct (replaced_ok st s u I Es) as [st' [F R']]. exists u, st', n. cbn [fresh_result]. rewrite F.
  split; [reflexivity|]. auto 10.
Qed.

Lemma C94_generate_bad_proof : forall st line c m m' y b w h, reachable W st -> sh_loop_n st = None ->
  parse W (strip line) = Ok c -> calls c (lit "generate") [m; y; b] -> int_value m m' ->
  box_size_value b w h ->
  ((exists y', In (y, y') symmetry_names) /\ w ^ 2 * h ^ 2 < m') \/ ((exists t, y = VStr t) \/ (exists i, int_value y i)) /\ (forall y', ~ In (y, y') symmetry_names) ->
  execute_part 2 W st line = error (next_call st) (MExn ValueError).
Proof.
  intros st line c m m' y b w h R L P K Hi Hb H.
  rewrite (full_call 1 st line c _ _ _ L P K eq_refl eq_refl).
  assert (X : exists y', symmetry_of y = Some y' /\ (m' > w ^ 2 * h ^ 2 \/ y' = SymOther)).
  { destruct H as [[[y' Hy] Hm]|[[[t ->]|[i Hy]] Ht]].
    - exists y'. split; [apply symmetry_value; auto|]. left; lia.
    - exists SymOther. split; [apply symmetry_unknown; auto|]. auto.
    - exists SymOther. split; [|auto]. destruct Hy as [-> | [[-> _] | [-> _]]]; reflexivity. }
  destruct X as [y' [Sy Hy]].
  rewrite (call_by_fun _ st (lit "generate") [] _ _ eq_refl eq_refl (generate_fun (sh_calls st) m m' y b w h y' Hi Hb Sy)).
  unfold generate. cbn [fst snd]. cbv zeta. destruct (Z.ltb_spec (w ^ 2 * h ^ 2) m') as [X|X]; [reflexivity|].
  destruct Hy as [Hy | ->]; [lia|reflexivity].
Qed.

Lemma C94_template_proof : forall st line c s v t, reachable W st -> sh_loop_n st = None ->
  parse W (strip line) = Ok c -> calls c (lit "generate_from_template") [v] -> int_value v t -> current st = Some s ->
  1 <= box_width s -> 1 <= box_height s -> 0 <= t ->
  (exists u st', execute_part 2 W st line = done st' /\ replaced st st' u /\ wf u /\ box_size u = box_size s /\ unique_solution u /\
     forall p, field s p -> (num u p = 0 <-> num s p = 0)) \/
  (execute_part 2 W st line = error (next_call st) (MExn RuntimeError) /\
   forall i, 0 <= i < t -> exists a, attempt (ch_template C (sh_calls st)) s i a /\ ~ unique_solution a).
Proof.
  intros st line c s v t R L P K Hi Es B1 B2 Ht. pose proof (inv_reachable W full_world_ok st R) as I.
  pose proof (current_wf st s R Es B1 B2) as Ws.
  rewrite (full_call 1 st line c _ _ _ L P K eq_refl eq_refl).
  rewrite (call_by_sudoku _ st (lit "generate_from_template") [lit "sudoku"] [v] s
             (fresh_result (generate_from_template (S (Z.to_nat t)) (ch_template C (sh_calls st)) s t)) eq_refl eq_refl Es);
    [|change (full_sudoku C (sh_calls st) (lit "generate_from_template") s [v]) with
        (match int_of_value v with
         | Some t =>
            if 0 <=? t then
              Some (s, fresh_result (generate_from_template (S (Z.to_nat t)) (ch_template C (sh_calls st)) s t))
            else None
         | None => None end);
      rewrite (int_value_ok _ _ Hi), (proj2 (Z.leb_le _ _) Ht); reflexivity].
  destruct HC as [_ [Hg _]]. specialize (Hg (sh_calls st)).
  destruct (C34_failure_proof (S (Z.to_nat t)) (ch_template C (sh_calls st)) s t Ws Ht ltac:(lia) Hg) as [[[u E]|E] F].
  - left. destruct (C34_success_proof (S (Z.to_nat t)) (ch_template C (sh_calls st)) s t u Ws Hg E) as [A1 [A2 [A3 [A4 _]]]].
    rewrite E. destruct (replaced_ok st s u I Es) as [st' [G R']]. exists u, st'. cbn [fresh_result]. rewrite G.
    split; [reflexivity|]. auto.
  - right. split; [rewrite E; reflexivity|]. apply F; auto.
Qed.

(** ** The other commands *)
Lemma ints_map : forall l, ints_of (map VInt l) = Some l.
Proof. induction l as [|x l IH]; cbn; [reflexivity|]. rewrite IH. reflexivity. Qed.
Lemma ints_value : forall v l, v = VSet (map VInt l) \/ v = VTuple (map VInt l) \/ v = VList (map VInt l) -> ints_of_value v = Some l.
Proof. intros v l [-> | [-> | ->]]; apply ints_map. Qed.

Lemma edit_full : forall n name vs f s, edit_call name vs f -> 1 <= box_width s -> 1 <= box_height s -> wf s ->
  full_sudoku C n name s vs = Some (change_result s (f s)) /\ str_mem name own_names = false /\
  dget str_eqb COMMANDS name = Ok [lit "sudoku"].
Proof.
  intros n name vs f s H B1 B2 Ws. destruct H as [r r' k k' v Hr Hk|r r' k k' v l Hr Hk Hv|r r' k k' v l Hr Hk Hv|v b Hv].
  - splits; try reflexivity. change (full_sudoku C n (lit "set") s [r; k; VInt v]) with
      (match int_of_value r, int_of_value k with Some r, Some k => Some (change_result s (setitem s r k v)) | _, _ => None end).
    rewrite (int_value_ok _ _ Hr), (int_value_ok _ _ Hk). reflexivity.
  - splits; try reflexivity. change (full_sudoku C n (lit "set_candidates") s [r; k; v]) with
      (match int_of_value r, int_of_value k, ints_of_value v with
       | Some r, Some k, Some l => Some (change_result s (set_candidates s r k l)) | _, _, _ => None end).
    rewrite (int_value_ok _ _ Hr), (int_value_ok _ _ Hk), (ints_value v l Hv). reflexivity.
  - splits; try reflexivity. change (full_sudoku C n (lit "remove_candidates") s [r; k; v]) with
      (match int_of_value r, int_of_value k, ints_of_value v with
       | Some r, Some k, Some l => Some (change_result s (remove_candidates s r k l)) | _, _, _ => None end).
    rewrite (int_value_ok _ _ Hr), (int_value_ok _ _ Hk), (ints_value v l Hv). reflexivity.
  - splits; try reflexivity. change (full_sudoku C n (lit "init_candidates") s [v]) with
      (match truth v with
       | Some b => match init_candidates s b with Ok t => Some (t, RNone) | Err _ => None end | None => None end).
    rewrite (flag_value_ok _ _ Hv).
    destruct (init_candidates s b) as [t|e] eqn:E; [reflexivity|].
    destruct (init_candidates_ok s b Ws) as [t [E' _]]. congruence.
Qed.

Lemma C95_edit_proof : forall st line c s name vs f, reachable W st -> sh_loop_n st = None ->
  parse W (strip line) = Ok c -> calls c name vs -> edit_call name vs f -> current st = Some s ->
  1 <= box_width s -> 1 <= box_height s ->
  (forall t, f s = Ok t -> execute_part 2 W st line = done (next_call (set_heap st (list_upd (sh_cur st) t (sh_heap st))))) /\
  (forall e, f s = Err e -> execute_part 2 W st line = error (next_call st) (MExn e)).
Proof.
  intros st line c s name vs f R L P K H Es B1 B2. pose proof (current_wf st s R Es B1 B2) as Ws.
  destruct (edit_full (sh_calls st) name vs f s H B1 B2 Ws) as [F [Nm D]].
  rewrite (full_call 1 st line c _ _ _ L P K Nm D). unfold call_by. unfold current in Es.
  rewrite !(own_false name) by (auto; cbn; tauto).
  change (str_mem (lit "sudoku") [lit "sudoku"]) with true. cbv iota. rewrite Es, F. split.
  - intros t ->. reflexivity.
  - intros e E. rewrite E. cbn [change_result handle_result]. rewrite (LShell6.list_upd_same _ _ _ Es), set_heap_same.
    cbn [catch]. replace (is_exception e) with true; [reflexivity|]. symmetry.
    destruct H.
    + exact (exn_setitem _ _ _ _ _ E).
    + exact (exn_set_candidates _ _ _ _ _ E).
    + exact (exn_remove_candidates _ _ _ _ _ E).
    + destruct (init_candidates_ok s b Ws) as [t [E' _]]. congruence.
Qed.

Lemma C95_show_proof : forall st line c s name vs f, sh_loop_n st = None ->
  parse W (strip line) = Ok c -> calls c name vs -> show_call name vs f -> current st = Some s ->
  (forall t, f s = Ok t -> execute_part 2 W st line = done (add_out (next_call st) (t ++ [10]))) /\
  (forall e, f s = Err e -> execute_part 2 W st line = error (next_call st) (MExn e)).
Proof.
  intros st line c s name vs f L P K H Es.
  assert (X : full_sudoku C (sh_calls st) name s vs = Some (text_result s (f s)) /\ str_mem name own_names = false /\
              dget str_eqb COMMANDS name = Ok [lit "sudoku"]).
  { destruct H as [|r k v b Hv|v b x p u a Hv Hu]; splits; try reflexivity.
    - change (full_sudoku C (sh_calls st) (lit "encode") s [VStr r; VStr k; v]) with
        (match truth v with Some b => Some (text_result s (encode s r k b)) | None => None end).
      rewrite (flag_value_ok _ _ Hv). reflexivity.
    - change (full_sudoku C (sh_calls st) (lit "view") s [v; x; VStr p; u]) with
        (match truth v, truth u with Some ic, Some ar => Some (text_result s (view s ic None p ar)) | _, _ => None end).
      rewrite (flag_value_ok _ _ Hv), (flag_value_ok _ _ Hu). reflexivity. }
  destruct X as [F [Nm D]]. rewrite (full_call 1 st line c _ _ _ L P K Nm D).
  rewrite (call_by_sudoku _ st name [lit "sudoku"] vs s _ Nm eq_refl Es F). split.
  - intros t ->. reflexivity.
  - intros e E. rewrite E. cbn [handle_result catch]. replace (is_exception e) with true; [reflexivity|]. symmetry.
    destruct H; [exact (exn_view s false None (lit "*") true e E)|exact (exn_encode _ _ _ _ _ E)|exact (exn_view _ _ _ _ _ _ E)].
Qed.

Lemma C95_get_proof : forall st line c s vr vk r k, sh_loop_n st = None ->
  parse W (strip line) = Ok c -> (calls c (lit "get") [vr; vk] \/ calls c (lit "get_candidates") [vr; vk]) -> int_value vr r -> int_value vk k -> current st = Some s ->
  0 <= r < Z.of_nat (length (s_numbers s)) -> 0 <= k < Z.of_nat (length (s_numbers s)) -> sudoku_ok s ->
  execute_part 2 W st line = error (next_call st) (MExn TypeError).
Proof.
  intros st line c s vr vk r k L P K Hvr Hvk Es Hr Hk [S1 [S2 [S3 [S4 _]]]].
  assert (G : forall A (rows : list (list A)), length rows = length (s_numbers s) ->
            (forall row, In row rows -> length row = length (s_numbers s)) ->
            exists v, (let* row := list_get rows r in list_get row k) = Ok v).
  { intros A rows H1 H2. assert (X : forall B (l : list B) i, 0 <= i < Z.of_nat (length l) -> exists v, list_get l i = Ok v /\ In v l).
    { intros B l i Hi. unfold list_get, py_idx. rewrite (proj2 (Z.leb_le _ _)), (proj2 (Z.ltb_lt _ _)) by (unfold py_len; lia).
      cbn [andb rbind]. destruct (nth_error l (Z.to_nat i)) as [v|] eqn:E.
      - exists v. split; auto. eapply nth_error_In; eauto.
      - apply nth_error_None in E. lia. }
    destruct (X _ rows r) as [row [E1 I1]]; [rewrite H1; lia|]. rewrite E1. cbn [rbind].
    destruct (X _ row k) as [v [E2 _]]; [rewrite (H2 _ I1); lia|]. eauto. }
  rewrite S1 in G. destruct K as [K|K].
  - rewrite (full_call 1 st line c _ _ _ L P K eq_refl eq_refl).
    rewrite (call_by_sudoku _ st (lit "get") [lit "sudoku"] [vr; vk] s (match getitem s r k with Ok _ => ROther | Err e => RRaise e end) eq_refl eq_refl Es);
      [|change (full_sudoku C (sh_calls st) (lit "get") s [vr; vk]) with
          (match int_of_value vr, int_of_value vk with
           | Some r, Some k => Some (object_result s (getitem s r k)) | _, _ => None end);
        rewrite (int_value_ok _ _ Hvr), (int_value_ok _ _ Hvk); reflexivity].
    destruct (G _ (s_numbers s) S1 S2) as [v E]. unfold getitem. cbn [fst snd]. rewrite E. reflexivity.
  - rewrite (full_call 1 st line c _ _ _ L P K eq_refl eq_refl).
    rewrite (call_by_sudoku _ st (lit "get_candidates") [lit "sudoku"] [vr; vk] s (match get_candidates s r k with Ok _ => ROther | Err e => RRaise e end) eq_refl eq_refl Es);
      [|change (full_sudoku C (sh_calls st) (lit "get_candidates") s [vr; vk]) with
          (match int_of_value vr, int_of_value vk with
           | Some r, Some k => Some (object_result s (get_candidates s r k)) | _, _ => None end);
        rewrite (int_value_ok _ _ Hvr), (int_value_ok _ _ Hvk); reflexivity].
    destruct (G _ (s_candidates s) S3 S4) as [v E]. unfold get_candidates. rewrite E. reflexivity.
Qed.

Lemma C95_fresh_proof : forall st line c name vs r, reachable W st -> sh_loop_n st = None ->
  parse W (strip line) = Ok c -> calls c name vs -> fresh_call name vs r ->
  (forall u, r = Ok u -> exists st', execute_part 2 W st line = done st' /\ replaced st st' u) /\
  (forall e, r = Err e -> execute_part 2 W st line = error (next_call st) (MExn e)).
Proof.
  intros st line c name vs r R L P K H. pose proof (inv_reachable W full_world_ok st R) as I.
  assert (X : full_fun docs C (sh_calls st) name vs = Some (fresh_result r) /\ str_mem name own_names = false /\
              dget str_eqb COMMANDS name = Ok []).
  { destruct H as [b w h Hb|t e ns x ss cs b y He Hx Hb]; splits; try reflexivity.
    - change (full_fun docs C (sh_calls st) (lit "new") [b]) with
        (match box_size_of b with Some bs => Some (RFresh (new_sudoku bs)) | None => None end).
      rewrite (box_value _ _ _ Hb). reflexivity.
    - change (full_fun docs C (sh_calls st) (lit "decode") [VStr t; VStr [e]; x; VStr ss; VStr cs; b]) with
        (if (0 <=? e) && (e <? 128) then
          match (match x with VNone => Some [] | VStr x => Some x | _ => None end),
                (match b with VNone => Some None | _ => option_map Some (box_size_of b) end) with
          | Some ns, Some b => Some (fresh_result (decode t [e] ns ss cs b))
          | _, _ => None
          end
        else None).
      rewrite (proj2 (Z.leb_le _ _)), (proj2 (Z.ltb_lt _ _)) by lia. cbn [andb].
      replace (match x with VNone => Some [] | VStr x => Some x | _ => None end) with (Some ns)
        by (destruct Hx as [[-> ->]| ->]; reflexivity).
      replace (match b with VNone => Some None | _ => option_map Some (box_size_of b) end) with (Some y)
        by (destruct Hb as [[-> ->]|[w [h [[-> | ->] ->]]]]; reflexivity).
      reflexivity. }
  destruct X as [F [Nm D]]. rewrite (full_call 1 st line c _ _ _ L P K Nm D).
  rewrite (call_by_fun _ st name [] vs _ Nm eq_refl F). split.
  - intros u ->. destruct (current_some st I) as [s [Es _]]. destruct (replaced_ok st s u I Es) as [st' [G R']].
    exists st'. cbn [fresh_result]. rewrite G. split; [reflexivity|auto].
  - intros e E. rewrite E. cbn [fresh_result handle_result catch]. replace (is_exception e) with true; [reflexivity|].
    symmetry. destruct H as [|t e' ns x ss cs b y He Hx Hb]; [discriminate|].
    exact (proj1 (decode_ok t [e'] ns ss cs y) e E).
Qed.

(** ** help *)
Lemma help_fun : forall n c v t, help_command docs c v = Some (Ok t) -> full_fun docs C n (lit "help") [c; v] = Some (RText t).
Proof.
  intros n c v t H. change (full_fun docs C n (lit "help") [c; v]) with
    (match help_command docs c v with Some (Ok t) => Some (RText t) | Some (Err e) => Some (RRaise e) | None => None end).
  rewrite H. reflexivity.
Qed.
Lemma help_fun_err : forall n c v e, help_command docs c v = Some (Err e) -> full_fun docs C n (lit "help") [c; v] = Some (RRaise e).
Proof.
  intros n c v t H. change (full_fun docs C n (lit "help") [c; v]) with
    (match help_command docs c v with Some (Ok t) => Some (RText t) | Some (Err e) => Some (RRaise e) | None => None end).
  rewrite H. reflexivity.
Qed.

Lemma C91_all_proof : forall st line c v b, sh_loop_n st = None -> parse W (strip line) = Ok c ->
  calls c (lit "help") [VNone; v] -> truth v = Some b ->
  exists t, execute_part 2 W st line = done (add_out (next_call st) (t ++ [10])) /\ help_text docs COMMANDS_HELP t.
Proof.
  intros st line c v b L P K V. rewrite (full_call 1 st line c _ _ _ L P K eq_refl eq_refl).
  destruct (help_all_ok docs VNone v eq_refl) as [t [E H]]; [congruence|].
  rewrite (call_by_fun _ st (lit "help") [lit "shell"] _ _ eq_refl eq_refl (help_fun _ _ _ _ E)). exists t. split; [reflexivity|auto].
Qed.

Lemma C91_one_proof : forall st line c name v b, sh_loop_n st = None -> parse W (strip line) = Ok c ->
  calls c (lit "help") [VCommand name; v] -> truth v = Some b -> In name (dkeys COMMANDS) ->
  exists line1 rest, help_line docs name line1 /\ other_lines (docs name) rest /\
    execute_part 2 W st line = done (add_out (next_call st) ((if b then line1 ++ rest else line1) ++ [10])).
Proof.
  intros st line c name v b L P K V N. rewrite (full_call 1 st line c _ _ _ L P K eq_refl eq_refl).
  destruct (help_one_ok docs name b) as [l [r [A [B E]]]]. { destruct help_names as [_ [_ ->]]. auto. }
  exists l, r. splits; auto.
  rewrite (call_by_fun _ st (lit "help") [lit "shell"] _ (RText (if b then l ++ r else l)) eq_refl eq_refl); [reflexivity|].
  apply help_fun. unfold help_command. rewrite V. cbn [truth]. rewrite E. reflexivity.
Qed.

Lemma C91_bad_proof : forall st line c v w b, sh_loop_n st = None -> parse W (strip line) = Ok c ->
  calls c (lit "help") [v; w] -> truth v = Some true -> truth w = Some b -> (forall name, v <> VCommand name) ->
  (v = VKeyword (lit "end") -> execute_part 2 W st line = error (next_call st) (MExn KeyError)) /\
  ((forall k, v <> VKeyword k) -> execute_part 2 W st line = error (next_call st) (MExn AttributeError)).
Proof.
  intros st line c v w b L P K V1 V2 N. rewrite (full_call 1 st line c _ _ _ L P K eq_refl eq_refl).
  split; intros H.
  - subst. rewrite (call_by_fun _ st (lit "help") [lit "shell"] _ (RRaise KeyError) eq_refl eq_refl); [reflexivity|].
    apply help_fun_err. unfold help_command. rewrite V2. cbn [truth]. reflexivity.
  - rewrite (call_by_fun _ st (lit "help") [lit "shell"] _ (RRaise AttributeError) eq_refl eq_refl); [reflexivity|].
    apply help_fun_err. unfold help_command. rewrite V1, V2.
    destruct v; auto; exfalso; [eapply H|eapply N]; eauto.
Qed.
End Full.
