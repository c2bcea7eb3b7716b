(** What commands print; arguments that crash the shell. *)
From Verif Require Export LShellLib.

Lemma list_upd_same : forall {A} (l : list A) k x, nth_error l k = Some x -> list_upd k x l = l.
Proof.
  intros A l. induction l as [|y l IH]; intros k x H; destruct k; cbn in *; auto; try discriminate.
  - inv H. auto.
  - f_equal. auto.
Qed.
Lemma set_heap_same : forall st, set_heap st (sh_heap st) = st.
Proof. intros []; reflexivity. Qed.

Section Text.
Variable W : world.
Hypothesis HW : world_ok W.

Lemma parse_special : forall s c, parse W s = Ok c -> dget str_eqb COMMANDS (c_func c) = Ok (c_special c).
Proof.
  intros s c E. unfold parse in E. destruct (PyStr.split (lit " ") s) as [items|]; cbn [rbind] in E; [|discriminate].
  destruct items as [|f rest]; [discriminate|].
  destruct (foldM (parse_item W) rest ([], [])) as [[args kw]|]; cbn [rbind] in E; [|discriminate].
  destruct (dget str_eqb COMMANDS f) as [sp|] eqn:D; cbn [rbind] in E; [|discriminate].
  destruct (forallb _ sp); [|discriminate]. inv E. auto.
Qed.

(** The commands that call a library function with the sudoku *)
Lemma library_call : forall f st c, In (lit "sudoku") (c_special c) -> dget str_eqb COMMANDS (c_func c) = Ok (c_special c) ->
  forall s s' r, current st = Some s -> w_sudoku W (sh_calls st) (c_func c) s (c_args c) (c_kwargs c) = (s', r) ->
  execute (S f) W st c = catch (handle_result (next_call (set_heap st (list_upd (sh_cur st) s' (sh_heap st)))) r).
Proof.
  intros f st c I D s s' r Es Er.
  assert (X : forall name, (forall sp, dget str_eqb COMMANDS name = Ok sp -> ~ In (lit "sudoku") sp) -> str_eqb (c_func c) name = false).
  { intros name H. destruct (str_eqb (c_func c) name) eqn:E; auto. apply str_eqb_eq in E. rewrite E in D. exfalso. eapply H; eauto. }
  assert (Y : forall name, dget str_eqb COMMANDS name = Ok [lit "shell"] -> str_eqb (c_func c) name = false).
  { intros name H. apply X. intros sp H1 H2. rewrite H in H1. inv H1. destruct H2 as [H2|[]]. discriminate. }
  rewrite execute_S. f_equal. unfold call.
  rewrite (Y (lit "loop")), (Y (lit "exit")), (Y (lit "push")), (Y (lit "pop")), (Y (lit "stack")) by reflexivity.
  assert (M : str_mem (lit "sudoku") (c_special c) = true) by (apply str_mem_In; auto).
  rewrite M. unfold current in Es. rewrite Es, Er. reflexivity.
Qed.

Lemma text_printed : forall st line c s s' t, shell_inv st -> sh_loop_n st = None ->
  parse W (strip line) = Ok c -> In (lit "sudoku") (c_special c) -> current st = Some s ->
  w_sudoku W (sh_calls st) (c_func c) s (c_args c) (c_kwargs c) = (s', RText t) ->
  exists st', execute_part 2 W st line = done st' /\ sh_out st' = sh_out st ++ t ++ [10] /\
    sh_err st' = sh_err st /\ current st' = Some s' /\ sh_cur st' = sh_cur st /\ sh_stack st' = sh_stack st.
Proof.
  intros st line c s s' t I E P Hin Es Er. rewrite (part_execute W 2 st line c I E P).
  rewrite (library_call 1 st c Hin (parse_special _ _ P) s s' (RText t) Es Er). cbn [handle_result shell_print catch done].
  eexists. split; [reflexivity|]. cbn. splits; auto. unfold current. cbn [sh_heap sh_cur next_call set_heap add_out].
  unfold current in Es. clear -Es. revert Es. generalize (sh_cur st). induction (sh_heap st) as [|y l IH]; intros [|k] H; cbn in *; try discriminate; auto.
Qed.
End Text.

Section Lib.
Variable O : world.
Hypothesis HO : world_ok O.
Notation W := (std_world O).

Lemma lib_part : forall st line name args s r, shell_inv st -> sh_loop_n st = None ->
  parse W (strip line) = Ok (mkCommand name [lit "sudoku"] args []) -> current st = Some s ->
  lib_sudoku name s args = Some (s, r) ->
  execute_part 2 W st line = catch (handle_result (next_call st) r).
Proof.
  intros st line name args s r I E P Es L. rewrite (part_execute W 2 st line _ I E P).
  rewrite (library_call W 1 st (mkCommand name [lit "sudoku"] args []) (or_introl eq_refl) (parse_special _ _ _ P) s s r Es).
  - rewrite list_upd_same by (exact Es). rewrite set_heap_same. reflexivity.
  - cbn [std_world w_sudoku c_func c_args c_kwargs]. rewrite L. reflexivity.
Qed.

Lemma get_fails : forall st line r c s v, shell_inv st -> sh_loop_n st = None ->
  parse W (strip line) = Ok (mkCommand (lit "get") [lit "sudoku"] [VInt r; VInt c] []) -> current st = Some s ->
  getitem s r c = Ok v -> execute_part 2 W st line = error (next_call st) (MExn TypeError).
Proof.
  intros st line r c s v I E P Es G. rewrite (lib_part st line _ _ s ROther I E P Es).
  - reflexivity.
  - cbn [lib_sudoku]. unfold object_result. unfold lib_sudoku. change (str_eqb (lit "get") (lit "get")) with true. cbv iota. rewrite G. reflexivity.
Qed.
Lemma get_candidates_fails : forall st line r c s v, shell_inv st -> sh_loop_n st = None ->
  parse W (strip line) = Ok (mkCommand (lit "get_candidates") [lit "sudoku"] [VInt r; VInt c] []) -> current st = Some s ->
  get_candidates s r c = Ok v -> execute_part 2 W st line = error (next_call st) (MExn TypeError).
Proof.
  intros st line r c s v I E P Es G. rewrite (lib_part st line _ _ s ROther I E P Es).
  - reflexivity.
  - unfold lib_sudoku. change (str_eqb (lit "get_candidates") (lit "get")) with false.
    change (str_eqb (lit "get_candidates") (lit "set")) with false. change (str_eqb (lit "get_candidates") (lit "get_candidates")) with true.
    cbv iota. unfold object_result. rewrite G. reflexivity.
Qed.
Lemma print_shows : forall st line s t, shell_inv st -> sh_loop_n st = None ->
  parse W (strip line) = Ok (mkCommand (lit "print") [lit "sudoku"] [] []) -> current st = Some s ->
  sudoku_str s = Ok t -> execute_part 2 W st line = done (add_out (next_call st) (t ++ [10])).
Proof.
  intros st line s t I E P Es G. rewrite (lib_part st line _ _ s (RText t) I E P Es); [reflexivity|].
  change (lib_sudoku (lit "print") s []) with (Some (text_result s (sudoku_str s))). rewrite G. reflexivity.
Qed.
Lemma encode_shows : forall st line s t, shell_inv st -> sh_loop_n st = None ->
  parse W (strip line) = Ok (mkCommand (lit "encode") [lit "sudoku"] [] []) -> current st = Some s ->
  MCodec.encode s [] [] false = Ok t -> execute_part 2 W st line = done (add_out (next_call st) (t ++ [10])).
Proof.
  intros st line s t I E P Es G. rewrite (lib_part st line _ _ s (RText t) I E P Es); [reflexivity|].
  change (lib_sudoku (lit "encode") s []) with (Some (text_result s (MCodec.encode s [] [] false))). rewrite G. reflexivity.
Qed.
Lemma view_shows : forall st line s t, shell_inv st -> sh_loop_n st = None ->
  parse W (strip line) = Ok (mkCommand (lit "view") [lit "sudoku"] [] []) -> current st = Some s ->
  view s true None (lit "*") true = Ok t -> execute_part 2 W st line = done (add_out (next_call st) (t ++ [10])).
Proof.
  intros st line s t I E P Es G. rewrite (lib_part st line _ _ s (RText t) I E P Es); [reflexivity|].
  change (lib_sudoku (lit "view") s []) with (Some (text_result s (view s true None (lit "*") true))). rewrite G. reflexivity.
Qed.
End Lib.

(** ** A crash *)
Lemma literal_crash : forall W f st line name x rest e, split_go (lit " ") (strip line) 0 = name :: x :: rest ->
  w_literal W x = LitRaise e -> e <> KeyError -> e <> ValueError -> cut (lit "=") x = None ->
  ~ In x (dkeys COMMANDS) -> ~ In x SHELL_KEYWORDS ->
  execute_part f W st line = (st, Some e).
Proof.
  intros W f st line name x rest e S L K V C N1 N2. unfold execute_part.
  assert (P : parse W (strip line) = Err e).
  { unfold parse. unfold PyStr.split. change (lit " ") with [32] in *. cbn [rbind]. rewrite S. cbn [foldM].
    unfold parse_item at 1. rewrite C.
    destruct (str_mem x (dkeys COMMANDS)) eqn:M; [apply str_mem_In in M; contradiction|].
    destruct (str_mem x SHELL_KEYWORDS) eqn:M2; [apply str_mem_In in M2; contradiction|].
    unfold literal. rewrite L. reflexivity. }
  rewrite P. destruct e; congruence.
Qed.
