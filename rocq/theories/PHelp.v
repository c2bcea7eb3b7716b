(** Properties C90-C95: help, arguments and the library functions in the shell.  Statements use only the model functions
    and the specification files; the proofs are in the L*.v files. *)
From Verif Require Import SpecHelp LHelp LShellFull LShell2 PGenerate.

(** For the examples: literal_eval understands decimal numbers and a few other texts. *)
Definition help_literal (s : pystr) : lit_result :=
  if str_eqb s (lit "(2,2)") then LitOk (VTuple [VInt 2; VInt 2])
  else if str_eqb s (lit "(-1,-2)") then LitOk (VTuple [VInt (-1); VInt (-2)])
  else if str_eqb s (lit "{2,3}") then LitOk (VSet [VInt 2; VInt 3])
  else if str_eqb s (lit "'rotate-180'") then LitOk (VStr (lit "rotate-180"))
  else if str_eqb s (lit "'/'") then LitOk (VStr (lit "/"))
  else if str_eqb s (lit "'.2..4..........1'") then LitOk (VStr (lit ".2..4..........1"))
  else if str_eqb s (lit "'.'") then LitOk (VStr (lit "."))
  else if str_eqb s (lit "False") then LitOk (VBool false)
  else match int_of_str s with Ok n => LitOk (VInt n) | Err _ => LitInvalid end.
Definition help_other : world := mkWorld help_literal (fun _ => Err TypeError) (fun _ _ _ _ => RNone) (fun _ _ s _ _ => (s, RNone)).
Definition help_docs (name : pystr) : option pystr :=
  if str_eqb name (lit "new") then None else Some (lit " The first line. " ++ [10] ++ lit "More." ++ [10] ++ lit "End.").
Definition help_chance : chance :=
  mkChance (fun _ => go_ex) (fun _ _ => (co_ex, fun _ l => l)) (fun _ _ l => l).
Lemma help_other_ok : world_ok help_other.
Proof.
  constructor; cbn [help_other w_fun w_sudoku w_int w_literal fst snd]; auto; try (intros; exact I).
  - intros k e E. inversion E. reflexivity.
  - intros s e. unfold help_literal. repeat destruct (str_eqb s _); try discriminate. destruct (int_of_str s); discriminate.
Qed.
Lemma help_chance_ok : chance_ok help_chance.
Proof. split; [|split]; intros; cbn; auto; [apply go_ex_ok|]. split; auto. apply co_ex_ok. Qed.
Definition help_world : world := full_world help_docs help_chance help_other.
(** The state after some commands *)
Definition help_after (ls : list pystr) : shell := fst (do_each (execute_part 2 help_world) ls (new_shell true)).
Definition help_numbers (st : shell) : option (list (list Z)) := option_map s_numbers (current st).

(** C90: the shown signature is right if there are no default values, as many as parameters, or half as many. *)
Theorem C90_signature_partial : forall f, let n := length (shown_args f) in let d := length (f_defaults f) in
  d = 0%nat \/ n = d \/ n = (2 * d)%nat -> signature_str f = Ok (signature_of (shown_args f) (f_defaults f)).
Proof. exact C90_right_proof. Qed.
Print Assumptions C90_signature_partial.
(** C90: in general the default values are shown in a rotated order, or the signature fails with IndexError. *)
Theorem C90_rotated : forall f, let n := length (shown_args f) in let d := length (f_defaults f) in (d <= n)%nat ->
  (d = 0%nat -> signature_str f = Ok (signature_of (shown_args f) [])) /\
  ((0 < d)%nat -> (n <= 2 * d)%nat -> signature_str f = Ok (signature_of (shown_args f) (rotate (n mod d) (f_defaults f)))) /\
  ((0 < d)%nat -> (2 * d < n)%nat -> signature_str f = Err IndexError).
Proof. exact C90_general_proof. Qed.
Print Assumptions C90_rotated.
(** C90: of the commands of the shell, exactly decode, encode, view and help are shown with wrong default values. *)
Theorem C90_commands_refuted : forall name f, In (name, f) SPECS ->
  (signature_str f = Ok (signature_of (shown_args f) (f_defaults f)) <->
   ~ In name [lit "decode"; lit "encode"; lit "view"; lit "help"]).
Proof.
  intros name f H. unfold SPECS in H. cbn [In] in H.
  repeat destruct H as [H|H]; try contradiction; injection H as <- <-; split; intros H;
    try (vm_compute; reflexivity);
    try (vm_compute in H; discriminate);
    try (exfalso; apply H; vm_compute; tauto);
    intros X; vm_compute in X; intuition discriminate.
Qed.
Print Assumptions C90_commands_refuted.
(** C90: what is shown for each command *)
Theorem C90_table : map (fun x => (fst x, signature_str (snd x))) SPECS = map (fun x => (fst x, Ok (snd x)))
  [(lit "new", lit "self box_size=(3, 3)"); (lit "generate", lit "min_count=0 symmetry=None box_size=(3, 3)");
   (lit "generate_from_template", lit "template tries=100");
   (lit "decode", lit "s empty=None number_sep='|' sudoku_sep=',' candidate_sep=None box_size='0'");
   (lit "get", lit "self row col"); (lit "set", lit "self row col value"); (lit "set_candidates", lit "self row col value");
   (lit "get_candidates", lit "self row col"); (lit "remove_candidates", lit "self row col value");
   (lit "init_candidates", lit "sudoku filled_only=False"); (lit "encode", lit "self row_sep='' col_sep=False include_candidates=''");
   (lit "print", lit "self"); (lit "clear", []);
   (lit "view", lit "sudoku include_candidates=None number_sep='*' candidate_prefix=True align_right=True");
   (lit "solve", lit "self sudoku"); (lit "loop", lit "self n"); (lit "stack", lit "self"); (lit "push", lit "self");
   (lit "pop", lit "self position=None"); (lit "help", lit "self command=True verbose=None"); (lit "exit", lit "self")].
Proof. vm_compute. reflexivity. Qed.
Print Assumptions C90_table.
(** C90: how default values are written *)
Theorem C90_values : repr_value VNone = lit "None" /\ repr_value (VBool true) = lit "True" /\ repr_value (VBool false) = lit "False" /\
  (forall n, repr_value (VInt n) = str_of_int n) /\ (forall s, repr_value (VStr s) = lit "'" ++ s ++ lit "'") /\
  (forall x, repr_value (VTuple [x]) = lit "(" ++ repr_value x ++ lit ",)") /\
  (forall l, length l <> 1%nat -> repr_value (VTuple l) = lit "(" ++ join (lit ", ") (map repr_value l) ++ lit ")").
Proof.
  split; [reflexivity|]. split; [reflexivity|]. split; [reflexivity|]. split; [reflexivity|]. split; [reflexivity|]. split; [reflexivity|].
  intros [|x [|y l]] H; [reflexivity|destruct (H eq_refl)|reflexivity].
Qed.
Print Assumptions C90_values.
Example C90_ex : exists f, In (lit "encode", f) SPECS /\ signature_str f = Ok (lit "self row_sep='' col_sep=False include_candidates=''") /\
  signature_of (shown_args f) (f_defaults f) = lit "self row_sep='' col_sep='' include_candidates=False".
Proof. eexists. split; [unfold SPECS; cbn [In]; do 10 right; left; reflexivity|]. split; [> vm_compute; reflexivity ..]. Qed.

(** C91: help prints the list of commands. *)
Theorem C91_all : forall docs C O st line c v b, sh_loop_n st = None -> parse (full_world docs C O) (strip line) = Ok c ->
  calls c (lit "help") [VNone; v] -> truth v = Some b ->
  exists t, execute_part 2 (full_world docs C O) st line = done (add_out (next_call st) (t ++ [10])) /\ help_text docs COMMANDS_HELP t.
Proof. exact C91_all_proof. Qed.
Print Assumptions C91_all.
(** C91: the list contains every command exactly once. *)
Theorem C91_names : Permutation (concat (map snd COMMANDS_HELP)) (dkeys COMMANDS) /\ NoDup (dkeys COMMANDS) /\ dkeys SPECS = dkeys COMMANDS.
Proof. exact help_names. Qed.
Print Assumptions C91_names.
(** C91: help with a command prints its line and, if verbose, the rest of its documentation without a line break in between. *)
Theorem C91_one : forall docs C O st line c name v b, sh_loop_n st = None -> parse (full_world docs C O) (strip line) = Ok c ->
  calls c (lit "help") [VCommand name; v] -> truth v = Some b -> In name (dkeys COMMANDS) ->
  exists line1 rest, help_line docs name line1 /\ other_lines (docs name) rest /\
    execute_part 2 (full_world docs C O) st line = done (add_out (next_call st) ((if b then line1 ++ rest else line1) ++ [10])).
Proof. exact C91_one_proof. Qed.
Print Assumptions C91_one.
(** C91: help with anything else (that is not false) is an error. *)
Theorem C91_bad : forall docs C O st line c v w b, sh_loop_n st = None -> parse (full_world docs C O) (strip line) = Ok c ->
  calls c (lit "help") [v; w] -> truth v = Some true -> truth w = Some b -> (forall name, v <> VCommand name) ->
  (v = VKeyword (lit "end") -> execute_part 2 (full_world docs C O) st line = error (next_call st) (MExn KeyError)) /\
  ((forall k, v <> VKeyword k) -> execute_part 2 (full_world docs C O) st line = error (next_call st) (MExn AttributeError)).
Proof. exact C91_bad_proof. Qed.
Print Assumptions C91_bad.
Example C91_ex :
  sh_out (help_after [lit "help push"]) = lit "push self: The first line.More." ++ [10] ++ lit "End." ++ [10] /\
  sh_out (help_after [lit "help verbose=0 command=new"]) = [] /\
  sh_err (help_after [lit "help verbose=0 command=new"]) = [MExn ValueError] /\
  sh_out (help_after [lit "help new 0"]) = lit "new self box_size=(3, 3): (Not documented)" ++ [10] /\
  sh_err (help_after [lit "help end"; lit "help 5"]) = [MExn KeyError; MExn AttributeError] /\
  firstn 40 (sh_out (help_after [lit "help"])) = lit "Creating sudokus:" ++ [10] ++ lit " - new self box_size=(".
Proof. splits; vm_compute; reflexivity. Qed.

(** C92: a call has values for its parameters exactly if every argument has a parameter of its own and all other parameters have default values. *)
Theorem C92_bind : forall ps args kw, NoDup (map fst kw) ->
  (forall vs, bind ps args kw = Ok vs <-> binds ps args kw vs) /\
  (forall e, bind ps args kw = Err e -> e = TypeError).
Proof. exact C92_bind_proof. Qed.
Print Assumptions C92_bind.
(** C92: the parameters of the commands. *)
Theorem C92_parameters : map (fun x => (fst x, params (snd x))) SPECS = PARAMETERS.
Proof. vm_compute. reflexivity. Qed.
Print Assumptions C92_parameters.
(** C92: two command lines that give the same values to the parameters of a command have the same effect. *)
Theorem C92_same : forall docs C O n st line1 line2 c1 c2 name vs, sh_loop_n st = None ->
  parse (full_world docs C O) (strip line1) = Ok c1 -> parse (full_world docs C O) (strip line2) = Ok c2 ->
  calls c1 name vs -> calls c2 name vs ->
  execute_part n (full_world docs C O) st line1 = execute_part n (full_world docs C O) st line2.
Proof. exact C92_same_proof. Qed.
Print Assumptions C92_same.
(** C92: all others report TypeError and change nothing. *)
Theorem C92_bad : forall docs C O, world_ok O -> chance_ok C ->
  forall st line c, reachable (full_world docs C O) st -> sh_loop_n st = None -> parse (full_world docs C O) (strip line) = Ok c ->
  (forall vs, ~ calls c (c_func c) vs) ->
  execute_part 2 (full_world docs C O) st line = error st (MExn TypeError) \/
  execute_part 2 (full_world docs C O) st line = error (next_call st) (MExn TypeError).
Proof. exact C92_bad_proof. Qed.
Print Assumptions C92_bad.
Example C92_ex : exists c1 c2 f, In (lit "set", f) SPECS /\
  parse help_world (strip (lit "set 0 1 4")) = Ok c1 /\ parse help_world (strip (lit "set value=4 row=0 col=1")) = Ok c2 /\
  c_args c2 = [] /\ length (c_kwargs c2) = 3%nat /\
  bind (params f) (c_args c1) (c_kwargs c1) = Ok [VInt 0; VInt 1; VInt 4] /\
  bind (params f) (c_args c2) (c_kwargs c2) = Ok [VInt 0; VInt 1; VInt 4] /\
  help_numbers (help_after [lit "new (2,2)"; lit "set value=4 row=0 col=1"]) =
    Some [[0; 4; 0; 0]; [0; 0; 0; 0]; [0; 0; 0; 0]; [0; 0; 0; 0]] /\
  sh_err (help_after [lit "set 0 1"; lit "set 0 1 4 row=0"; lit "set 0 1 4 x=0"; lit "pop x=1"; lit "loop"]) =
    repeat (MExn TypeError) 5.
Proof.
  eexists. eexists. eexists. split; [unfold SPECS; cbn [In]; do 5 right; left; reflexivity|].
  split; [vm_compute; reflexivity|]. split; [vm_compute; reflexivity|].
  splits; vm_compute; reflexivity.
Qed.

(** C93: solve replaces the current sudoku by one of its completions; if there is none, StopIteration is reported and nothing changes. *)
Theorem C93_solve : forall docs C O, world_ok O -> chance_ok C ->
  forall st line c s, reachable (full_world docs C O) st -> sh_loop_n st = None -> parse (full_world docs C O) (strip line) = Ok c ->
  calls c (lit "solve") [] -> current st = Some s -> 1 <= box_width s -> 1 <= box_height s ->
  (exists u st', execute_part 2 (full_world docs C O) st line = done st' /\ replaced st st' u /\ wf u /\ box_size u = box_size s /\ completion s (num u)) \/
  ((forall f, ~ completion s f) /\ execute_part 2 (full_world docs C O) st line = error (next_call st) (MExn StopIteration)).
Proof. exact C93_proof. Qed.
Print Assumptions C93_solve.
Example C93_ex :
  help_numbers (help_after [lit "new (2,2)"; lit "set 0 0 2"; lit "solve"]) =
    Some [[2; 1; 3; 4]; [3; 4; 1; 2]; [1; 2; 4; 3]; [4; 3; 2; 1]] /\
  let st := help_after [lit "new (2,2)"; lit "set 0 0 2"; lit "set 0 1 2"; lit "solve"] in
  help_numbers st = Some [[2; 2; 0; 0]; [0; 0; 0; 0]; [0; 0; 0; 0]; [0; 0; 0; 0]] /\ sh_err st = [MExn StopIteration].
Proof. cbv zeta. splits; vm_compute; reflexivity. Qed.

(** C94: generate replaces the current sudoku by a puzzle with exactly one solution, the requested symmetry and at least min_count numbers. *)
Theorem C94_generate : forall docs C O, world_ok O -> chance_ok C ->
  forall st line c m m' y b w h y', reachable (full_world docs C O) st -> sh_loop_n st = None ->
  parse (full_world docs C O) (strip line) = Ok c -> calls c (lit "generate") [m; y; b] -> int_value m m' ->
  box_size_value b w h -> 1 <= w -> 1 <= h -> In (y, y') symmetry_names -> m' <= w ^ 2 * h ^ 2 ->
  exists u st' n, execute_part 2 (full_world docs C O) st line = done st' /\ replaced st st' u /\ wf u /\ box_size u = (w, h) /\ unique_solution u /\
    count u = Ok n /\ m' <= n /\
    (forall g p, In g (sym_maps (w * h) y') -> field u p -> field u (g p) /\ (num u p = 0 <-> num u (g p) = 0)).
Proof. exact C94_generate_proof. Qed.
Print Assumptions C94_generate.
(** C94: too many numbers or an unknown symmetry is reported as ValueError. *)
Theorem C94_generate_bad : forall docs C O, world_ok O -> chance_ok C ->
  forall st line c m m' y b w h, reachable (full_world docs C O) st -> sh_loop_n st = None ->
  parse (full_world docs C O) (strip line) = Ok c -> calls c (lit "generate") [m; y; b] -> int_value m m' ->
  box_size_value b w h ->
  ((exists y', In (y, y') symmetry_names) /\ w ^ 2 * h ^ 2 < m') \/ ((exists t, y = VStr t) \/ (exists i, int_value y i)) /\ (forall y', ~ In (y, y') symmetry_names) ->
  execute_part 2 (full_world docs C O) st line = error (next_call st) (MExn ValueError).
Proof. intros docs C O _ _. exact (C94_generate_bad_proof docs C O). Qed.
Print Assumptions C94_generate_bad.
(** C94: generate_from_template keeps the pattern of filled fields, or reports RuntimeError after the given number of attempts. *)
Theorem C94_template : forall docs C O, world_ok O -> chance_ok C ->
  forall st line c s v t, reachable (full_world docs C O) st -> sh_loop_n st = None ->
  parse (full_world docs C O) (strip line) = Ok c -> calls c (lit "generate_from_template") [v] -> int_value v t -> current st = Some s ->
  1 <= box_width s -> 1 <= box_height s -> 0 <= t ->
  (exists u st', execute_part 2 (full_world docs C O) st line = done st' /\ replaced st st' u /\ wf u /\ box_size u = box_size s /\ unique_solution u /\
     forall p, field s p -> (num u p = 0 <-> num s p = 0)) \/
  (execute_part 2 (full_world docs C O) st line = error (next_call st) (MExn RuntimeError) /\
   forall i, 0 <= i < t -> exists a, attempt (ch_template C (sh_calls st)) s i a /\ ~ unique_solution a).
Proof. exact C94_template_proof. Qed.
Print Assumptions C94_template.
Example C94_ex :
  help_numbers (help_after [lit "generate box_size=(2,2) symmetry='rotate-180'"]) =
    Some [[0; 0; 0; 3]; [0; 0; 2; 1]; [4; 3; 0; 0]; [2; 0; 0; 0]] /\
  sh_err (help_after [lit "generate 17 box_size=(2,2)"; lit "generate symmetry='/'"]) = [MExn ValueError; MExn ValueError] /\
  sh_err (help_after [lit "new (2,2)"; lit "generate_from_template 3"]) = [MExn RuntimeError] /\
  sh_err (help_after [lit "new (2,2)"; lit "solve"; lit "generate_from_template tries=1"]) = [].
Proof. splits; vm_compute; reflexivity. Qed.

(** C95: set, set_candidates, remove_candidates and init_candidates change the current sudoku like the library functions, or report their exception. *)
Theorem C95_edit : forall docs C O, world_ok O -> chance_ok C ->
  forall st line c s name vs f, reachable (full_world docs C O) st -> sh_loop_n st = None ->
  parse (full_world docs C O) (strip line) = Ok c -> calls c name vs -> edit_call name vs f -> current st = Some s ->
  1 <= box_width s -> 1 <= box_height s ->
  (forall t, f s = Ok t -> execute_part 2 (full_world docs C O) st line = done (next_call (set_heap st (list_upd (sh_cur st) t (sh_heap st))))) /\
  (forall e, f s = Err e -> execute_part 2 (full_world docs C O) st line = error (next_call st) (MExn e)).
Proof. exact C95_edit_proof. Qed.
Print Assumptions C95_edit.
(** C95: print, encode and view print the text of the library functions, or report their exception. *)
Theorem C95_show : forall docs C O st line c s name vs f, sh_loop_n st = None ->
  parse (full_world docs C O) (strip line) = Ok c -> calls c name vs -> show_call name vs f -> current st = Some s ->
  (forall t, f s = Ok t -> execute_part 2 (full_world docs C O) st line = done (add_out (next_call st) (t ++ [10]))) /\
  (forall e, f s = Err e -> execute_part 2 (full_world docs C O) st line = error (next_call st) (MExn e)).
Proof. exact C95_show_proof. Qed.
Print Assumptions C95_show.
(** C95: get and get_candidates of an existing field only report TypeError. *)
Theorem C95_get : forall docs C O, world_ok O -> chance_ok C ->
  forall st line c s vr vk r k, reachable (full_world docs C O) st -> sh_loop_n st = None -> parse (full_world docs C O) (strip line) = Ok c ->
  (calls c (lit "get") [vr; vk] \/ calls c (lit "get_candidates") [vr; vk]) -> int_value vr r -> int_value vk k -> current st = Some s ->
  0 <= r < box_width s * box_height s -> 0 <= k < box_width s * box_height s ->
  execute_part 2 (full_world docs C O) st line = error (next_call st) (MExn TypeError).
Proof.
  intros docs C O HO HC st line c s vr vk r k R L P K Hvr Hvk Es Hr Hk.
  pose proof (inv_reachable _ (full_world_ok docs C O HO HC) st R) as I.
  destruct (LShell3.current_some st I) as [s' [E' H']]. rewrite Es in E'. injection E' as <-.
  apply (C95_get_proof docs C O st line c s vr vk r k); auto; destruct H' as [-> _]; lia.
Qed.
Print Assumptions C95_get.
(** C95: new and decode replace the current sudoku by the result of the library functions, or report their exception. *)
Theorem C95_fresh : forall docs C O, world_ok O -> chance_ok C ->
  forall st line c name vs r, reachable (full_world docs C O) st -> sh_loop_n st = None ->
  parse (full_world docs C O) (strip line) = Ok c -> calls c name vs -> fresh_call name vs r ->
  (forall u, r = Ok u -> exists st', execute_part 2 (full_world docs C O) st line = done st' /\ replaced st st' u) /\
  (forall e, r = Err e -> execute_part 2 (full_world docs C O) st line = error (next_call st) (MExn e)).
Proof. exact C95_fresh_proof. Qed.
Print Assumptions C95_fresh.
Example C95_ex :
  let st := help_after [lit "new box_size=(2,2)"; lit "set_candidates 0 1 {2,3}"; lit "set 3 3 4"; lit "encode row_sep='/'"; lit "set 4 0 1"] in
  sh_out st = lit "0000/0000/0000/0004" ++ [10] /\ sh_err st = [MExn IndexError] /\
  option_map s_candidates (current st) = Some [[[]; [2; 3]; []; []]; repeat [] 4; repeat [] 4; repeat [] 4] /\
  help_numbers (help_after [lit "decode empty='.' s='.2..4..........1'"]) = Some [[0; 2; 0; 0]; [4; 0; 0; 0]; [0; 0; 0; 0]; [0; 0; 0; 1]].
Proof. cbv zeta. splits; vm_compute; reflexivity. Qed.
