(** Specification of signatures, help texts and of the binding of arguments. *)
From Verif Require Export SpecShell SpecGen MShellFull.

(** A parameter, with its default value if it has one *)
Definition item_text (x : pystr * option value) : pystr :=
  match snd x with
  | None => fst x
  | Some d => fst x ++ lit "=" ++ repr_value d
  end.
(** The parameters: the last ones have the given default values *)
Definition signature_of (args : list pystr) (defaults : list value) : pystr :=
  join (lit " ") (map item_text (combine args (repeat None (length args - length defaults) ++ map Some defaults))).
(** The list from position [k] on, followed by what comes before *)
Definition rotate {A} (k : nat) (l : list A) : list A := skipn k l ++ firstn k l.
(** The parameters shown to the user: not the first one of a bound method *)
Definition shown_args (f : fspec) : list pystr := if f_method f then tl (f_args f) else f_args f.

(** The first line of the documentation, and the rest *)
Definition first_line (doc : option pystr) (t : pystr) : Prop :=
  match doc with
  | None => t = lit "(Not documented)"
  | Some d => exists l rest, t = strip l /\ ~ In 10 l /\ (d = l /\ rest = [] \/ d = l ++ 10 :: rest)
  end.
Definition other_lines (doc : option pystr) (t : pystr) : Prop :=
  match doc with
  | None => t = []
  | Some d => (~ In 10 d /\ t = []) \/ exists l, ~ In 10 l /\ d = l ++ 10 :: t
  end.
(** One line of the list of commands *)
Definition help_line (docs : pystr -> option pystr) (name t : pystr) : Prop :=
  exists f sig first, In (name, f) SPECS /\ signature_str f = Ok sig /\ first_line (docs name) first /\
    t = name ++ lit " " ++ sig ++ lit ": " ++ first.
(** The list of commands by sections *)
Definition help_text (docs : pystr -> option pystr) (sections : list (pystr * list pystr)) (t : pystr) : Prop :=
  exists texts, Forall2 (fun section text => exists lines, Forall2 (help_line docs) (snd section) lines /\
                           text = fst section ++ [10] ++ concat (map (fun l => lit " - " ++ l ++ [10]) lines) ++ [10])
                        sections texts /\
    t = concat texts ++ lit "NOTE: The 'sudoku' argument will be supplied automatically.".

(** The values [vs] of the parameters [ps] in a call with the arguments [args] and [kw] *)
Definition binds (ps : list (pystr * option value)) (args : list value) (kw : kwargs) (vs : list value) : Prop :=
  length vs = length ps /\ (length args <= length ps)%nat /\
  (forall k v, In (k, v) kw -> exists i d, (length args <= i)%nat /\ nth_error ps i = Some (k, d)) /\
  (forall i v, nth_error args i = Some v -> nth_error vs i = Some v) /\
  (forall i k d, (length args <= i)%nat -> nth_error ps i = Some (k, d) ->
     (forall v, In (k, v) kw -> nth_error vs i = Some v) /\
     ((forall v, ~ In (k, v) kw) -> d <> None /\ nth_error vs i = d)).

(** All random decisions are possible ones. *)
Definition chance_ok (C : chance) : Prop :=
  (forall n, generate_admissible (ch_generate C n)) /\
  (forall n t, create_admissible (fst (ch_template C n t)) /\ (forall p l, Permutation (snd (ch_template C n t) p l) l)) /\
  (forall n t l, Permutation (ch_brute C n t l) l).

(** The current sudoku is replaced by a new object; nothing else changes. *)
Definition replaced (st st' : shell) (u : sudoku) : Prop :=
  current st' = Some u /\ ~ In (sh_cur st') (sh_stack st') /\ sh_cur st' <> sh_cur st /\
  (forall a, (a < length (sh_heap st))%nat -> nth_error (sh_heap st') a = nth_error (sh_heap st) a) /\
  sh_stack st' = sh_stack st /\ sh_out st' = sh_out st /\ sh_err st' = sh_err st /\ sh_prompt st' = sh_prompt st /\
  sh_running st' = sh_running st /\ sh_loop_n st' = sh_loop_n st /\ sh_loop_list st' = sh_loop_list st.

(** The values of the parameter symmetry of generate that are known *)
Definition symmetry_names : list (value * symmetry) :=
  [(VNone, SymNone); (VStr (lit "rotate-90"), SymRotate90); (VStr (lit "rotate-180"), SymRotate180);
   (VStr (lit "mirror-x"), SymMirrorX); (VStr (lit "mirror-y"), SymMirrorY); (VStr (lit "mirror-xy"), SymMirrorXY)].
(** A box size given in a command *)
Definition box_size_value (b : value) (w h : Z) : Prop := b = VTuple [VInt w; VInt h] \/ b = VList [VInt w; VInt h].

(** The command [c] is a call of the function of the command [name] with the values [vs] of its parameters. *)
Definition calls (c : command) (name : pystr) (vs : list value) : Prop :=
  c_func c = name /\ exists f, In (name, f) SPECS /\ binds (params f) (c_args c) (c_kwargs c) vs.

(** The values that count as false; all others (of a known type) count as true. *)
Definition false_values : list value := [VNone; VBool false; VInt 0; VStr []; VTuple []; VList []; VSet []].
Definition flag_value (v : value) (b : bool) : Prop :=
  (b = false /\ In v false_values) \/ (b = true /\ ~ In v false_values /\ forall k, v <> VOther k).

(** The commands that change the current sudoku, with the values of their parameters *)
Inductive edit_call : pystr -> list value -> (sudoku -> res sudoku) -> Prop :=
| edit_set : forall r r' k k' v, int_value r r' -> int_value k k' ->
    edit_call (lit "set") [r; k; VInt v] (fun s => setitem s r' k' v)
| edit_set_candidates : forall r r' k k' v l, int_value r r' -> int_value k k' -> v = VSet (map VInt l) \/ v = VTuple (map VInt l) \/ v = VList (map VInt l) ->
    edit_call (lit "set_candidates") [r; k; v] (fun s => set_candidates s r' k' l)
| edit_remove_candidates : forall r r' k k' v l, int_value r r' -> int_value k k' -> v = VSet (map VInt l) \/ v = VTuple (map VInt l) \/ v = VList (map VInt l) ->
    edit_call (lit "remove_candidates") [r; k; v] (fun s => remove_candidates s r' k' l)
| edit_init : forall v b, flag_value v b -> edit_call (lit "init_candidates") [v] (fun s => init_candidates s b).
(** The commands that print a text about the current sudoku *)
Inductive show_call : pystr -> list value -> (sudoku -> res pystr) -> Prop :=
| show_print : show_call (lit "print") [] sudoku_str
| show_encode : forall r k v b, flag_value v b -> show_call (lit "encode") [VStr r; VStr k; v] (fun s => encode s r k b)
| show_view : forall v b x p u a, flag_value v b -> flag_value u a ->
    show_call (lit "view") [v; x; VStr p; u] (fun s => view s b None p a).
(** The commands that replace the current sudoku whatever it is *)
Inductive fresh_call : pystr -> list value -> res sudoku -> Prop :=
| fresh_new : forall b w h, box_size_value b w h -> fresh_call (lit "new") [b] (Ok (new_sudoku (w, h)))
| fresh_decode : forall t e ns x ss cs b y, 0 <= e < 128 ->
    x = VNone /\ ns = [] \/ x = VStr ns ->
    b = VNone /\ y = None \/ (exists w h, box_size_value b w h /\ y = Some (w, h)) ->
    fresh_call (lit "decode") [VStr t; VStr [e]; x; VStr ss; VStr cs; b] (decode t [e] ns ss cs y).

(** The parameters of the commands for the user of the shell *)
Definition box_size_33 : value := VTuple [VInt 3; VInt 3].
Definition PARAMETERS : list (pystr * list (pystr * option value)) :=
  let required := map (fun x => (x, @None value)) in
  [(lit "new", [(lit "box_size", Some box_size_33)]);
   (lit "generate", [(lit "min_count", Some (VInt 0)); (lit "symmetry", Some VNone); (lit "box_size", Some box_size_33)]);
   (lit "generate_from_template", [(lit "tries", Some (VInt 100))]);
   (lit "decode", required [lit "s"] ++
      [(lit "empty", Some (VStr (lit "0"))); (lit "number_sep", Some VNone); (lit "sudoku_sep", Some (VStr (lit "|")));
       (lit "candidate_sep", Some (VStr (lit ","))); (lit "box_size", Some VNone)]);
   (lit "get", required [lit "row"; lit "col"]);
   (lit "set", required [lit "row"; lit "col"; lit "value"]);
   (lit "set_candidates", required [lit "row"; lit "col"; lit "value"]);
   (lit "get_candidates", required [lit "row"; lit "col"]);
   (lit "remove_candidates", required [lit "row"; lit "col"; lit "value"]);
   (lit "init_candidates", [(lit "filled_only", Some (VBool false))]);
   (lit "encode", [(lit "row_sep", Some (VStr [])); (lit "col_sep", Some (VStr [])); (lit "include_candidates", Some (VBool false))]);
   (lit "print", []);
   (lit "clear", []);
   (lit "view", [(lit "include_candidates", Some (VBool true)); (lit "number_sep", Some VNone);
                 (lit "candidate_prefix", Some (VStr (lit "*"))); (lit "align_right", Some (VBool true))]);
   (lit "solve", []);
   (lit "loop", required [lit "n"]);
   (lit "stack", []);
   (lit "push", []);
   (lit "pop", [(lit "position", Some VNone)]);
   (lit "help", [(lit "command", Some VNone); (lit "verbose", Some (VBool true))]);
   (lit "exit", [])].
