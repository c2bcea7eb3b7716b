(** Specification of the texts of commands: which text stands for which call. *)
From Verif Require Export SpecHelp.

(** The commands and what they are given by the shell besides the arguments in the text *)
Definition plain_names : list pystr := [lit "new"; lit "generate"; lit "decode"; lit "clear"].
Definition sudoku_names : list pystr :=
  [lit "generate_from_template"; lit "get"; lit "set"; lit "set_candidates"; lit "get_candidates"; lit "remove_candidates";
   lit "init_candidates"; lit "encode"; lit "print"; lit "view"].
Definition shell_names : list pystr := [lit "loop"; lit "stack"; lit "push"; lit "pop"; lit "help"; lit "exit"].
Definition given (name : pystr) (special : list pystr) : Prop :=
  (In name plain_names /\ special = []) \/ (In name sudoku_names /\ special = [lit "sudoku"]) \/
  (In name shell_names /\ special = [lit "shell"]) \/ (name = lit "solve" /\ special = [lit "shell"; lit "sudoku"]).
Definition is_name (name : pystr) : Prop := exists special, given name special.

(** What the text of an argument stands for: [name=literal] (at the first =) or a positional argument, which is a
    command, the keyword end or a literal. *)
Inductive meaning : Type :=
| Named (name : pystr) (literal : pystr)
| Positional (v : value)
| Literal (literal : pystr).
Inductive means : pystr -> meaning -> Prop :=
| means_named : forall n t, ~ In 61 n -> means (n ++ 61 :: t) (Named n t)
| means_command : forall x, is_name x -> means x (Positional (VCommand x))
| means_end : means (lit "end") (Positional (VKeyword (lit "end")))
| means_literal : forall x, ~ In 61 x -> ~ is_name x -> x <> lit "end" -> means x (Literal x).

(** The positional and the keyword arguments given by a list of texts.  A keyword that is given again keeps its
    place and gets the new value. *)
Inductive reads (W : world) : list pystr -> list value -> kwargs -> Prop :=
| reads_nil : reads W [] [] []
| reads_word : forall l a k x v, reads W l a k -> means x (Positional v) -> reads W (l ++ [x]) (a ++ [v]) k
| reads_literal : forall l a k x v, reads W l a k -> means x (Literal x) -> w_literal W x = LitOk v -> reads W (l ++ [x]) (a ++ [v]) k
| reads_new : forall l a k x n t v, reads W l a k -> means x (Named n t) -> w_literal W t = LitOk v -> ~ In n (map fst k) ->
    reads W (l ++ [x]) a (k ++ [(n, v)])
| reads_again : forall l a k1 k2 x n t v0 v, reads W l a (k1 ++ (n, v0) :: k2) -> means x (Named n t) -> w_literal W t = LitOk v ->
    ~ In n (map fst k1) -> reads W (l ++ [x]) a (k1 ++ (n, v) :: k2).

(** The exception raised for the text of an argument: ValueError if literal_eval raises ValueError or SyntaxError *)
Definition bad_literal (W : world) (t : pystr) (e : exn) : Prop :=
  (w_literal W t = LitInvalid /\ e = ValueError) \/ w_literal W t = LitRaise e.
Definition bad_argument (W : world) (x : pystr) (e : exn) : Prop :=
  exists t, bad_literal W t e /\ (means x (Literal t) \/ exists n, means x (Named n t)).

(** The items of a text: what is between single blanks *)
Definition items_of (text name : pystr) (l : list pystr) : Prop :=
  text = join (lit " ") (name :: l) /\ forall x, In x (name :: l) -> ~ In 32 x.

(** literal_eval understands decimal numbers. *)
Definition literal_ints (W : world) : Prop := forall n, w_literal W (str_of_int n) = LitOk (VInt n).
(** The text of a command with numbers as arguments *)
Definition command_text (name : pystr) (l : list Z) : pystr := join (lit " ") (name :: map str_of_int l).
(** Nothing but the contents of the current sudoku changes. *)
Definition only_current (st st' : shell) : Prop :=
  sh_cur st' = sh_cur st /\ sh_stack st' = sh_stack st /\ stacked st' = stacked st /\ sh_out st' = sh_out st /\
  sh_err st' = sh_err st /\ sh_running st' = sh_running st /\ sh_loop_n st' = sh_loop_n st /\
  sh_loop_list st' = sh_loop_list st /\ sh_prompt st' = sh_prompt st /\ sh_interactive st' = sh_interactive st.
