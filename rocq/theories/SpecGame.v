(** Specification for the game shell: what autofill may do, the history as a
    list of earlier, one current and a list of later sudokus. *)
From Verif Require Export Spec SpecSolvers SpecGen SpecCodec SpecNotation MGame.

(** * autofill *)

(** [s'] has the shape and the numbers of [s]. *)
Definition numbers_kept (s s' : sudoku) : Prop :=
  wf s' /\ box_size s' = box_size s /\ forall p, field s p -> num s' p = num s p.

(** A filled peer of [q] contains [n]. *)
Definition taken (s : sudoku) (q : coord) (n : Z) : Prop :=
  exists p, field s p /\ peers (box_width s) (box_height s) p q /\ num s p <> 0 /\ num s p = n.

(** A printed line "autoremove: <fields><><value>". *)
Definition autoremove_line (m : Z * list coord) (line : pystr) : Prop :=
  exists t, nencode (snd m) 3 3 None (lit ",") [] = Ok t /\
    line = lit "autoremove: " ++ t ++ lit "<>" ++ str_of_int (fst m) ++ [10].

(** The setting is a bool. *)
Definition is_set (cfg : settings) (key : pystr) (b : bool) : Prop :=
  dget str_eqb cfg key = Ok (SBool b).

(** * The history *)
Record history : Type := mkHistory {
  earlier : list sudoku;       (* most recent first *)
  current : sudoku;
  later : list sudoku          (* next first *)
}.
Definition undone (H : history) : history :=
  match earlier H with
  | [] => H
  | s :: t => mkHistory t s (current H :: later H)
  end.
Definition redone (H : history) : history :=
  match later H with
  | [] => H
  | s :: t => mkHistory (current H :: earlier H) s t
  end.
Definition changed_to (s : sudoku) (H : history) : history :=
  mkHistory (current H :: earlier H) s [].

(** The list and the index of the game represent [H]. *)
Definition has_history (g : game) (H : history) : Prop :=
  gm_sudokus g = rev (earlier H) ++ current H :: later H /\
  gm_index g = py_len (earlier H).

(** A 9x9 sudoku object. *)
Definition nine (s : sudoku) : Prop := wf s /\ box_size s = (3, 3).

(** What holds of the game at any time: the index is valid, every sudoku of the history and the
    solution are 9x9, and the hints that are still to come do not raise. *)
Record game_ok (g : game) : Prop := {
  go_settings : gm_settings g = default_settings;
  go_index : 0 <= gm_index g < py_len (gm_sudokus g);
  go_nine : forall s, In s (gm_sudokus g) -> nine s;
  go_solution : nine (gm_solution g);
  go_hinted : forall h, gm_hinted g = Some h -> nine h;
  go_hints : forall o k, gm_hints g = Some (o, k) -> gresult k o = Ok o
}.

Definition env_ok (E : genv) : Prop := forall n, oracle_ok (ge_oracle E n).
Definition new_ok (o : new_oracle) : Prop :=
  generate_admissible (no_generate o) /\ oracle_ok (no_rate o) /\
  (forall s l, Permutation (no_brute o s l) l).

(** The first word of a line. *)
Definition first_word (line word : pystr) : Prop :=
  exists a b, line = a ++ word ++ b /\ word <> [] /\
    (forall c, In c a -> is_space c = true) /\ (forall c, In c word -> is_space c = false) /\
    (b = [] \/ exists c b', b = c :: b' /\ is_space c = true).
Definition blank_line (line : pystr) : Prop := forall c, In c line -> is_space c = true.

(** The name of a field of a 9x9 sudoku, e.g. r1c9. *)
Definition field_name (p : coord) : pystr :=
  lit "r" ++ str_of_int (fst p + 1) ++ lit "c" ++ str_of_int (snd p + 1).

(** The lines printed by the commands check and conflicts. *)
Definition check_line (s : sudoku) (p : coord) : pystr :=
  lit "[F] " ++ field_name p ++ lit " = " ++ str_of_int (num s p) ++ [10].
Definition conflict_text (x : coord * coord * Z) : pystr :=
  let '(p, q, v) := x in
  lit "[F]" ++ field_name p ++ lit " = " ++ field_name q ++ lit " = " ++ str_of_int v ++ [10].

(** The text shown before a command is read. *)
Definition prompt (s : sudoku) (t : pystr) : Prop :=
  exists v, view s true None (lit "*") true = Ok v /\ t = v ++ [10; 10] ++ lit "> ".

(** What an action makes of a sudoku: the numbers are set and become the only candidate of their fields,
    or the candidates are removed. *)
Definition acted (a : action) (s s1 : sudoku) : Prop :=
  wf s1 /\ box_size s1 = box_size s /\
  match a with
  | SetNumber l (AInt n) => forall p, field s p ->
      (In p l -> num s1 p = n /\ cand s1 p = [n]) /\ (~ In p l -> num s1 p = num s p /\ cand s1 p = cand s p)
  | RemoveCandidates l ds => forall p, field s p -> num s1 p = num s p /\
      (In p l -> forall v, In v (cand s1 p) <-> In v (cand s p) /\ ~ In (AInt v) ds) /\ (~ In p l -> cand s1 p = cand s p)
  | _ => False
  end.
(** Candidates that are taken are removed. *)
Definition pruned (s1 s' : sudoku) : Prop :=
  numbers_kept s1 s' /\ forall q n, field s1 q -> (In n (cand s' q) <-> In n (cand s1 q) /\ ~ taken s1 q n).
(** A filled field has its number as only candidate, an empty field every number that is not taken. *)
Definition recomputed (s s' : sudoku) : Prop :=
  numbers_kept s s' /\ forall q, field s q ->
    if num s q =? 0 then forall n, In n (cand s' q) <-> 1 <= n <= box_width s * box_height s /\ ~ taken s q n else cand s' q = [num s q].

(** What a line with first word [w] other than undo and redo makes of the current sudoku. *)
Definition line_result (s : sudoku) (line w : pystr) (s' : sudoku) : Prop :=
  if existsb (str_eqb w) [lit "hint"; lit "conflicts"; lit "check"] then s' = s
  else if str_eqb w (lit "candidates") then recomputed s s'
  else match decode_action line 3 3 with
       | Err _ => s' = s
       | Ok a => exists s1, acted a s s1 /\ pruned s1 s'
       end.

(** The commands other than actions. *)
Definition named : list pystr :=
  [lit "hint"; lit "candidates"; lit "conflicts"; lit "check"; lit "undo"; lit "redo"; lit "settings"].

(** The lines that crash the game, and how. *)
Definition crashes (line : pystr) (e : exn) : Prop :=
  (e = IndexError /\ blank_line line) \/
  (e = TypeError /\ first_word line (lit "settings")) \/
  (e = TypeError /\ decode_action line 3 3 = Err TypeError /\ exists w, first_word line w /\ ~ In w named).

(** The history after lines that did not crash. *)
Definition line_step (H : history) (line : pystr) (H' : history) : Prop :=
  exists w, first_word line w /\
    (w = lit "undo" -> H' = undone H) /\
    (w = lit "redo" -> H' = redone H) /\
    (w <> lit "undo" -> w <> lit "redo" -> exists s', line_result (current H) line w s' /\
       (s' = current H -> H' = H) /\ (s' <> current H -> H' = changed_to s' H)).
Inductive steps : history -> list pystr -> history -> Prop :=
| steps_nil : forall H, steps H [] H
| steps_cons : forall H line H1 lines H2, line_step H line H1 -> steps H1 lines H2 -> steps H (line :: lines) H2.

(** All lines have the first word [w]. *)
Definition only (w : pystr) (lines : list pystr) : Prop := forall line, In line lines -> first_word line w.

(** The text at the start of the game. *)
Definition banner (version : pystr) : pystr :=
  lit "sudokutools game shell " ++ version ++ [10] ++ lit "For a list of available commands type: help" ++ [10].
Definition no_more : pystr := lit "No more hints available." ++ [10].
