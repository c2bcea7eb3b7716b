(** Property C136: the shell under "python -O", where the two assert statements of shell.py are
    not executed.  The proofs are in LShellO.v. *)
From Verif Require Import LShellO.
From Verif Require Import LShell6 PShell.

(** C136: a line that is executed without any error message has the same effect without the assert
    statements. *)
Theorem C136_same : forall W f st line,
  sh_err (fst (execute_line f W st line)) = sh_err st ->
  execute_line_O f W st line = execute_line f W st line.
Proof. exact C136_same_proof. Qed.
Print Assumptions C136_same.

(** C136: loop n then accepts any int, if no loop is being defined, and shows it in the prompt. *)
Theorem C136_start : forall W f st s c v n, sh_loop_n st = None \/ sh_loop_n st = Some 0 ->
  parse W (strip s) = Ok c -> loop_arg c v -> as_int W v n ->
  execute_part_O (S f) W st s =
    (set_prompt (set_loop st (Some n) (sh_loop_list st))
       (if sh_interactive st then lit "loop " ++ str_of_int n ++ lit "> " else sh_prompt st), None).
Proof. exact loop_O_start. Qed.
Print Assumptions C136_start.

(** C136: after loop 0 commands are executed at once, and loop end reports that there is no loop. *)
Theorem C136_zero : forall W f st s c, sh_loop_n st = Some 0 -> parse W (strip s) = Ok c ->
  execute_part_O (S f) W st s = execute_O (S f) W st c /\
  (forall v, loop_arg c v -> end_value v -> execute_part_O (S f) W st s = error st (MText (lit "No loop defined."))).
Proof.
  intros W f st s c L P. split; [apply loop_O_direct; auto|]. intros v A V. eapply loop_O_end0; eauto.
Qed.
Print Assumptions C136_zero.

(** C136: with a negative n the commands of the loop are noted, and loop end discards them: loop n,
    any commands but loop and exit, and loop end change nothing at all. *)
Theorem C136_negative : forall W f st s0 c0 v0 n s1 c1 v1 parts cs,
  sh_loop_n st = None -> sh_loop_list st = [] -> sh_prompt st = command_prompt (sh_interactive st) ->
  parse W (strip s0) = Ok c0 -> loop_arg c0 v0 -> as_int W v0 n -> n < 0 ->
  parse W (strip s1) = Ok c1 -> loop_arg c1 v1 -> end_value v1 ->
  Forall2 (fun s c => parse W (strip s) = Ok c /\ ~ is_loop c /\ ~ is_exit c) parts cs ->
  do_each (execute_part_O (S f) W) ([s0] ++ parts ++ [s1]) st = (st, None).
Proof. exact loop_O_negative. Qed.
Print Assumptions C136_negative.

(** C136: pop then accepts the positions of list.pop: negative ones count from the end of the stack. *)
Theorem C136_pop : forall W f st s c v k p a, sh_loop_n st = None -> parse W (strip s) = Ok c -> pop_arg c v ->
  as_int W v k -> list_position (length (sh_stack st)) k p -> nth_error (sh_stack st) p = Some a ->
  execute_part_O (S f) W st s =
    (set_cur (set_stack st (firstn p (sh_stack st) ++ skipn (S p) (sh_stack st))) a, None).
Proof.
  intros W f st s c v k p a L P A T H N. rewrite (pop_O_part W f st s c v (inactive st (or_introl L)) P A).
  rewrite (pop_O_int W st v k), (stack_pop_O_in st k p H); auto.
  - unfold stack_pop. rewrite N. reflexivity.
  - destruct (sh_stack st); [destruct p; discriminate|discriminate].
Qed.
Print Assumptions C136_pop.

(** C136: any other position is reported as an IndexError, and nothing changes. *)
Theorem C136_pop_error : forall W f st s c v k, sh_loop_n st = None -> parse W (strip s) = Ok c -> pop_arg c v ->
  as_int W v k -> (forall p, ~ list_position (length (sh_stack st)) k p) -> sh_stack st <> [] ->
  execute_part_O (S f) W st s = error st (MExn IndexError).
Proof.
  intros W f st s c v k L P A T H N. rewrite (pop_O_part W f st s c v (inactive st (or_introl L)) P A).
  rewrite (pop_O_int W st v k), (stack_pop_O_out st k H) by auto. reflexivity.
Qed.
Print Assumptions C136_pop_error.

(** With three sudokus on the stack: pop -3 and pop -1 restore the first and the last one, where the
    shell with assert statements refuses; pop -4 is an IndexError; loop -2 does nothing; after loop 0
    commands are executed at once; a whole line without messages is the same. *)
Definition three : shell := Eval vm_compute in after true [lit "set 0 0 5;push"; lit "set 0 0 6;push;set 0 0 7"; lit "push;set 0 0 8"].
Example C136_ex :
  let run := fun l => execute_line_O 2 ex_world three l in
  let fields := fun o : outcome => (first_field (current (fst o)), map first_field (stacked (fst o)), sh_err (fst o)) in
  fields (run (lit "stack")) = (Some 8, [Some 5; Some 6; Some 7], []) /\
  fields (run (lit "pop -3")) = (Some 5, [Some 6; Some 7], []) /\
  fields (run (lit "pop -1")) = (Some 7, [Some 5; Some 6], []) /\
  fields (execute_line 2 ex_world three (lit "pop -1")) = (Some 8, [Some 5; Some 6; Some 7], [MText (lit "0 <= position < len(stack)")]) /\
  fields (run (lit "pop -4")) = (Some 8, [Some 5; Some 6; Some 7], [MExn IndexError]) /\
  list_position (length (sh_stack three)) (-3) 0 /\ (forall p, ~ list_position (length (sh_stack three)) (-4) p) /\
  run (lit "loop -2; set 0 0 1; pop; loop end") = (three, None) /\
  fields (run (lit "loop 0; set 0 0 1")) = (Some 1, [Some 5; Some 6; Some 7], []) /\
  sh_prompt (fst (run (lit "loop 0; set 0 0 1"))) = lit "loop 0> " /\
  fields (run (lit "loop 0; set 0 0 1; loop end")) = (Some 1, [Some 5; Some 6; Some 7], [MText (lit "No loop defined.")]) /\
  fields (run (lit "loop 2; pop; loop end; set 0 1 4")) = (Some 6, [Some 5], []) /\
  sh_err (fst (execute_line 2 ex_world three (lit "loop 2; pop; loop end; set 0 1 4"))) = sh_err three.
Proof.
  cbv zeta. splits; try (vm_compute; reflexivity).
  - split; [cbn; lia|right; reflexivity].
  - intros p [L H]. change (length (sh_stack three)) with 3%nat in *. lia.
Qed.
