(** Spec of interrupts: what library functions may do if Ctrl-C is pressed. *)
From Verif Require Export SpecShell MInterrupt.

(** A library function may also raise KeyboardInterrupt. *)
Definition result_int (r : lres) : Prop :=
  match r with
  | RFresh s => sudoku_ok s
  | RRaise e => is_exception e = true \/ e = KeyboardInterrupt
  | _ => True
  end.
(** (literal_eval raises SyntaxError, ValueError or KeyboardInterrupt.) *)
Record world_int (W : world) : Prop := {
  wi_fun : forall n f args kw, result_int (w_fun W n f args kw);
  wi_res : forall n f s args kw, sudoku_ok s -> result_int (snd (w_sudoku W n f s args kw));
  wi_cur : forall n f s args kw, sudoku_ok s -> sudoku_ok (fst (w_sudoku W n f s args kw));
  wi_int : forall k e, w_int W k = Err e -> is_exception e = true \/ e = KeyboardInterrupt;
  wi_lit : forall s e, w_literal W s = LitRaise e -> e = KeyboardInterrupt
}.

(** How a run that starts in [st] ends: an interactive shell raises nothing; another one ends without a
    message and an exception, with one message and status 1, or (interrupted) without a message and status 2. *)
Definition int_run_ok (st : shell) (o : outcome) : Prop :=
  sh_interactive (fst o) = sh_interactive st /\
  if sh_interactive st then snd o = None
  else (snd o = None /\ sh_err (fst o) = sh_err st) \/
       (snd o = Some (SystemExit 1) /\ exists m, sh_err (fst o) = sh_err st ++ [m]) \/
       (snd o = Some (SystemExit 2) /\ sh_err (fst o) = sh_err st).

(** The text printed at Ctrl-C: a line break and a line. *)
Definition exit_hint : pystr := [10] ++ lit "Use 'exit' to leave the shell." ++ [10].
