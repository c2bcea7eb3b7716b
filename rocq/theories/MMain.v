(** Model of the program: sudokutools/__main__.py with its arguments, the files it reads and its exit status.

    argparse is not modelled: the program starts with the attributes filename and command (None if not given).
    Exceptions of input and output other than from opening the file are not modelled. *)
From Verif Require Export MShell.

(** A file that can be opened: isatty() and the results of readline(); otherwise the text of the IOError (__main__.py:25-29) *)
Inductive file : Type :=
| FOpen (isatty : bool) (input : list pystr)
| FError (text : pystr).

(** What is left when the program ends: the shell (if one was created), what was written to stderr by the program
    itself and the exit status (__main__.py:9-36) *)
Record ending : Type := mkEnding {
  en_shell : option shell;
  en_err : list message;
  en_status : Z
}.

(** The exit status of Python: 0 at the end of the program, 1 after an exception that was not caught (interrupts are not considered here, see MInterrupt.v) (__main__.py:30; shell.py:337, 391, 424) *)
Definition status_of (e : option exn) : Z :=
  match e with
  | None => 0
  | Some (SystemExit n) => n
  | Some _ => 1
  end.
(** __main__.py:24-36: the end of the program after a run of the shell *)
Definition end_of (o : outcome) : ending := mkEnding (Some (fst o)) (sh_err (fst o)) (status_of (snd o)).

(** [if arguments.filename:] (neither None nor the empty string) (__main__.py:24, 32) *)
Definition given (x : option pystr) : option pystr :=
  match x with Some (_ :: _) => x | _ => None end.

(** __main__.py:21-36 main: a file, the command given by -c, or stdin *)
Definition program (fuel : nat) (W : world) (banner : pystr) (files : pystr -> file) (tty : bool) (stdin : list pystr)
    (filename command : option pystr) : ending :=
  match given filename with
  | Some name =>
      match files name with
      | FOpen tty input => end_of (main fuel W banner (IFile tty input))
      | FError text => mkEnding None [MText text] 1
      end
  | None =>
      match given command with
      | Some line => end_of (main fuel W banner (ICommand line))
      | None => end_of (main fuel W banner (IFile tty stdin))
      end
  end.
