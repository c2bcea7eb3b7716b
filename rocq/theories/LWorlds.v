(** The two models of the library functions agree where both are defined. *)
From Verif Require Import SpecHelp LShell6 LHelp LShellFull LDict.

Lemma lib_fun_full : forall docs C O n name args r, lib_fun name args = Some r -> w_fun (full_world docs C O) n name args [] = r.
Proof.
  intros docs C O n name args r H. unfold lib_fun in H.
  destruct (str_eqb name (lit "new")) eqn:E1; [apply str_eqb_eq in E1; subst name|].
  - destruct args as [|v [|x args]]; try discriminate.
    + injection H as <-. reflexivity.
    + destruct v; try discriminate; destruct l as [|[] [|[] [|]]]; try discriminate; injection H as <-; reflexivity.
    + destruct v; try discriminate; destruct l as [|[] [|[] [|]]]; discriminate.
  - destruct (str_eqb name (lit "decode")) eqn:E2; [apply str_eqb_eq in E2; subst name|discriminate].
    destruct args as [|[] [|]]; try discriminate. injection H as <-. reflexivity.
Qed.
Lemma lib_sudoku_full : forall docs C O n name s args r, lib_sudoku name s args = Some r -> w_sudoku (full_world docs C O) n name s args [] = r.
Proof.
  intros docs C O n name s args r H. unfold lib_sudoku in H.
  repeat match type of H with (if str_eqb name ?a then _ else _) = _ =>
    destruct (str_eqb name a) eqn:E; [apply str_eqb_eq in E; subst name|clear E] end; [..|discriminate].
  - destruct args as [|[] [|[] [|]]]; try discriminate. injection H as <-. reflexivity.
  - destruct args as [|[] [|[] [|[] [|]]]]; try discriminate. injection H as <-. reflexivity.
  - destruct args as [|[] [|[] [|]]]; try discriminate. injection H as <-. reflexivity.
  - destruct args as [|[] [|[] [|v [|]]]]; try discriminate. destruct (ints_of_value v) as [l|] eqn:V; [|discriminate]. injection H as <-.
    change (match (match ints_of_value v with Some l => Some (change_result s (set_candidates s n0 n1 l)) | None => None end) with
            | Some r => r | None => w_sudoku O n (lit "set_candidates") s [VInt n0; VInt n1; v] [] end = change_result s (set_candidates s n0 n1 l)).
    rewrite V. reflexivity.
  - destruct args as [|[] [|[] [|v [|]]]]; try discriminate. destruct (ints_of_value v) as [l|] eqn:V; [|discriminate]. injection H as <-.
    change (match (match ints_of_value v with Some l => Some (change_result s (remove_candidates s n0 n1 l)) | None => None end) with
            | Some r => r | None => w_sudoku O n (lit "remove_candidates") s [VInt n0; VInt n1; v] [] end = change_result s (remove_candidates s n0 n1 l)).
    rewrite V. reflexivity.
  - destruct args as [|v [|x args]]; [|destruct v; try discriminate|destruct v; discriminate].
    + destruct (init_candidates s false) as [t|e] eqn:I; [|discriminate]. injection H as <-. 
      change (match full_sudoku C n (lit "init_candidates") s [VBool false] with Some r => r | None => w_sudoku O n (lit "init_candidates") s [VBool false] [] end = (t, RNone)).
      change (full_sudoku C n (lit "init_candidates") s [VBool false]) with (match init_candidates s false with Ok t => Some (t, RNone) | Err _ => None end).
      rewrite I. reflexivity.
    + destruct (init_candidates s b) as [t|e] eqn:I; [|discriminate]. injection H as <-.
      change (match full_sudoku C n (lit "init_candidates") s [VBool b] with Some r => r | None => w_sudoku O n (lit "init_candidates") s [VBool b] [] end = (t, RNone)).
      change (full_sudoku C n (lit "init_candidates") s [VBool b]) with (match init_candidates s b with Ok t => Some (t, RNone) | Err _ => None end).
      rewrite I. reflexivity.
  - destruct args; [|discriminate]. injection H as <-. reflexivity.
  - destruct args; [|discriminate]. injection H as <-. reflexivity.
  - destruct args; [|discriminate]. injection H as <-. reflexivity.
Qed.
