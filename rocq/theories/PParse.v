(** Property C103: how the text of a command is read.  Statements use only the model functions and the specification
    files; the proofs are in the L*.v files. *)
From Verif Require Import SpecParse SpecView LParse2 LView2 PHelp PView LWorlds.

(** C103: a text is read as a call exactly if its items (between single blanks) are the name of a command and arguments:
    name=literal, command names, end and literals. *)
Theorem C103_read : forall W s c, parse W s = Ok c <->
  exists l, items_of s (c_func c) l /\ given (c_func c) (c_special c) /\ reads W l (c_args c) (c_kwargs c).
Proof. exact parse_ok. Qed.
Print Assumptions C103_read.
(** C103: otherwise the exception is that of the first argument that cannot be read, or KeyError for an unknown name. *)
Theorem C103_refused : forall W s e, parse W s = Err e <->
  exists name l, items_of s name l /\
    ((exists l1 x l2 a k, l = l1 ++ x :: l2 /\ reads W l1 a k /\ bad_argument W x e) \/
     ((exists a k, reads W l a k) /\ ~ is_name name /\ e = KeyError)).
Proof. exact parse_err. Qed.
Print Assumptions C103_refused.
(** C103: the items of a text and the meaning of an item are unique. *)
Theorem C103_unique : forall s name l name' l' x m m',
  (items_of s name l -> items_of s name' l' -> name = name' /\ l = l') /\ (means x m -> means x m' -> m = m').
Proof.
  intros s name l name' l' x m m'. split; [|apply means_unique]. intros H H'. apply items_split in H. apply items_split in H'.
  rewrite H in H'. injection H'; auto.
Qed.
Print Assumptions C103_unique.

(** C103: the name of a command and numbers, with blanks around them or not, are read as the call with these numbers. *)
Theorem C103_numbers : forall W name special l before_ after_, literal_ints W -> given name special ->
  (forall c, In c (before_ ++ after_) -> is_space c = true) ->
  parse W (strip (before_ ++ command_text name l ++ after_)) = Ok (mkCommand name special (map VInt l) []).
Proof.
  intros W name sp l b a H G B. rewrite LMain.strip_front by (intros c I; apply B, in_app_iff; auto).
  rewrite LMain.strip_back by (intros c I; apply B, in_app_iff; auto). rewrite text_strip by (exists sp; auto). apply parse_numbers; auto.
Qed.
Print Assumptions C103_numbers.

(** C103: the line [set r c v] writes v into field (r, c) of the current sudoku and changes nothing else, or reports IndexError. *)
Theorem C103_set : forall docs C O, world_ok O -> chance_ok C -> literal_ints O ->
  forall st s r k v, reachable (full_world docs C O) st -> sh_loop_n st = None -> current st = Some s ->
  1 <= box_width s -> 1 <= box_height s ->
  (valid_index s r -> valid_index s k -> exists st' s', execute_line 2 (full_world docs C O) st (command_text (lit "set") [r; k; v]) = done st' /\
     only_current st st' /\ current st' = Some s' /\ getitem s' r k = Ok v /\ box_width s' = box_width s /\ box_height s' = box_height s /\
     (forall i j, ~ same_place s r k i j -> getitem s' i j = getitem s i j) /\
     (forall i j, get_candidates s' i j = get_candidates s i j)) /\
  (~ (valid_index s r /\ valid_index s k) ->
     execute_line 2 (full_world docs C O) st (command_text (lit "set") [r; k; v]) = error (next_call st) (MExn IndexError)).
Proof. exact set_line. Qed.
Print Assumptions C103_set.
(** C103: the line [print] prints the text of the current sudoku. *)
Theorem C103_print : forall docs C O, world_ok O -> chance_ok C ->
  forall st s m, reachable (full_world docs C O) st -> sh_loop_n st = None -> current st = Some s -> 1 <= box_width s -> 1 <= box_height s ->
  field_width s false [] m ->
  execute_line 2 (full_world docs C O) st (lit "print") = done (add_out (next_call st) (sudoku_text s false [] true m ++ [10])).
Proof.
  intros docs C O HO HC st s m R L Es B1 B2 F. apply (print_line docs C O HO HC st s); auto. apply C102_str; auto.
  eapply LShellFull.current_wf; eauto.
Qed.
Print Assumptions C103_print.
(** C103: the line [pop k] takes the sudoku at position k from the stack. *)
Theorem C103_pop : forall W, world_ok W -> literal_ints W -> forall st k a, reachable W st -> sh_loop_n st = None ->
  0 <= k -> nth_error (sh_stack st) (Z.to_nat k) = Some a ->
  exists st', execute_line 2 W st (command_text (lit "pop") [k]) = done st' /\ current st' = nth_error (sh_heap st) a /\
    stacked st' = firstn (Z.to_nat k) (stacked st) ++ skipn (S (Z.to_nat k)) (stacked st) /\ sh_out st' = sh_out st /\ sh_err st' = sh_err st.
Proof. exact pop_line. Qed.
Print Assumptions C103_pop.
(** C103: the lines between [loop n] and [loop end] are executed n times. *)
Theorem C103_loop : forall W, world_ok W -> literal_ints W -> forall st n parts cs, reachable W st -> sh_loop_n st = None -> 0 < n ->
  Forall2 (fun s c => parse W (strip s) = Ok c /\ ~ is_loop c /\ ~ is_exit c) parts cs -> (forall s, In s parts -> ~ In 59 s) ->
  let o1 := do_each (execute_line 2 W) ([command_text (lit "loop") [n]] ++ parts ++ [lit "loop end"]) st in
  let o2 := do_times (Z.to_nat n) (do_each (execute_line 2 W) parts) st in
  snd o1 = snd o2 /\ loop_reset (fst o1) = fst o2 /\ (snd o2 = None -> fst o1 = fst o2).
Proof. exact loop_lines. Qed.
Print Assumptions C103_loop.

(** A text with all kinds of arguments *)
Example C103_read_ex : parse help_world (lit "view align_right=False prefix='/' end print align_right=7 -3") =
  Ok (mkCommand (lit "view") [lit "sudoku"] [VKeyword (lit "end"); VCommand (lit "print"); VInt (-3)]
       [(lit "align_right", VInt 7); (lit "prefix", VStr (lit "/"))]).
Proof. vm_compute. reflexivity. Qed.
Example C103_refused_ex :
  parse help_world (lit "vieww x 3") = Err ValueError /\ parse help_world (lit "vieww 3") = Err KeyError /\
  parse help_world (lit "view  3") = Err ValueError /\ parse help_world (lit "view prefix==3") = Err ValueError.
Proof. splits; vm_compute; reflexivity. Qed.
Lemma help_ints : literal_ints help_other.
Proof.
  intros n. cbn [help_other w_literal]. unfold help_literal.
  assert (C : forall x c, str_of_int n = x -> In c x -> 45 <= c <= 57) by (intros x c <- H; eapply digits_char; eauto).
  repeat match goal with |- context [str_eqb (str_of_int n) ?t] => destruct (str_eqb (str_of_int n) t) eqn:E;
    [apply str_eqb_eq in E; exfalso; pose proof (C _ _ E (or_introl eq_refl)) as X; cbn in X; lia|clear E] end.
  rewrite LStr.int_of_str_of_int. reflexivity.
Qed.
Example C103_ex : let st := help_after [lit "set 4 -1 12"] in command_text (lit "set") [4; -1; 12] = lit "set 4 -1 12" /\ sh_err st = [] /\
  option_map (fun s => getitem s 4 8) (current st) = Some (Ok 12).
Proof. split; [|split]; vm_compute; reflexivity. Qed.

(** C95: for the usual arguments, the smaller model of the library functions (MShellLib.v) is the same as the full one. *)
Theorem C95_simple_calls : forall docs C O n name args,
  (forall r, lib_fun name args = Some r -> w_fun (full_world docs C O) n name args [] = r) /\
  (forall s r, lib_sudoku name s args = Some r -> w_sudoku (full_world docs C O) n name s args [] = r).
Proof. intros. split; intros; [eapply lib_fun_full|eapply lib_sudoku_full]; eauto. Qed.
Print Assumptions C95_simple_calls.
Example C95_simple_ex : lib_fun (lit "decode") [VStr (lit "0000000000000000")] = Some (RFresh (new_sudoku (2, 2))).
Proof. vm_compute. reflexivity. Qed.
