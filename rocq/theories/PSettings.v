(** Property C104: the settings of the game.  Statements use only the model functions and the specification files; the
    proofs are in the L*.v files. *)
From Verif Require Import SpecSettings LSettings.

(** C104: the settings of a new GameShell *)
Theorem C104_defaults : forall name v, In (name, v) default_settings <->
  (In name [lit "autocandidates"; lit "autoconflicts"; lit "autoremove"] /\ v = SBool true) \/
  (In name [lit "autocheck"; lit "autoset"] /\ v = SBool false) \/
  (name = lit "dim" /\ v = SPair 3 3) \/ (name = lit "rating" /\ v = SPair 1 10).
Proof.
  intros name v. unfold default_settings. cbn [In]. split.
  - intros H. repeat (destruct H as [H|H]; [injection H as <- <-; tauto|]). contradiction.
  - intros [[H ->]|[[H ->]|[[-> ->]|[-> ->]]]]; repeat (destruct H as [<-|H]; [tauto|]); tauto.
Qed.
Print Assumptions C104_defaults.

(** C104: get_setting is the first number of a pair; TypeError for a bool, KeyError for an unknown name *)
Theorem C104_get : forall cfg name, NoDup (map fst cfg) ->
  (forall a b, In (name, SPair a b) cfg -> get_setting cfg name = Ok a) /\
  (forall b, In (name, SBool b) cfg -> get_setting cfg name = Err TypeError) /\
  ((forall v, ~ In (name, v) cfg) -> get_setting cfg name = Err KeyError).
Proof.
  intros cfg name N. unfold get_setting. split; [|split].
  - intros a b H. rewrite (dget_NoDup str_eqb str_eqb_eq _ _ _ N H). reflexivity.
  - intros b H. rewrite (dget_NoDup str_eqb str_eqb_eq _ _ _ N H). reflexivity.
  - intros H. rewrite (dget_err str_eqb str_eqb_eq); [reflexivity|]. intros I. apply in_map_iff in I. destruct I as [[n v] [E I]].
    cbn in E. subst n. exact (H v I).
Qed.
Print Assumptions C104_get.

(** C104: the command settings shows the pairs by name up to the first bool, on which it raises TypeError. *)
Theorem C104_shown : forall g, NoDup (map fst (gm_settings g)) ->
  exists l, by_name (gm_settings g) l /\
  (forall ps, l = map (fun p => (fst p, SPair (fst (snd p)) (snd (snd p)))) ps ->
     cmd_settings g = (gprint g (concat (map (fun p => pair_line (fst p) (fst (snd p)) (snd (snd p))) ps)), None)) /\
  (forall ps n b l2, l = map (fun p => (fst p, SPair (fst (snd p)) (snd (snd p)))) ps ++ (n, SBool b) :: l2 ->
     cmd_settings g = (gprint g (concat (map (fun p => pair_line (fst p) (fst (snd p)) (snd (snd p))) ps)), Some TypeError)).
Proof. intros g N. destruct (by_name_exists _ N) as [l B]. exists l. split; auto. apply settings_shown; auto. Qed.
Print Assumptions C104_shown.

(** C104: only autocandidates, autoremove and autoset matter: with the same values of these three, a game in which the command
    settings is not entered is the same (autocheck, autoconflicts, dim and rating have no effect). *)
Theorem C104_unused : forall cfg cfg' fuel o E version lines, NoDup (map fst cfg) -> NoDup (map fst cfg') ->
  (forall name, In name used_names -> same_entry cfg cfg' name) -> (forall line, In line lines -> ~ first_word line (lit "settings")) ->
  run fuel o E cfg' version lines = (let* (g, e) := run fuel o E cfg version lines in Ok (with_settings cfg' g, e)).
Proof. intros cfg cfg' fuel o E version lines N N' H. apply map_run. intros name I. apply same_dget; auto. Qed.
Print Assumptions C104_unused.
(** C104: the same for a single line in any state *)
Theorem C104_unused_line : forall cfg' fuel E line g, NoDup (map fst (gm_settings g)) -> NoDup (map fst cfg') ->
  (forall name, In name used_names -> same_entry (gm_settings g) cfg' name) -> ~ first_word line (lit "settings") ->
  game_line fuel E line (with_settings cfg' g) = map_game (with_settings cfg') (game_line fuel E line g).
Proof. intros cfg' fuel E line g N N' H F. apply map_line; auto. intros name I. apply same_dget; auto. Qed.
Print Assumptions C104_unused_line.

Example C104_ex : get_setting default_settings (lit "rating") = Ok 1 /\ get_setting default_settings (lit "autoset") = Err TypeError /\
  get_setting default_settings (lit "size") = Err KeyError /\ NoDup (map fst default_settings).
Proof. split; [reflexivity|]. split; [reflexivity|]. split; [reflexivity|]. repeat constructor; cbn; intuition discriminate. Qed.
(** Settings that are shown in part *)
Example C104_shown_ex : forall g, gm_out g = [] -> gm_settings g = [(lit "rating", SPair 1 10); (lit "zoom", SBool true); (lit "dim", SPair 3 3)] ->
  cmd_settings g = (gprint g (lit "dim = 3              # 3" ++ [10] ++ lit "rating = 1           # 10" ++ [10]), Some TypeError).
Proof.
  intros [cfg hints hinted ss i sol out calls] O E. cbn [gm_settings gm_out] in O, E. subst cfg out. vm_compute. reflexivity.
Qed.
Example C104_unused_ex : let cfg' := [(lit "autoset", SBool false); (lit "autoremove", SBool true); (lit "autocandidates", SBool true); (lit "dim", SPair 2 2)] in
  NoDup (map fst cfg') /\ forall name, In name used_names -> same_entry default_settings cfg' name.
Proof.
  cbv zeta. split; [repeat constructor; cbn; intuition discriminate|].
  intros name H v. unfold default_settings. cbn [In]. unfold used_names in H. cbn [In] in H.
  destruct H as [<-|[<-|[<-|[]]]]; split; intros H; repeat (destruct H as [H|H]; [try discriminate H; injection H as <-; tauto|]); contradiction.
Qed.
