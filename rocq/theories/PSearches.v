(** Properties C139: several searches at the same time.  Statements use only the model functions
    and the specification files; the proofs are in the L*.v files. *)
From Coq Require Import Permutation.
From Verif Require Import Spec LCheck LSearches PBrute PDlx.

(** C139: a program creates, copies and changes sudokus, starts any number of searches (bruteforce or dlx) on them, also on the same sudoku and on the solutions it was given, and calls next() on them in any order.  Every sudoku it knows then contains what it should contain if sudokus were values and a search, from the first next() on, a list of solutions; every solution contained when it was handed over what it should; and no object is handed over twice. *)
Theorem C139_program : forall ops,
  map (h_contents (m_heap (m_run ops))) (m_objs (m_run ops)) = map Some (v_objs (vm_run ops)) /\
  m_log (m_run ops) = map (fun x => (fst x, Some (snd x))) (v_log (vm_run ops)) /\
  NoDup (m_objs (m_run ops)).
Proof. exact m_run_values. Qed.
Print Assumptions C139_program.

(** C139: let search number j (method m, argument r) not be started after the statements [pre], and let its argument contain s then.  If next() is called on it now and the program goes on with the statements [post], search number j delivers what it would deliver alone for s, one solution for each call of next(), whatever else happens in [post]. *)
Theorem C139_search : forall pre post j m r s,
  nth_error (m_searches (m_run pre)) j = Some (Fresh m r) -> h_contents (m_heap (m_run pre)) r = Some s ->
  delivered j (m_log (m_run (pre ++ MNext j :: post))) = map Some (firstn (S (nexts j post)) (alone m s)).
Proof. exact search_run. Qed.
Print Assumptions C139_search.

(** C139: if next() is called often enough, the search delivers every solution of s exactly once, and nothing else. *)
Theorem C139_complete : forall pre post j m r s,
  nth_error (m_searches (m_run pre)) j = Some (Fresh m r) -> h_contents (m_heap (m_run pre)) r = Some s ->
  wf s -> fair m -> (length (alone m s) <= S (nexts j post))%nat ->
  exists ys, delivered j (m_log (m_run (pre ++ MNext j :: post))) = map Some ys /\ enumerates s (goal m s) ys.
Proof.
  intros pre post j m r s E C W F L. exists (alone m s). rewrite (search_run pre post j m r s E C), firstn_all2 by exact L. split; [reflexivity|].
  destruct m as [ord|ord]; [apply (C19_bruteforce_complete ord s F W)|apply (C23_dlx_complete ord s F W)].
Qed.
Print Assumptions C139_complete.

(** Two searches on the same 4x4 sudoku (two solutions), asked in turn; in between, a field of the argument is cleared and the first solution is overwritten and searched itself. *)
Definition C139_pre : list mop := map MOp [ONew (2, 2); OSet 0 0 0 1; OSet 0 0 1 2; OSet 0 0 2 3; OSet 0 0 3 4; OSet 0 1 0 3; OSet 0 1 1 4; OSet 0 3 0 4; OSet 0 1 2 1]
  ++ [MSearch (UseBruteforce (fun _ c => c)) 0; MSearch (UseDlx (fun _ l => l)) 0].
Definition C139_post : list mop :=
  [MNext 1; MOp (OSet 0 0 0 0); MOp (OSet 1 3 3 0); MSearch (UseDlx (fun _ l => l)) 1; MNext 2; MNext 0; MNext 1; MNext 2; MNext 0].
Definition C139_a := [[1; 2; 3; 4]; [3; 4; 1; 2]; [2; 1; 4; 3]; [4; 3; 2; 1]].
Definition C139_b := [[1; 2; 3; 4]; [3; 4; 1; 2]; [2; 3; 4; 1]; [4; 1; 2; 3]].
Definition C139_rows (l : list (option sudoku)) : list (list (list Z)) := map (fun o => match o with Some s => s_numbers s | None => [] end) l.
Example C139_ex : exists m r s, nth_error (m_searches (m_run C139_pre)) 0 = Some (Fresh m r) /\ h_contents (m_heap (m_run C139_pre)) r = Some s /\
  wf s /\ fair m /\ (length (alone m s) <= S (nexts 0 C139_post))%nat /\
  (let log := m_log (m_run (C139_pre ++ MNext 0 :: C139_post)) in
   map fst log = [0; 1; 2; 0; 1]%nat /\ C139_rows (delivered 0 log) = [C139_a; C139_b] /\ C139_rows (delivered 1 log) = [C139_a; C139_b] /\
   C139_rows (delivered 2 log) = [C139_a]).
Proof.
  eexists _, _, _. split; [reflexivity|]. split; [vm_compute; reflexivity|]. split; [apply wfb_ok; vm_compute; reflexivity|].
  split; [intros t l; apply Permutation_refl|]. split; [vm_compute; repeat constructor|]. split; [vm_compute; reflexivity|]. split; [vm_compute; reflexivity|]. split; vm_compute; reflexivity.
Qed.
