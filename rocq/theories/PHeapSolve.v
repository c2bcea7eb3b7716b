(** Properties C111: a consumer cannot disturb a search.  Statements use only the model functions
    and the specification files; the proofs are in the L*.v files. *)
From Verif Require Import LHeap LHeapSolve.

(** C111: let a program have executed [ops], let object i (reference r) contain s when next() is called for the first time on bruteforce(object i), and let the consumer execute the statements [plan] between the calls of next(): writing to the argument, to the solutions it was given, copying them or creating further sudokus.  Then the solutions contain, when they are handed over, what the search alone delivers for s, one after the other; afterwards every object the consumer knows contains what the consumer's own statements make of it (the search changes none of them); and no object is delivered twice. *)
Theorem C111_bruteforce : forall ord ops i s r plan,
  content (h_run ops) i = Some s -> nth_error (snd (h_run ops)) i = Some r ->
  let (ys, st) := h_consume plan (h_bruteforce ord (fst (h_run ops)) r) (h_run ops) in
  ys = map Some (firstn (length plan) (gyields (bruteforce ord s) tt)) /\
  map (h_contents (fst st)) (snd st) = map Some (v_consume plan (gyields (bruteforce ord s) tt) (v_run ops)) /\
  NoDup (snd st).
Proof. intros. eapply run_search; eauto. intros. eapply bruteforce_rel; eauto. Qed.
Print Assumptions C111_bruteforce.

(** C111: the same for dlx. *)
Theorem C111_dlx : forall ord ops i s r plan,
  content (h_run ops) i = Some s -> nth_error (snd (h_run ops)) i = Some r ->
  let (ys, st) := h_consume plan (h_dlx ord (fst (h_run ops)) r) (h_run ops) in
  ys = map Some (firstn (length plan) (gyields (dlx ord s) tt)) /\
  map (h_contents (fst st)) (snd st) = map Some (v_consume plan (gyields (dlx ord s) tt) (v_run ops)) /\
  NoDup (snd st).
Proof. intros. eapply run_search; eauto. intros. eapply dlx_rel; eauto. Qed.
Print Assumptions C111_dlx.

(** C111: a consumer that only collects the solutions has, in the end, all its objects as they were, followed by the solutions. *)
Theorem C111_collect : forall ord ops i s r n,
  content (h_run ops) i = Some s -> nth_error (snd (h_run ops)) i = Some r ->
  let st := snd (h_consume (repeat [] n) (h_bruteforce ord (fst (h_run ops)) r) (h_run ops)) in
  map (h_contents (fst st)) (snd st) = map Some (v_run ops ++ firstn n (gyields (bruteforce ord s) tt)).
Proof.
  intros ord ops i s r n C H. pose proof (C111_bruteforce ord ops i s r (repeat [] n) C H) as T.
  destruct (h_consume (repeat [] n) _ _) as [ys st]. cbn [snd]. destruct T as [_ [-> _]]. f_equal. apply collect_all.
Qed.
Print Assumptions C111_collect.

(** A 4x4 sudoku without three of its rows.  After the first solution the consumer clears a field of the argument and overwrites a field of that solution; after the second it copies the first. *)
Definition C111_prog : list hop := [ONew (2, 2); OSet 0 0 0 1; OSet 0 0 1 2; OSet 0 0 2 3; OSet 0 0 3 4; OSet 0 1 0 3; OSet 0 1 1 4; OSet 0 3 0 4; OSet 0 1 2 1].
Definition C111_plan : list (list hop) := [[OSet 0 0 0 0; OSet 1 3 3 0; OSetC 1 0 0 [1; 2]]; [OCopy 1 true; OSet 2 0 0 9]; []].
Definition rows_of (o : option sudoku) : list (list Z) := match o with Some s => s_numbers s | None => [] end.
Definition C111_sol1 := [[1; 2; 3; 4]; [3; 4; 1; 2]; [2; 1; 4; 3]; [4; 3; 2; 1]].
Definition C111_sol2 := [[1; 2; 3; 4]; [3; 4; 1; 2]; [2; 3; 4; 1]; [4; 1; 2; 3]].
Definition C111_end : list (list (list Z)) :=
  [[[0; 2; 3; 4]; [3; 4; 1; 0]; [0; 0; 0; 0]; [4; 0; 0; 0]];
   [[1; 2; 3; 4]; [3; 4; 1; 2]; [2; 1; 4; 3]; [4; 3; 2; 0]];
   [[9; 2; 3; 4]; [3; 4; 1; 2]; [2; 3; 4; 1]; [4; 1; 2; 3]];
   [[1; 2; 3; 4]; [3; 4; 1; 2]; [2; 1; 4; 3]; [4; 3; 2; 0]]].
Example C111_ex : exists s r, content (h_run C111_prog) 0 = Some s /\ nth_error (snd (h_run C111_prog)) 0 = Some r /\
  (let (ys, st) := h_consume C111_plan (h_bruteforce (fun _ c => c) (fst (h_run C111_prog)) r) (h_run C111_prog) in
   map rows_of ys = [C111_sol1; C111_sol2] /\ map (fun o => rows_of (h_contents (fst st) o)) (snd st) = C111_end) /\
  (let (ys, st) := h_consume C111_plan (h_dlx (fun _ l => l) (fst (h_run C111_prog)) r) (h_run C111_prog) in
   map rows_of ys = [C111_sol1; C111_sol2] /\ map (fun o => rows_of (h_contents (fst st) o)) (snd st) = C111_end).
Proof. eexists _, _. split; [vm_compute; reflexivity|]. split; [vm_compute; reflexivity|]. split; vm_compute; split; reflexivity. Qed.
