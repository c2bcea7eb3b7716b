(** C132: the solutions, split by the number of one field. *)
From Verif Require Import LSplit LCheck.
From Verif Require PDlx PClues.

(** C132: the number of solutions is the sum of the numbers of solutions with each candidate written into an empty field. *)
Theorem C132_split : forall ord ords s r c l t, (forall p k, Permutation (ord p k) k) ->
  (forall v p k, Permutation (ords v p k) k) -> wf s -> field s (r, c) -> num s (r, c) = 0 ->
  calc_candidates s r c = Ok l -> (forall v, In v l -> setitem s r c v = Ok (t v)) ->
  length (gyields (dlx ord s) tt) = list_sum (map (fun v => length (gyields (dlx (ords v) (t v)) tt)) l).
Proof. exact C132_split_proof. Qed.
Print Assumptions C132_split.

(** C132: the same for bruteforce, whatever the filled fields contain. *)
Theorem C132_bruteforce : forall ord ords s r c l t, (forall p k, Permutation (ord p k) k) ->
  (forall v p k, Permutation (ords v p k) k) -> wf s -> field s (r, c) -> num s (r, c) = 0 ->
  calc_candidates s r c = Ok l -> (forall v, In v l -> setitem s r c v = Ok (t v)) ->
  length (gyields (bruteforce ord s) tt) = list_sum (map (fun v => length (gyields (bruteforce (ords v) (t v)) tt)) l).
Proof. exact C132_brute_proof. Qed.
Print Assumptions C132_bruteforce.

(** C132: any other number makes the sudoku unsolvable. *)
Theorem C132_other : forall ord s r c l v t, (forall p k, Permutation (ord p k) k) -> wf s -> field s (r, c) -> num s (r, c) = 0 ->
  calc_candidates s r c = Ok l -> v <> 0 -> ~ In v l -> setitem s r c v = Ok t -> gyields (dlx ord t) tt = [].
Proof. exact C132_other_proof. Qed.
Print Assumptions C132_other.

(** C132: filling an empty field never adds solutions. *)
Theorem C132_fewer : forall ord ord' s r c v t, (forall p k, Permutation (ord p k) k) -> (forall p k, Permutation (ord' p k) k) ->
  wf s -> field s (r, c) -> num s (r, c) = 0 -> v <> 0 -> setitem s r c v = Ok t ->
  (length (gyields (dlx ord' t) tt) <= length (gyields (dlx ord s) tt))%nat.
Proof. exact C132_fewer_proof. Qed.
Print Assumptions C132_fewer.

(** C132: a sudoku with an empty field is unique exactly if each empty field has exactly one number that leaves it solvable. *)
Theorem C132_unique : forall ord ords s, (forall p k, Permutation (ord p k) k) -> (forall t p k, Permutation (ords t p k) k) ->
  wf s -> (exists p, field s p /\ num s p = 0) ->
  (is_unique ord s = Ok true <->
   forall r c, field s (r, c) -> num s (r, c) = 0 ->
     exists v t, v <> 0 /\ setitem s r c v = Ok t /\ gyields (dlx (ords t) t) tt <> [] /\
       forall v' t', v' <> 0 -> setitem s r c v' = Ok t' -> gyields (dlx (ords t') t') tt <> [] -> v' = v).
Proof. exact C132_unique_proof. Qed.
Print Assumptions C132_unique.

(** Four solutions: two with each of the candidates 1 and 3 of the first field. *)
Example C132_ex : exists t1 t3, calc_candidates PClues.half4 0 0 = Ok [1; 3] /\
  setitem PClues.half4 0 0 1 = Ok t1 /\ setitem PClues.half4 0 0 3 = Ok t3 /\
  length (gyields (dlx PDlx.some_order PClues.half4) tt) = 4%nat /\
  length (gyields (dlx PDlx.some_order t1) tt) = 2%nat /\ length (gyields (dlx PDlx.some_order t3) tt) = 2%nat.
Proof.
  do 2 eexists. split; [vm_compute; reflexivity|]. split; [vm_compute; reflexivity|]. split; [vm_compute; reflexivity|].
  split; [|split]; vm_compute; reflexivity.
Qed.
