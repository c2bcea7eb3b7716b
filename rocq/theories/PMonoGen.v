(** C131: the same random decisions, more numbers asked for. *)
From Verif Require Import LMonoGen LCheck.
From Verif Require PGenerate.

(** C131: with the same created solution and the same shuffled fields, asking for more numbers gives a puzzle that
    contains all the numbers of the puzzle with fewer -- whatever the orders of the searches. *)
Theorem C131_generate : forall co sh ord ord' m m' y w h s s', 1 <= w -> 1 <= h ->
  create_admissible co -> (forall l, Permutation (sh l) l) ->
  (forall k p l, Permutation (ord k p l) l) -> (forall k p l, Permutation (ord' k p l) l) -> m <= m' ->
  generate {| go_create := co; go_shuffle := sh; go_ord := ord |} m y (w, h) = Ok s ->
  generate {| go_create := co; go_shuffle := sh; go_ord := ord' |} m' y (w, h) = Ok s' ->
  forall p, cell w h p -> num s p = 0 \/ num s p = num s' p.
Proof. exact C131_generate_proof. Qed.
Print Assumptions C131_generate.

(** C131: so it has at least as many numbers. *)
Theorem C131_count : forall co sh ord ord' m m' y w h s s' n n', 1 <= w -> 1 <= h ->
  create_admissible co -> (forall l, Permutation (sh l) l) ->
  (forall k p l, Permutation (ord k p l) l) -> (forall k p l, Permutation (ord' k p l) l) -> m <= m' ->
  generate {| go_create := co; go_shuffle := sh; go_ord := ord |} m y (w, h) = Ok s ->
  generate {| go_create := co; go_shuffle := sh; go_ord := ord' |} m' y (w, h) = Ok s' ->
  count s = Ok n -> count s' = Ok n' -> n <= n'.
Proof. exact C131_count_proof. Qed.
Print Assumptions C131_count.

Example C131_ex : exists s s', generate PGenerate.go_ex 6 SymRotate180 (2, 2) = Ok s /\
  generate PGenerate.go_ex 12 SymRotate180 (2, 2) = Ok s' /\ count s = Ok 6 /\ count s' = Ok 12.
Proof. do 2 eexists. split; [vm_compute; reflexivity|]. split; [vm_compute; reflexivity|]. split; [> vm_compute; reflexivity ..]. Qed.

(** C131: the puzzle depends on the created solution and the shuffled fields only, not on the order in which the
    uniqueness checks search. *)
Theorem C131_order : forall co sh ord ord' m y w h, 1 <= w -> 1 <= h ->
  create_admissible co -> (forall l, Permutation (sh l) l) ->
  (forall k p l, Permutation (ord k p l) l) -> (forall k p l, Permutation (ord' k p l) l) ->
  generate {| go_create := co; go_shuffle := sh; go_ord := ord |} m y (w, h) =
  generate {| go_create := co; go_shuffle := sh; go_ord := ord' |} m y (w, h).
Proof. exact C131_order_proof. Qed.
Print Assumptions C131_order.

(** C131: a template that succeeds still succeeds with more filled fields, and not later: with the same random
    decisions, no attempt with the smaller template succeeds before. *)
Theorem C131_template : forall fuel o template template' tries s, wf template -> wf template' ->
  box_size template' = box_size template ->
  (forall p, field template p -> num template p <> 0 -> num template' p <> 0) ->
  (forall t, create_admissible (fst (o t)) /\ (forall p l, Permutation (snd (o t) p l) l)) ->
  generate_from_template fuel o template tries = Ok s ->
  exists fuel' s' t', generate_from_template fuel' o template' tries = Ok s' /\ attempt o template' t' s' /\
    forall t a, 0 <= t -> attempt o template t a -> unique_solution a -> t' <= t.
Proof. intros fuel o tp tp' tries s W W' B H. apply C131_template_proof; auto. split; auto. Qed.
Print Assumptions C131_template.

(** The pattern of a generated puzzle as the template, and a full template. *)
Definition six4 : sudoku := Eval vm_compute in
  match generate PGenerate.go_ex 6 SymRotate180 (2, 2) with Ok s => s | Err _ => new_sudoku (2, 2) end.
Example C131_template_ex : count six4 = Ok 6 /\
  generate_from_template 3 (fun t => (PGenerate.co_ex, fun _ l => l)) six4 3 = Ok six4 /\
  wf six4 /\ wf ex4sol /\ box_size ex4sol = box_size six4 /\
  (forall p, field six4 p -> num six4 p <> 0 -> num ex4sol p <> 0).
Proof.
  split; [vm_compute; reflexivity|]. split; [vm_compute; reflexivity|]. split; [apply wfb_ok; vm_compute; reflexivity|].
  split; [apply wfb_ok; vm_compute; reflexivity|]. split; [reflexivity|].
  intros p Fp _. apply in_coords in Fp. revert p Fp. apply Forall_forall. vm_compute. repeat constructor; discriminate.
Qed.
