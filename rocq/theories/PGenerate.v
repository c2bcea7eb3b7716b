(** Properties C28-C34: generate.py.  Statements use only the model functions and the
    specification files; the proofs are in the L*.v files. *)
From Verif Require Import LGenerate LCheck.

(** Random decisions for the examples. *)
Definition co_ex : create_oracle :=
  {| co_row := 5; co_col := 2; co_shuffle := @rev Z; co_ord := fun _ l => rev l |}.
Definition go_ex : generate_oracle :=
  {| go_create := co_ex; go_shuffle := @rev coord; go_ord := fun _ _ l => l |}.
Lemma co_ex_ok : create_admissible co_ex.
Proof. split; intros; cbn; symmetry; apply Permutation_rev. Qed.
Lemma go_ex_ok : generate_admissible go_ex.
Proof. split; [apply co_ex_ok|]. split; intros; cbn; auto. symmetry; apply Permutation_rev. Qed.

(** C28: create_solution always returns a solution grid. *)
Theorem C28_create_solution : forall o w h, 1 <= w -> 1 <= h ->
  (forall l, Permutation (co_shuffle o l) l) -> (forall p l, Permutation (co_ord o p l) l) ->
  exists s, create_solution o (w, h) = Ok s /\ wf s /\ box_size s = (w, h) /\
    latin w h (num s) /\ valid_grid w h (num s) /\ (forall p, field s p -> cand s p = []).
Proof. exact C28_proof. Qed.
Print Assumptions C28_create_solution.

Example C28_ex : exists s, create_solution co_ex (2, 3) = Ok s /\ getitem s 5 0 = Ok 2.
Proof. eexists; split; [> vm_compute; reflexivity ..]. Qed.

(** C29: the generated puzzle has exactly one solution. *)
Theorem C29_generate_unique : forall o min_count y w h, 1 <= w -> 1 <= h -> generate_admissible o ->
  min_count <= w ^ 2 * h ^ 2 -> y <> SymOther ->
  exists s, generate o min_count y (w, h) = Ok s /\ wf s /\ box_size s = (w, h) /\ unique_solution s /\
    in_range s /\ conflict_free s /\ (forall p, field s p -> cand s p = []).
Proof. exact C29_proof. Qed.
Print Assumptions C29_generate_unique.

Example C29_ex : exists s, generate go_ex 0 SymRotate180 (2, 2) = Ok s /\ count s = Ok 6 /\
  s_numbers s = [[0; 0; 0; 3]; [0; 0; 2; 1]; [4; 3; 0; 0]; [2; 0; 0; 0]].
Proof. eexists; split; [vm_compute; reflexivity | split; vm_compute; reflexivity]. Qed.

(** C30: at least min_count fields are filled. *)
Theorem C30_generate_min_count : forall o min_count y w h, 1 <= w -> 1 <= h -> generate_admissible o ->
  min_count <= w ^ 2 * h ^ 2 -> y <> SymOther ->
  exists s n, generate o min_count y (w, h) = Ok s /\ count s = Ok n /\ min_count <= n.
Proof. exact C30_proof. Qed.
Print Assumptions C30_generate_min_count.

Example C30_ex : exists s, generate go_ex 9 SymMirrorX (2, 2) = Ok s /\ count s = Ok 10.
Proof. eexists; split; [> vm_compute; reflexivity ..]. Qed.

(** C31: the pattern of filled fields has the requested symmetry. *)
Theorem C31_generate_symmetry : forall o min_count y w h, 1 <= w -> 1 <= h -> generate_admissible o ->
  min_count <= w ^ 2 * h ^ 2 -> y <> SymOther ->
  exists s, generate o min_count y (w, h) = Ok s /\
    forall m p, In m (sym_maps (w * h) y) -> field s p -> field s (m p) /\ (num s p = 0 <-> num s (m p) = 0).
Proof. exact C31_proof. Qed.
Print Assumptions C31_generate_symmetry.

Example C31_ex : sym_maps 4 SymRotate90 <> [] /\
  forall m, In m (sym_maps 4 SymRotate90) -> m (0, 1) = (1, 3).
Proof. split; [discriminate|]. intros m [<-|[]]; reflexivity. Qed.

(** C32: without min_count the puzzle is minimal. *)
Theorem C32_generate_minimal : forall o min_count y w h, 1 <= w -> 1 <= h -> generate_admissible o ->
  min_count <= 0 -> y <> SymOther ->
  exists s, generate o min_count y (w, h) = Ok s /\
    forall p t, field s p -> num s p <> 0 -> wf t -> box_size t = box_size s ->
      (forall q, field s q -> sym_class (w * h) y p q -> num t q = 0) ->
      (forall q, field s q -> ~ sym_class (w * h) y p q -> num t q = num s q) ->
      exists f g q, solution t f /\ solution t g /\ field t q /\ f q <> g q.
Proof. exact C32_proof. Qed.
Print Assumptions C32_generate_minimal.

(** the puzzle of C29_ex without the 3 in (0, 3) and its image, the 2 in (3, 0) *)
Example C32_ex : exists s, generate go_ex 0 SymRotate180 (2, 2) = Ok s /\ num s (0, 3) = 3 /\ num s (3, 0) = 2 /\
  let t := of_rows 2 2 [[0; 0; 0; 0]; [0; 0; 2; 1]; [4; 3; 0; 0]; [0; 0; 0; 0]] in
  wf t /\ solution t (num (of_rows 2 2 [[1; 2; 4; 3]; [3; 4; 2; 1]; [4; 3; 1; 2]; [2; 1; 3; 4]])) /\
  solution t (num (of_rows 2 2 [[2; 1; 3; 4]; [3; 4; 2; 1]; [4; 3; 1; 2]; [1; 2; 4; 3]])).
Proof.
  eexists. split; [vm_compute; reflexivity|]. split; [vm_compute; reflexivity|]. split; [vm_compute; reflexivity|].
  split; [apply wfb_ok; vm_compute; reflexivity|]. split; apply solutionb_ok; vm_compute; reflexivity.
Qed.

(** Without symmetry the class of a field is the field alone. *)
Theorem C32_class_none : forall n p q, sym_class n SymNone p q <-> q = p.
Proof. exact C32_none_proof. Qed.
Print Assumptions C32_class_none.

(** C33: exactly the invalid arguments are rejected. *)
Theorem C33_generate_rejects : forall o min_count y w h, 1 <= w -> 1 <= h -> generate_admissible o ->
  (generate o min_count y (w, h) = Err ValueError <-> min_count > w ^ 2 * h ^ 2 \/ y = SymOther) /\
  (forall e, generate o min_count y (w, h) = Err e -> e = ValueError).
Proof. exact C33_proof. Qed.
Print Assumptions C33_generate_rejects.

Example C33_ex : generate go_ex 17 SymNone (2, 2) = Err ValueError /\ generate go_ex 3 SymOther (2, 2) = Err ValueError.
Proof. split; reflexivity. Qed.

(** C34: what a successful generate_from_template returns. *)
Theorem C34_template_success : forall fuel o template tries s, wf template ->
  (forall t, create_admissible (fst (o t)) /\ (forall p l, Permutation (snd (o t) p l) l)) ->
  generate_from_template fuel o template tries = Ok s ->
  wf s /\ box_size s = box_size template /\ unique_solution s /\
  (forall p, field template p -> (num s p = 0 <-> num template p = 0)) /\
  exists t, 0 <= t /\ (t < tries \/ tries < 0) /\ attempt o template t s /\
    forall i, 0 <= i < t -> exists a, attempt o template i a /\ ~ unique_solution a.
Proof. exact C34_success_proof. Qed.
Print Assumptions C34_template_success.

(** C34: with tries >= 0 it terminates and fails iff all attempts fail. *)
Theorem C34_template_failure : forall fuel o template tries, wf template -> 0 <= tries ->
  tries <= Z.of_nat fuel ->
  (forall t, create_admissible (fst (o t)) /\ (forall p l, Permutation (snd (o t) p l) l)) ->
  ((exists s, generate_from_template fuel o template tries = Ok s) \/
   generate_from_template fuel o template tries = Err RuntimeError) /\
  (generate_from_template fuel o template tries = Err RuntimeError <->
   forall t, 0 <= t < tries -> exists a, attempt o template t a /\ ~ unique_solution a).
Proof. exact C34_failure_proof. Qed.
Print Assumptions C34_template_failure.

(** C34: with tries < 0 it goes on until an attempt succeeds. *)
Theorem C34_template_negative : forall fuel o template tries, wf template -> tries < 0 ->
  (forall t, create_admissible (fst (o t)) /\ (forall p l, Permutation (snd (o t) p l) l)) ->
  (exists s, generate_from_template fuel o template tries = Ok s) \/
  (generate_from_template fuel o template tries = Err OutOfFuel /\
   forall t, 0 <= t < Z.of_nat fuel -> exists a, attempt o template t a /\ ~ unique_solution a).
Proof. exact C34_negative_proof. Qed.
Print Assumptions C34_template_negative.

Example C34_ex : exists s,
  generate_from_template 3 (fun t => (co_ex, fun _ l => l)) ex4sol 3 = Ok s /\
  generate_from_template 3 (fun t => (co_ex, fun _ l => l)) (new_sudoku (2, 2)) 3 = Err RuntimeError.
Proof. eexists; split; [> vm_compute; reflexivity ..]. Qed.
