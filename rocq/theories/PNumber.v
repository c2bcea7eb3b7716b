(** C130: the number of solutions. *)
From Verif Require Import LNumber LCheck.
From Verif Require PDlx PClues.
From Coq Require Import Factorial.

(** C130: a poor puzzle has an even number of solutions. *)
Theorem C130_even : forall ord s, (forall p l, Permutation (ord p l) l) -> wf s -> poor s -> Nat.Even (length (gyields (dlx ord s) tt)).
Proof. exact C130_even_proof. Qed.
Print Assumptions C130_even.

(** C130: k absent numbers make the number of solutions a multiple of k!. *)
Theorem C130_factorial : forall ord s A, (forall p l, Permutation (ord p l) l) -> wf s -> NoDup A -> (forall a, In a A -> 1 <= a <= box_width s * box_height s) ->
  (forall p, field s p -> ~ In (num s p) A) -> Nat.divide (fact (length A)) (length (gyields (dlx ord s) tt)).
Proof. exact C130_fact_proof. Qed.
Print Assumptions C130_factorial.

(** C130: the number of all filled sudokus of a size is a multiple of N!. *)
Theorem C130_empty : forall ord w h, (forall p l, Permutation (ord p l) l) -> 1 <= w -> 1 <= h ->
  Nat.divide (fact (Z.to_nat (w * h))) (length (gyields (dlx ord (new_sudoku (w, h))) tt)).
Proof. exact C130_empty_proof. Qed.
Print Assumptions C130_empty.

(** C130: the same for bruteforce. *)
Theorem C130_bruteforce : forall ord s, (forall t l, Permutation (ord t l) l) -> wf s -> in_range s ->
  (poor s -> Nat.Even (length (gyields (bruteforce ord s) tt))) /\
  forall A, NoDup A -> (forall a, In a A -> 1 <= a <= box_width s * box_height s) -> (forall p, field s p -> ~ In (num s p) A) ->
    Nat.divide (fact (length A)) (length (gyields (bruteforce ord s) tt)).
Proof. exact C130_bruteforce_proof. Qed.
Print Assumptions C130_bruteforce.

Example C130_ex_even : length (gyields (dlx PDlx.some_order PClues.half4) tt) = 4%nat.
Proof. vm_compute. reflexivity. Qed.
Definition two4 : sudoku := of_rows 2 2 [[1; 0; 0; 0]; [0; 0; 0; 0]; [0; 0; 0; 0]; [0; 0; 0; 2]].
Example C130_ex_factorial : wf two4 /\ (forall p, field two4 p -> ~ In (num two4 p) [3; 4]) /\ length (gyields (dlx PDlx.some_order two4) tt) = 18%nat.
Proof.
  split; [apply wfb_ok; vm_compute; reflexivity|]. split; [|vm_compute; reflexivity].
  intros p Fp. apply in_coords in Fp. revert p Fp. apply Forall_forall. vm_compute. repeat constructor; intuition discriminate.
Qed.
Example C130_ex_empty : length (gyields (dlx PDlx.some_order (new_sudoku (1, 3))) tt) = 12%nat.
Proof. vm_compute. reflexivity. Qed.
