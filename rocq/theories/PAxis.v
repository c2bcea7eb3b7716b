(** C129: how many fields of a symmetric puzzle are filled. *)
From Verif Require Import LAxis LCheck.
From Verif Require PGenerate.

(** C129: the filled fields on the axes, and complete classes. *)
Theorem C129_pattern : forall y s, wf s -> y <> SymOther -> symmetric y s ->
  exists l, NoDup l /\ (forall p, In p l <-> field s p /\ on_axis y (box_width s * box_height s) p /\ num s p <> 0) /\
    exists a, 0 <= a /\ count s = Ok (Z.of_nat (length l) + class_size y * a).
Proof. exact C129_pattern_proof. Qed.
Print Assumptions C129_pattern.

(** C129: with an even number of rows there are no axes. *)
Theorem C129_even : forall y s n, wf s -> y <> SymOther -> symmetric y s -> Z.even (box_width s * box_height s) = true -> count s = Ok n -> (class_size y | n).
Proof. exact C129_even_proof. Qed.
Print Assumptions C129_even.

(** C129: generate() stops less than one class above min_count, or no class can be emptied. *)
Theorem C129_generate : forall o m y w h s, 1 <= w -> 1 <= h -> generate_admissible o -> generate o m y (w, h) = Ok s ->
  symmetric y s /\
  ((exists n, count s = Ok n /\ n < m + class_size y) \/
   (forall p t, field s p -> num s p <> 0 -> emptied y s p t -> ~ unique_solution t)).
Proof. exact C129_generate_proof. Qed.
Print Assumptions C129_generate.

Example C129_ex_even : exists s, generate PGenerate.go_ex 9 SymRotate90 (2, 2) = Ok s /\ count s = Ok 12.
Proof. eexists. split; [> vm_compute; reflexivity ..]. Qed.
Example C129_ex_odd : exists s, generate PGenerate.go_ex 2 SymMirrorX (1, 3) = Ok s /\ count s = Ok 3 /\ s_numbers s = [[1; 0; 0]; [0; 1; 0]; [3; 0; 0]].
Proof. eexists. split; [vm_compute; reflexivity|]. split; [> vm_compute; reflexivity ..]. Qed.
