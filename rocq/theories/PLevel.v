(** Properties C117-C119: what the result of rate() means.  Statements use only the model functions and the specification files; the
    proofs are in the L*.v files. *)
From Verif Require Import LLevel4 LCheck PSolvers.

(** C117: a sudoku rated r is solved by hints up to r, and not by hints below. *)
Theorem C117_rate_level : forall o fuel s t f r, oracle_ok o -> wf s -> solution s f -> init_candidates s false = Ok t -> rate fuel o s = Ok r ->
  0 <= r <= 10 /\ forall k, 0 <= k -> (solvable_with k t <-> r <= k).
Proof. exact C117_proof. Qed.
Print Assumptions C117_rate_level.

(** C117: the rating does not depend on the order of Python's sets. *)
Theorem C117_rate_order : forall o o' fuel fuel' s f r r', oracle_ok o -> oracle_ok o' -> wf s -> solution s f ->
  rate fuel o s = Ok r -> rate fuel' o' s = Ok r' -> r' = r.
Proof. intros o o' fuel fuel' s f r r' Ho Ho' W Hf H H'. apply Z.le_antisymm; [apply (C119_proof o o' fuel fuel' s s f)|apply (C119_proof o' o fuel' fuel s s f)]; auto. Qed.
Print Assumptions C117_rate_order.

(** A sudoku with a solution that needs a pair. *)
Definition two6 : sudoku := of_rows 3 2
  [[0; 0; 2; 0; 4; 0];
   [3; 0; 0; 0; 0; 0];
   [0; 3; 0; 0; 0; 6];
   [0; 0; 0; 0; 0; 0];
   [2; 0; 0; 0; 0; 1];
   [1; 0; 5; 0; 2; 0]].
Definition two6sol : sudoku := of_rows 3 2
  [[6; 1; 2; 3; 4; 5]; [3; 5; 4; 6; 1; 2]; [4; 3; 1; 2; 5; 6]; [5; 2; 6; 1; 3; 4]; [2; 4; 3; 5; 6; 1]; [1; 6; 5; 4; 2; 3]].
Definition two6i : sudoku := Eval vm_compute in with_cands two6.
Lemma two6_ok : wf two6 /\ solution two6 (num two6sol) /\ init_candidates two6 false = Ok two6i.
Proof. split; [apply wfb_ok; vm_compute; reflexivity|]. split; [apply solutionb_ok; vm_compute; reflexivity|]. vm_compute. reflexivity. Qed.
Lemma two6_rate : rate 40 o_ex two6 = Ok 2.
Proof. vm_compute. reflexivity. Qed.
Example C117_ex : solvable_with 2 two6i /\ ~ solvable_with 1 two6i.
Proof.
  destruct two6_ok as [W [Hf Et]]. destruct (C117_rate_level o_ex 40 two6 two6i _ 2 o_ex_ok W Hf Et two6_rate) as [_ H].
  split; [apply H; lia|]. rewrite H; lia.
Qed.

(** C118: steps up to a rating below that of Bruteforce can be applied in any order: every play can be continued to the same end ... *)
Theorem C118_confluence : forall o s t f r u v, oracle_ok o -> wf s -> solution s f -> init_candidates s false = Ok t -> r < 10 ->
  play r t u -> stuck r u -> play r t v -> play r v u.
Proof. intros o s t f r u v Ho W Hf Et Hr Pu Su Pv. destruct (C118_proof o s t f r u v Ho W Hf Et Hr Pu Su Pv) as [z [P <-]]. exact P. Qed.
Print Assumptions C118_confluence.

(** ... such an end exists, and is reached in the end ... *)
Theorem C118_end : forall o s t f r, oracle_ok o -> wf s -> solution s f -> init_candidates s false = Ok t ->
  exists u, play r t u /\ stuck r u.
Proof. exact C118_end_proof. Qed.
Print Assumptions C118_end.
Theorem C118_ends : forall s t f r plays, wf s -> solution s f -> init_candidates s false = Ok t -> plays O = t ->
  ~ (forall i, exists st st', hint_up_to r (plays i) st /\ apply st (plays i) = Ok (st', plays (S i))).
Proof. intros s t f r plays W Hf Et. exact (C118_ends_proof s t f r W Hf Et plays). Qed.
Print Assumptions C118_ends.

(** ... there is only one ... *)
Theorem C118_unique : forall o s t f r u v, oracle_ok o -> wf s -> solution s f -> init_candidates s false = Ok t -> r < 10 ->
  play r t u -> stuck r u -> play r t v -> stuck r v -> u = v.
Proof.
  intros o s t f r u v Ho W Hf Et Hr Pu Su Pv Sv. pose proof (C118_confluence o s t f r u v Ho W Hf Et Hr Pu Su Pv) as P.
  destruct P as [|v st st' s1 u H _ _]; [reflexivity|]. destruct (Sv st H).
Qed.
Print Assumptions C118_unique.

(** ... and it is the solution exactly if the hints can solve the sudoku at all. *)
Theorem C118_complete : forall o s t f r u, oracle_ok o -> wf s -> solution s f -> init_candidates s false = Ok t -> r < 10 ->
  play r t u -> stuck r u -> (complete u <-> solvable_with r t).
Proof. exact C118_complete_proof. Qed.
Print Assumptions C118_complete.

(** Below the rating of Bruteforce only: with it two plays may end in different solutions. *)
Definition two2 : sudoku := of_rows 2 1 [[0; 0]; [0; 0]].
Definition two2i : sudoku := Eval vm_compute in with_cands two2.
Definition o_rev : oracle := mkOracle (fun _ _ l => l) (fun _ _ l => rev l).
Lemma o_rev_ok : oracle_ok o_rev.
Proof. split; intros; cbn; auto. apply Permutation_sym, Permutation_rev. Qed.
Fixpoint brute_first (n : nat) (o : oracle) (s : sudoku) : sudoku :=
  match n with
  | O => s
  | S n => match glist (MSolvers.find o Bruteforce s) s with
           | Ok (st :: _) => match apply st s with Ok (_, s1) => brute_first n o s1 | Err _ => s end
           | _ => s
           end
  end.
Lemma brute_play : forall o n s, oracle_ok o -> play 10 s (brute_first n o s).
Proof.
  intros o n; induction n as [|n IH]; intros s Ho; cbn [brute_first]; [constructor|].
  destruct (glist (MSolvers.find o Bruteforce s) s) as [[|st ys]|] eqn:E; try constructor.
  destruct (apply st s) as [[st' s1]|] eqn:A; [|constructor]. econstructor; [|exact A|apply IH; auto].
  exists o, Bruteforce, (st :: ys), 10. split; [auto|]. split; [exact E|]. split; [left; auto|]. split; [reflexivity|lia].
Qed.
Theorem C118_bruteforce_refuted : exists s t f u v, wf s /\ solution s f /\ init_candidates s false = Ok t /\
  play 10 t u /\ stuck 10 u /\ play 10 t v /\ stuck 10 v /\ u <> v.
Proof.
  assert (W : wf two2) by (apply wfb_ok; vm_compute; reflexivity).
  assert (Hf : solution two2 (num (of_rows 2 1 [[1; 2]; [2; 1]]))) by (apply solutionb_ok; vm_compute; reflexivity).
  assert (Et : init_candidates two2 false = Ok two2i) by (vm_compute; reflexivity).
  pose proof (brute_play o_ex 4 two2i o_ex_ok) as P1. pose proof (brute_play o_rev 4 two2i o_rev_ok) as P2.
  assert (C : forall u, s_numbers u = [[1; 2]; [2; 1]] \/ s_numbers u = [[2; 1]; [1; 2]] -> box_width u = 2 -> box_height u = 1 -> complete u).
  { intros u Hu Ew Eh [r c] Fp. unfold field, cell in Fp. rewrite Ew, Eh in Fp. cbn [fst snd] in Fp.
    assert (r = 0 \/ r = 1) by lia. assert (c = 0 \/ c = 1) by lia. destruct u as [a b n m]. cbn [s_numbers] in Hu.
    destruct Hu as [-> | ->], H as [-> | ->], H0 as [-> | ->]; discriminate. }
  exists two2, two2i, (num (of_rows 2 1 [[1; 2]; [2; 1]])), (brute_first 4 o_ex two2i), (brute_first 4 o_rev two2i).
  split; [exact W|]. split; [exact Hf|]. split; [exact Et|]. split; [exact P1|]. split; [|split; [exact P2|split]].
  - refine (complete_stuck two2 two2i _ 10 10 _ W Hf Et P1 _). apply C; [left|vm_compute|vm_compute]; reflexivity.
  - refine (complete_stuck two2 two2i _ 10 10 _ W Hf Et P2 _). apply C; [right|vm_compute|vm_compute]; reflexivity.
  - intros E. apply (f_equal s_numbers) in E. vm_compute in E. discriminate.
Qed.
Print Assumptions C118_bruteforce_refuted.

Example C118_ex : exists u, play 1 two6i u /\ stuck 1 u /\ ~ complete u.
Proof.
  destruct two6_ok as [W [Hf Et]]. destruct (C118_end o_ex two6 two6i _ 1 o_ex_ok W Hf Et) as [u [P St]]. exists u. split; auto. split; auto.
  rewrite (C118_complete o_ex two6 two6i _ 1 u o_ex_ok W Hf Et ltac:(lia) P St). apply C117_ex.
Qed.

(** C119: filling in right numbers does not raise the rating. *)
Theorem C119_rate_monotone : forall o o' fuel fuel' s s' f r r', oracle_ok o -> oracle_ok o' -> wf s -> wf s' -> solution s' f ->
  box_width s' = box_width s -> box_height s' = box_height s -> (forall p, field s p -> num s p <> 0 -> num s' p = num s p) ->
  rate fuel o s = Ok r -> rate fuel' o' s' = Ok r' -> r' <= r.
Proof. exact C119_proof. Qed.
Print Assumptions C119_rate_monotone.

(** The sudoku of C117 without two of its numbers: Bruteforce is needed. *)
Definition ten6 : sudoku := of_rows 3 2
  [[0; 0; 2; 0; 4; 0];
   [0; 0; 0; 0; 0; 0];
   [0; 3; 0; 0; 0; 6];
   [0; 0; 0; 0; 0; 0];
   [2; 0; 0; 0; 0; 1];
   [1; 0; 5; 0; 0; 0]].
Example C119_ex : wf ten6 /\ (forall p, field ten6 p -> num ten6 p <> 0 -> num two6 p = num ten6 p) /\
  rate 40 o_ex ten6 = Ok 10 /\ rate 40 o_ex two6 = Ok 2.
Proof.
  split; [apply wfb_ok; vm_compute; reflexivity|]. split; [|split; [vm_compute; reflexivity|exact two6_rate]].
  intros [r c] Fp. unfold field, cell in Fp. change (box_width ten6) with 3 in Fp. change (box_height ten6) with 2 in Fp. cbn [fst snd] in Fp.
  assert (r = 0 \/ r = 1 \/ r = 2 \/ r = 3 \/ r = 4 \/ r = 5) by lia. assert (c = 0 \/ c = 1 \/ c = 2 \/ c = 3 \/ c = 4 \/ c = 5) by lia. clear Fp.
  destruct H as [-> |[-> |[-> |[-> |[-> | ->]]]]], H0 as [-> |[-> |[-> |[-> |[-> | ->]]]]]; intros N; first [reflexivity|exfalso; apply N; reflexivity].
Qed.
