(** Properties C142: filling a sudoku with candidates.  Statements use only the model functions
    and the specification files; the proofs are in the L*.v files. *)
From Coq Require Import Lia.
From Verif Require Import Spec LBase LCoord LSudoku LSudoku2 LSolve LCheck LGreedy PLoop.

(** C142: a loop over the empty fields that sets each to any of the candidates calculated at that moment keeps a sudoku without conflicts that way, changes no number that was there, and leaves a field empty only if it has no candidates even at the end; if no field is left empty, the result is a solution. *)
Theorem C142_fill : forall s body, wf s -> conflict_free s -> fills_candidate s body ->
  exists t, snd (loop body (empty s) s) = Ok t /\ like s t /\ conflict_free t /\
    extends s (num t) /\ (in_range s -> in_range t) /\
    (forall p, field s p -> num t p = 0 -> num s p = 0 /\ calc_candidates t (fst p) (snd p) = Ok []) /\
    (in_range s -> complete t -> solution s (num t)).
Proof.
  intros s body W CF B. destruct (greedy_loop s body W CF B) as [t [H1 [L C N F0]]]. destruct (like_dims _ _ L) as [Wt [Ew Eh]].
  assert (Ex : extends s (num t)) by (intros p Fp; destruct (N p Fp) as [X|[X _]]; auto).
  exists t. split; [auto|split; [auto|]]. split; [|split; [auto|split; [|split]]].
  - intros p q Fp Fq P. rewrite Ew, Eh in P. apply C; auto; now apply (like_field s t).
  - intros R p Fp. apply (like_field s t) in Fp; auto. rewrite Ew, Eh. specialize (R p Fp). destruct (N p Fp) as [X|[_ X]]; [congruence|lia].
  - intros p Fp E. split; [destruct (N p Fp) as [X|[X _]]; congruence|]. destruct (calc_free s t p L Fp E) as [l [X1 X2]]. rewrite X1. f_equal.
    destruct l as [|n l]; [auto|]. exfalso. apply (F0 p) with (n := n); auto; [now apply in_coords|]. apply X2. left. auto.
  - intros R K. split; [split|auto].
    + intros p Fp. specialize (R p Fp). assert (X : num t p <> 0) by (apply K; now apply (like_field s t)). destruct (N p Fp) as [Y|[_ Y]]; [rewrite Y in *; lia|exact Y].
    + intros p q Fp Fq P. apply C; auto. apply K. now apply (like_field s t).
Qed.
Print Assumptions C142_fill.

(** Case: the least candidate completes this sudoku, the greatest leaves two fields without candidates. *)
Definition fill_with (choose : zset -> option Z) (u : sudoku) (p : coord) : sudoku :=
  match calc_candidates u (fst p) (snd p) with
  | Ok l => match choose l with Some v => put (fun _ => v) u p | None => u end
  | Err _ => u
  end.
Lemma C142_ex_body : forall s choose, (forall l v, choose l = Some v -> In v l) -> (forall l, l <> [] -> choose l <> None) ->
  fills_candidate s (fill_with choose).
Proof.
  intros s choose H1 H2. split.
  - intros u p L F. unfold fill_with. destruct (calc_candidates u (fst p) (snd p)) as [l|]; auto. destruct (choose l); auto. apply put_ok; auto.
  - intros u p L F E. unfold fill_with. split.
    + intros q G D. destruct (calc_candidates u (fst p) (snd p)) as [l|]; auto. destruct (choose l); auto. rewrite (put_num s) by auto.
      destruct (coord_eqb q p) eqn:X; auto. apply coord_eqb_eq in X. contradiction.
    + intros l ->. destruct (choose l) as [v|] eqn:X.
      * right. rewrite (put_num s), coord_eqb_refl by auto. auto.
      * left. split; auto. destruct l; auto. exfalso. apply (H2 (z :: l)); auto. discriminate.
Qed.
Definition least (l : zset) : option Z := hd_error l.
Definition greatest (l : zset) : option Z := hd_error (rev l).
Lemma conflict_free_check : forall s, wf s ->
  forallb (fun p => (num s p =? 0) || forallb (fun q => negb (num s p =? num s q)) (sur s p)) (coords s) = true -> conflict_free s.
Proof.
  intros s W H p q Fp Fq P N. rewrite forallb_forall in H. specialize (H p (proj2 (in_coords s p) Fp)). apply Bool.orb_true_iff in H. destruct H as [H|H]; [apply Z.eqb_eq in H; contradiction|].
  rewrite forallb_forall in H. destruct (surrounding_at s p W Fp) as [_ HS]. specialize (H q (proj2 (HS q) (conj Fq P))). apply Bool.negb_true_iff, Z.eqb_neq in H. exact H.
Qed.
Example C142_ex : (wf ex4m /\ conflict_free ex4m /\ in_range ex4m) /\
  (exists t, snd (loop (fill_with least) (empty ex4m) ex4m) = Ok t /\ s_numbers t = [[1; 2; 3; 4]; [3; 4; 1; 2]; [2; 1; 4; 3]; [4; 3; 2; 1]]) /\
  (exists t, snd (loop (fill_with greatest) (empty ex4m) ex4m) = Ok t /\ s_numbers t = [[1; 4; 3; 0]; [3; 0; 4; 2]; [4; 1; 2; 3]; [2; 3; 1; 4]]).
Proof.
  split; [split; [apply ex4m_wf|split; [apply conflict_free_check; [apply ex4m_wf|vm_compute; reflexivity]|]]|].
  { intros p F. apply in_coords in F. vm_compute in F. repeat (destruct F as [<-|F]; [vm_compute; split; discriminate|]). contradiction. }
  split; eexists; split; [vm_compute; reflexivity|vm_compute; reflexivity|vm_compute; reflexivity|vm_compute; reflexivity].
Qed.
