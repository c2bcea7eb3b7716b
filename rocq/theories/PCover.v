(** Property C126: Algorithm X solves every exact cover problem, not only sudokus.  Statements use only the model functions and the
    specification files; the proofs are in the L*.v files. *)
From Verif Require Import LCover2.

(** C126: exact_cover() and solve() give every exact cover once, raise nothing, and leave X as it was. *)
Theorem C126_solve : forall cs Y ord fuel, problem cs Y -> (forall p l, Permutation (ord p l) l) -> (length cs < fuel)%nat ->
  exists X ls X', exact_cover cs Y = Ok X /\ gresult (xsolve fuel ord Y X []) tt = Ok X' /\ gyields (xsolve fuel ord Y X []) tt = ls /\
    (forall l, In l ls -> exact cs Y l) /\ (forall l, exact cs Y l -> exists l', In l' ls /\ Permutation l l') /\
    ForallOrdPairs (fun a b => ~ Permutation a b) ls /\ (forall k, dget xkey_eqb X' k = dget xkey_eqb X k).
Proof. intros cs Y ord fuel Pb. exact (C126_solve_proof cs Y Pb ord fuel). Qed.
Print Assumptions C126_solve.

(** C126: whatever was selected before, select() can be undone by deselect() or raises KeyError. *)
Theorem C126_undo : forall cs Y X r, problem cs Y -> reachable cs Y X ->
  (exists cols X1 X2, select X Y r = Ok (cols, X1) /\ deselect X1 Y r cols = Ok X2 /\ forall k, dget xkey_eqb X2 k = dget xkey_eqb X k) \/
  select X Y r = Err KeyError.
Proof. intros cs Y X r Pb. exact (C126_undo_proof cs Y Pb X r). Qed.
Print Assumptions C126_undo.

(** C126: exact_cover() raises KeyError if a row has a constraint that is not listed. *)
Theorem C126_unknown : forall cs Y i l k, In (i, l) Y -> In k l -> ~ In k cs -> exact_cover cs Y = Err KeyError.
Proof. exact C126_unknown_proof. Qed.
Print Assumptions C126_unknown.

(** Knuth's example: seven constraints, six rows, one solution. *)
Definition kn (x : Z) : xkey := RC x 0.
Definition knuth_cs : list xkey := [kn 1; kn 2; kn 3; kn 4; kn 5; kn 6; kn 7].
Definition knuth_Y : ydict :=
  [((1, 0, 0), [kn 1; kn 4; kn 7]); ((2, 0, 0), [kn 1; kn 4]); ((3, 0, 0), [kn 4; kn 5; kn 7]); ((4, 0, 0), [kn 3; kn 5; kn 6]);
   ((5, 0, 0), [kn 2; kn 3; kn 6; kn 7]); ((6, 0, 0), [kn 2; kn 7])].
Lemma knuth_ok : problem knuth_cs knuth_Y.
Proof.
  constructor.
  - unfold knuth_cs, kn. repeat constructor; cbn [In]; intuition discriminate.
  - cbn. repeat constructor; cbn [In]; intuition discriminate.
  - intros i l H. cbn [knuth_Y In] in H. repeat (destruct H as [E|H]; [injection E as <- <-; unfold kn; repeat constructor; cbn [In]; intuition discriminate|]). destruct H.
  - intros i l k H Hk. cbn [knuth_Y In] in H. unfold knuth_cs. repeat (destruct H as [E|H]; [injection E as <- <-; cbn [In] in *; tauto|]). destruct H.
Qed.
Example C126_ex : exists X, exact_cover knuth_cs knuth_Y = Ok X /\
  gyields (xsolve 8 (fun _ l => l) knuth_Y X []) tt = [[(2, 0, 0); (4, 0, 0); (6, 0, 0)]].
Proof. eexists. split; [vm_compute; reflexivity|]. vm_compute. reflexivity. Qed.
Example C126_undo_ex : exists X cols X1, reachable knuth_cs knuth_Y X /\ select X knuth_Y (2, 0, 0) = Ok (cols, X1) /\ select X1 knuth_Y (1, 0, 0) = Err KeyError.
Proof. do 3 eexists. split; [apply rc_init; vm_compute; reflexivity|]. split; [> vm_compute; reflexivity ..]. Qed.

(** A row that lists a constraint twice makes solve() raise KeyError. *)
Theorem C126_twice_refuted : exists cs Y X, NoDup cs /\ NoDup (map fst Y) /\ (forall i l k, In (i, l) Y -> In k l -> In k cs) /\
  exact_cover cs Y = Ok X /\ forall fuel ord, (forall p l, Permutation (ord p l) l) -> gresult (xsolve (S fuel) ord Y X []) tt = Err KeyError.
Proof.
  exists [kn 1], [((1, 0, 0), [kn 1; kn 1])], [(kn 1, [(1, 0, 0)])]. split; [repeat constructor; auto|]. split; [repeat constructor; auto|].
  split; [intros i l k [E|[]] Hk; injection E as <- <-; cbn [In] in *; tauto|]. split; [vm_compute; reflexivity|].
  intros fuel ord Hp. cbn [xsolve min_key fst]. change (dget xkey_eqb [(kn 1, [(1, 0, 0)])] (kn 1)) with (Ok [(1, 0, 0)] : res (list xrow)). cbn [lift gbind].
  assert (E : ord [] [(1, 0, 0)] = [(1, 0, 0)]).
  { apply Permutation_length_1_inv. apply Permutation_sym, Hp. }
  rewrite E. reflexivity.
Qed.
Print Assumptions C126_twice_refuted.
