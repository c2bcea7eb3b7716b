(** Property C116: a hidden tuple is the complement of a naked tuple of the same unit, so solve() never needs the large ones.
    Statements use only the model functions and the specification files; the proofs are in the L*.v files. *)
From Verif Require Import LDual2 LCheck PSolvers PFind.

(** C116: if the only candidate of a field is no candidate elsewhere in the unit, then every hidden tuple is the complement of a
    naked tuple with the same affected fields and the same effect. *)
Theorem C116_hidden_naked : forall s f k q n places cl aff vals, wf s -> consistent s f -> settled s k q ->
  hidden_tuple s n k q places cl aff vals ->
  exists m cl' vals', naked_tuple s m k q cl' aff vals' /\ (2 <= m)%nat /\
    (n + m <= Z.to_nat (box_width s * box_height s))%nat /\
    forall a b, step_is (HiddenTuple n) cl aff vals a -> step_is (NakedTuple m) cl' aff vals' b -> same_effect s a b.
Proof.
  intros s f k q n places cl aff vals W Cf St X.
  destruct (hidden_naked s k q f W (proj1 X) Cf St n places cl aff vals X) as [m [cl' [vals' [Y [L1 [L2 E]]]]]].
  exists m, cl', vals'. split; [auto|]. split; [auto|]. split; [auto|]. intros a b A B.
  apply (dual_effect s n m aff cl cl' vals vals' a b); auto.
  intros p Hp. destruct Y as [_ [_ [_ [_ [_ [_ [_ [[_ Y] _]]]]]]]]. apply Y in Hp. apply Hp.
Qed.
Print Assumptions C116_hidden_naked.

(** C116: conversely, if moreover no field with several candidates is the only place of a number. *)
Theorem C116_naked_hidden : forall s f k q n cl aff vals, wf s -> consistent s f -> settled s k q -> no_hidden s k q ->
  naked_tuple s n k q cl aff vals ->
  exists m places cl' vals', hidden_tuple s m k q places cl' aff vals' /\ (2 <= m)%nat /\
    (n + m <= Z.to_nat (box_width s * box_height s))%nat /\
    forall a b, step_is (HiddenTuple m) cl' aff vals' a -> step_is (NakedTuple n) cl aff vals b -> same_effect s a b.
Proof.
  intros s f k q n cl aff vals W Cf St NH X.
  destruct (naked_hidden s k q f W (proj1 X) Cf St n cl aff vals NH X) as [m [places [cl' [vals' [Y [L1 [L2 E]]]]]]].
  exists m, places, cl', vals'. split; [auto|]. split; [auto|]. split; [auto|]. intros a b A B.
  apply (dual_effect s m n aff cl' cl vals' vals a b); auto.
  intros p Hp. destruct X as [_ [_ [_ [_ [_ [_ [_ [[_ X] _]]]]]]]]. apply X in Hp. apply Hp.
Qed.
Print Assumptions C116_naked_hidden.

(** C116: what this means for the find methods. *)
Theorem C116_find_hidden : forall o s f n, wf s -> consistent s f -> (forall k q, field s q -> settled s k q) ->
  (forall m, (2 <= m)%nat -> (n + m <= Z.to_nat (box_width s * box_height s))%nat -> all_steps o (NakedTuple m) s []) ->
  all_steps o (HiddenTuple n) s [].
Proof.
  intros o s f n W Cf St H. apply some_hidden; auto. intros k q places cl aff vals X.
  destruct (C116_hidden_naked s f k q n places cl aff vals W Cf (St k q (proj1 X)) X) as [m [cl' [vals' [Y [L1 [L2 _]]]]]].
  revert Y. apply (no_naked o s W m). auto.
Qed.
Print Assumptions C116_find_hidden.
Theorem C116_find_naked : forall o s f n, wf s -> consistent s f -> (forall k q, field s q -> settled s k q /\ no_hidden s k q) ->
  (forall m, (2 <= m)%nat -> (n + m <= Z.to_nat (box_width s * box_height s))%nat -> all_steps o (HiddenTuple m) s []) ->
  all_steps o (NakedTuple n) s [].
Proof.
  intros o s f n W Cf St H. apply some_naked; auto. intros k q cl aff vals X. destruct (St k q (proj1 X)) as [S1 S2].
  destruct (C116_naked_hidden s f k q n cl aff vals W Cf S1 S2 X) as [m [places [cl' [vals' [Y [L1 [L2 _]]]]]]].
  revert Y. apply (no_hidden_tuple o s W m). auto.
Qed.
Print Assumptions C116_find_naked.

(** C116: the steps of solve() on a sudoku with a solution: a naked tuple has at most N/2, a hidden tuple less than N/2 numbers.
    So the classes NakedTuple5 and HiddenTuple5 are never used for sudokus with N <= 9. *)
Theorem C116_solve : forall o fuel s f l t st, oracle_ok o -> wf s -> solution s f -> solve fuel o s = Ok (l, t) -> In st l ->
  (forall n, st_class st = NakedTuple n -> (2 * n <= Z.to_nat (box_width s * box_height s))%nat) /\
  (forall n, st_class st = HiddenTuple n -> (2 * n < Z.to_nat (box_width s * box_height s))%nat).
Proof.
  intros o fuel s f l t st Ho W Sf E Hst.
  pose proof (solve_allowed _ _ (wf_w s W) (wf_h s W) o fuel s l t f Ho (ok_intro _ _ s W eq_refl eq_refl) Sf E st Hst) as A.
  split; intros n C; rewrite C in A; exact A.
Qed.
Print Assumptions C116_solve.

(** Both bounds are reached: NakedTuple 2 with N = 4, HiddenTuple 2 with N = 5. *)
Definition dual4 : sudoku := of_rows 2 2 [[4; 0; 1; 0]; [1; 0; 0; 0]; [0; 0; 0; 0]; [0; 0; 0; 0]].
Definition dual4f : grid := num (of_rows 2 2 [[4; 3; 1; 2]; [1; 2; 4; 3]; [2; 1; 3; 4]; [3; 4; 2; 1]]).
Definition dual5 : sudoku := of_rows 5 1 [[1; 0; 4; 0; 0]; [0; 0; 0; 0; 0]; [0; 0; 0; 0; 5]; [3; 5; 1; 0; 2]; [0; 0; 0; 2; 0]].
Definition used (s : sudoku) (cls : solver) : bool :=
  match solve (fuel_bound s) o_ex s with
  | Ok (l, _) => existsb (fun st => match st_class st, cls with
                    | NakedTuple a, NakedTuple b | HiddenTuple a, HiddenTuple b => Nat.eqb a b | _, _ => false end) l
  | Err _ => false
  end.
Example C116_ex : oracle_ok o_ex /\ wf dual4 /\ solution dual4 dual4f /\ used dual4 (NakedTuple 2) = true /\
  wf dual5 /\ used dual5 (HiddenTuple 2) = true.
Proof.
  split; [exact o_ex_ok|]. split; [apply wfb_ok; vm_compute; reflexivity|].
  split; [apply solutionb_ok; vm_compute; reflexivity|].
  split; [vm_compute; reflexivity|]. split; [apply wfb_ok; vm_compute; reflexivity|]. vm_compute. reflexivity.
Qed.

(** * The conditions are needed *)
Lemma row0 : forall s, box_width s = 2 -> box_height s = 2 -> forall p, unit_at s KRow (0, 0) p <-> In p [(0, 0); (0, 1); (0, 2); (0, 3)].
Proof.
  intros s E1 E2 [r c]. unfold unit_at, field, cell, together, same_row. rewrite E1, E2. cbn [fst snd In]. split.
  - intros [[A B] ->]. assert (c = 0 \/ c = 1 \/ c = 2 \/ c = 3) by lia. destruct H as [-> |[-> |[-> | ->]]]; auto.
  - intros H. repeat (destruct H as [H|H]; [injection H as <- <-; lia|]). destruct H.
Qed.

(** A field with one candidate that is a candidate of its neighbours, too: a hidden pair (3 and 4) without naked tuple. *)
Definition rowed (l : list (list Z)) : sudoku :=
  fold_left (fun s pc => pcset s (fst pc) (snd pc))
    (combine (list_prod (py_range 4) (py_range 4)) (l ++ repeat [1; 2; 3; 4] 12)) (new_sudoku (2, 2)).
Definition loose4 : sudoku := rowed [[1]; [1; 2]; [1; 2; 3; 4]; [3; 4]].
Definition grid4 : sudoku := of_rows 2 2 [[1; 2; 3; 4]; [3; 4; 1; 2]; [2; 1; 4; 3]; [4; 3; 2; 1]].
(** A field that is the only place of a number: a naked pair (1 and 2) without hidden tuple. *)
Definition lone4 : sudoku := rowed [[2; 3]; [1; 2]; [1; 2]; [3; 4]].
Definition grid4b : sudoku := of_rows 2 2 [[3; 1; 2; 4]; [2; 4; 3; 1]; [1; 3; 4; 2]; [4; 2; 1; 3]].
Definition consistentb (s : sudoku) (f : grid) : bool :=
  solutionb s f && forallb (fun p => existsb (Z.eqb (f p)) (cand s p)) (coords s).
Lemma consistentb_ok : forall s f, consistentb s f = true -> consistent s f.
Proof.
  intros s f H. apply andb_prop in H. destruct H as [H1 H2]. split; [apply solutionb_ok; auto|].
  intros p Fp. rewrite forallb_forall in H2. specialize (H2 p (proj2 (in_coords s p) Fp)). apply existsb_exists in H2.
  destruct H2 as [x [X1 X2]]. apply Z.eqb_eq in X2. congruence.
Qed.

Lemma rows_c : cand loose4 (0, 0) = [1] /\ cand loose4 (0, 1) = [1; 2] /\ cand loose4 (0, 2) = [1; 2; 3; 4] /\ cand loose4 (0, 3) = [3; 4] /\
  cand lone4 (0, 0) = [2; 3] /\ cand lone4 (0, 1) = [1; 2] /\ cand lone4 (0, 2) = [1; 2] /\ cand lone4 (0, 3) = [3; 4].
Proof. vm_compute. tauto. Qed.

Ltac cases4 H := simpl in H; repeat (destruct H as [H|H]; [try discriminate|]); try contradiction.
Ltac srt := repeat (apply SSorted_cons || apply SSorted_nil || apply Forall_cons || apply Forall_nil); unfold lex_lt; cbn [fst snd]; lia.

Theorem C116_settled_refuted : ~ (forall s f k q n places cl aff vals, wf s -> consistent s f ->
  hidden_tuple s n k q places cl aff vals -> exists m cl' vals', naked_tuple s m k q cl' aff vals').
Proof.
  intros H. destruct rows_c as [A [B [C [D _]]]]. pose proof (row0 loose4 eq_refl eq_refl) as U.
  destruct (H loose4 (num grid4) KRow (0, 0) 2%nat [(0, 2); (0, 3)] [(0, 0); (0, 1); (0, 2); (0, 3)] [(0, 2)] [3; 4])
    as [m [cl [vals [_ [_ [S1 [L1 [H1 [[_ H2] [L2 [[_ H3] _]]]]]]]]]]].
  - apply wfb_ok. vm_compute. reflexivity.
  - apply consistentb_ok. vm_compute. reflexivity.
  - unfold hidden_tuple. split; [unfold field; change (box_width loose4) with 2; change (box_height loose4) with 2; unfold cell; cbn; lia|]. split; [reflexivity|].
    assert (P34 : forall v, In v [3; 4] -> lists [(0, 2); (0, 3)] (fun p => unit_at loose4 KRow (0, 0) p /\ In v (cand loose4 p))).
    { intros v Hv. split; [srt|]. intros p. rewrite U. split.
      - intros X. cases4 X; subst p; rewrite ?C, ?D; cases4 Hv; subst v; simpl; auto 10.
      - intros [X Y]. cases4 X; subst p; rewrite ?A, ?B, ?C, ?D in Y; simpl in *; cases4 Hv; subst v; lia || auto. }
    split; [split; [srt|]; intros p; rewrite U; tauto|].
    split; [srt|]. split; [reflexivity|]. split; [|split; [|split; [simpl; lia|split; [|discriminate]]]].
    + intros v Hv. split; [change (box_width loose4 * box_height loose4) with 4; cases4 Hv; subst v; lia|]. eexists. split; [apply P34; auto|]. simpl; lia.
    + split; [srt|]. intros p. split.
      * intros X. destruct (proj1 (proj2 (P34 3 ltac:(left; auto)) p) X) as [Y Z]. split; auto. exists 3. split; [left|]; auto.
      * intros [X [v [Y Z]]]. apply (proj2 (P34 v Y)). auto.
    + split; [srt|]. intros p. split.
      * intros X. cases4 X. subst p. split; [left; auto|]. exists 1. rewrite C. simpl. lia.
      * intros [X [v [Y Z]]]. cases4 X; subst p; [left; auto|]. rewrite D in Y. contradiction.
  - assert (M : (2 <= m)%nat).
    { destruct cl as [|c cl]; [|destruct (H1 c (or_introl eq_refl)); lia]. exfalso.
      destruct (proj1 (H3 (0, 2)) (or_introl eq_refl)) as [_ [_ [v [X _]]]]. apply H2 in X. destruct X as [p [[] _]]. }
    destruct (proj1 (H3 (0, 2)) (or_introl eq_refl)) as [_ [Nc _]].
    assert (I : forall p, In p cl -> p = (0, 1) \/ p = (0, 3)).
    { intros p X. destruct (H1 p X) as [Y Z]. apply U in Y. cases4 Y; subst p; auto.
      - rewrite A in Z. simpl in Z. lia.
      - contradiction. }
    assert (B1 : In (0, 1) cl /\ In (0, 3) cl).
    { destruct cl as [|a [|b cl]]; simpl in L1; try lia. pose proof (ssorted_nodup _ S1) as Nd.
      inversion Nd as [|x y Q1 Q2]; subst. assert (a <> b) by (intros ->; apply Q1; left; auto).
      destruct (I a (or_introl eq_refl)) as [-> | ->]; destruct (I b (or_intror (or_introl eq_refl))) as [-> | ->]; try congruence; simpl; auto. }
    assert (L : (m <= 2)%nat).
    { rewrite <- L1. change 2%nat with (length [(0, 1); (0, 3)]). apply NoDup_incl_length; [apply ssorted_nodup; auto|].
      intros p X. destruct (I p X) as [-> | ->]; simpl; auto. }
    assert (le (length [1; 2; 3; 4]) (length vals)); [|simpl in *; lia].
    apply NoDup_incl_length; [apply zssorted_nodup; srt|]. intros v X. apply H2.
    assert (v = 1 \/ v = 2 \/ v = 3 \/ v = 4) by (cases4 X; lia).
    destruct H0 as [-> |[-> |[-> | ->]]]; [exists (0, 1)|exists (0, 1)|exists (0, 3)|exists (0, 3)]; (split; [tauto|]); rewrite ?B, ?D; simpl; auto.
Qed.
Print Assumptions C116_settled_refuted.

Theorem C116_no_hidden_refuted : ~ (forall s f k q n cl aff vals, wf s -> consistent s f -> settled s k q ->
  naked_tuple s n k q cl aff vals -> exists m places cl' vals', hidden_tuple s m k q places cl' aff vals').
Proof.
  intros H. destruct rows_c as [_ [_ [_ [_ [A [B [C D]]]]]]]. pose proof (row0 lone4 eq_refl eq_refl) as U.
  destruct (H lone4 (num grid4b) KRow (0, 0) 2%nat [(0, 1); (0, 2)] [(0, 0)] [1; 2])
    as [m [places [cl [vals [_ [_ [_ [S1 [L1 [H1 [[_ H2] [L2 [[_ H3] _]]]]]]]]]]]]].
  - apply wfb_ok. vm_compute. reflexivity.
  - apply consistentb_ok. vm_compute. reflexivity.
  - split.
    + intros p v X Y. apply U in X. cases4 X; subst p; rewrite ?A, ?B, ?C, ?D in Y; change (box_width lone4 * box_height lone4) with 4; cases4 Y; subst v; lia.
    + intros p p' v X X' Ne E. apply U in X. cases4 X; subst p; rewrite ?A, ?B, ?C, ?D in E; discriminate.
  - unfold naked_tuple. split; [unfold field; change (box_width lone4) with 2; change (box_height lone4) with 2; unfold cell; cbn; lia|]. split; [reflexivity|].
    split; [srt|]. split; [reflexivity|]. split; [|split; [|split; [simpl; lia|split; [|discriminate]]]].
    + intros p X. split; [apply U; cases4 X; subst p; simpl; auto|]. cases4 X; subst p; rewrite ?B, ?C; simpl; lia.
    + split; [srt|]. intros v. split.
      * intros X. exists (0, 1). rewrite B. simpl. auto.
      * intros [p [X Y]]. cases4 X; subst p; rewrite ?B, ?C in Y; auto.
    + split; [srt|]. intros p. split.
      * intros X. cases4 X. subst p. split; [apply U; simpl; auto|]. split; [intros X; cases4 X|].
        exists 2. rewrite A. simpl. auto.
      * intros [X [Y [v [Z1 Z2]]]]. apply U in X. cases4 X; subst p; [left; auto|exfalso; apply Y; simpl; auto|exfalso; apply Y; simpl; auto|].
        exfalso. rewrite D in Z2. cases4 Z1; subst v; cases4 Z2.
  - assert (V4 : ~ In 4 vals).
    { intros X. destruct (H1 4 X) as [_ [l [[Sl Hl] Ll]]].
      assert (le (length l) (length [(0, 3)])); [|simpl in *; lia]. apply NoDup_incl_length; [apply ssorted_nodup; auto|].
      intros p Y. apply Hl in Y. destruct Y as [Y Z]. apply U in Y. cases4 Y; subst p; rewrite ?A, ?B, ?C, ?D in Z; cases4 Z; simpl; auto. }
    assert (V3 : ~ In 3 vals).
    { intros X. assert (Y : In (0, 3) [(0, 0)]); [|cases4 Y]. apply H3. split.
      - apply H2. split; [apply U; simpl; auto|]. exists 3. rewrite D. simpl; auto.
      - exists 4. rewrite D. simpl; auto. }
    assert (I : incl vals [1; 2]).
    { intros v X. destruct (H1 v X) as [R _]. change (box_width lone4 * box_height lone4) with 4 in R. assert (v = 1 \/ v = 2 \/ v = 3 \/ v = 4) by lia.
      destruct H0 as [-> |[-> |[-> | ->]]]; simpl; auto; contradiction. }
    assert (M : (m <= 2)%nat) by (rewrite <- L1; apply (NoDup_incl_length (zssorted_nodup _ S1) I)).
    destruct (proj1 (H3 (0, 0)) (or_introl eq_refl)) as [X _]. apply H2 in X. destruct X as [_ [v [X Y]]].
    rewrite A in Y. cases4 Y; subst v; [|contradiction].
    destruct (H1 2 X) as [_ [l [[Sl Hl] Ll]]].
    assert (le (length [(0, 0); (0, 1); (0, 2)]) (length l)); [|simpl in *; lia].
    apply NoDup_incl_length; [apply ssorted_nodup; srt|]. intros p Y. apply Hl. split; [apply U; cases4 Y; subst p; simpl; auto|].
    cases4 Y; subst p; rewrite ?A, ?B, ?C; simpl; auto.
Qed.
Print Assumptions C116_no_hidden_refuted.

(** A column of [tup4i] that meets all conditions: the naked pair 1, 2 below and the hidden pair 3, 4 above. *)
Example C116_pairs : wf tup4i /\ consistent tup4i (num tup4sol) /\ settled tup4i KCol (0, 1) /\ no_hidden tup4i KCol (0, 1) /\
  In ([(2, 1); (3, 1)], [(0, 1); (1, 1)], [1; 2]) (found (NakedTuple 2) tup4i) /\
  In ([(0, 1); (1, 1); (2, 1); (3, 1)], [(0, 1); (1, 1)], [3; 4]) (found (HiddenTuple 2) tup4i).
Proof.
  destruct samples_ok as [_ [[W Cf] _]].
  assert (E1 : box_width tup4i = 2) by (vm_compute; reflexivity). assert (E2 : box_height tup4i = 2) by (vm_compute; reflexivity).
  assert (U : forall p, unit_at tup4i KCol (0, 1) p -> In p [(0, 1); (1, 1); (2, 1); (3, 1)]).
  { intros [r c] [[A _] B]. rewrite E1, E2 in A. cbn [fst] in A. unfold together, same_col in B. cbn [snd] in B. subst c.
    assert (r = 0 \/ r = 1 \/ r = 2 \/ r = 3) by lia. destruct H as [-> |[-> |[-> | ->]]]; simpl; auto. }
  assert (Cs : cand tup4i (0, 1) = [1; 2; 3; 4] /\ cand tup4i (1, 1) = [1; 2; 3; 4] /\ cand tup4i (2, 1) = [1; 2] /\ cand tup4i (3, 1) = [1; 2])
    by (vm_compute; tauto).
  destruct Cs as [A [B [C D]]].
  split; [auto|]. split; [auto|]. split; [split|split].
  - intros p v X Y. apply U in X. rewrite E1, E2. set (cf := cand tup4i) in *; clearbody cf. clear -A B C D X Y.
    cases4 X; subst p; rewrite ?A, ?B, ?C, ?D in Y; cases4 Y; subst v; lia.
  - intros p p' v X X' Ne E. apply U in X. set (cf := cand tup4i) in *; clearbody cf. clear -A B C D X E. cases4 X; subst p; rewrite ?A, ?B, ?C, ?D in E; discriminate.
  - intros p v X _ [R H]. rewrite E1, E2 in R.
    assert (Q : forall r, 0 <= r < 4 -> (r, 1) <> p -> ~ In v (cand tup4i (r, 1))).
    { intros r Hr Ne. apply (H (r, 1)); [|exact Ne]. apply U in X. split.
      - unfold field. rewrite E1, E2. unfold cell. cbn [fst snd]. clear -Hr. lia.
      - unfold together, same_col. clear -X. cases4 X; subst p; reflexivity. }
    clear -A B R Q.
    pose proof (Q 0 ltac:(clear; lia)) as Q0. pose proof (Q 1 ltac:(clear; lia)) as Q1. clear Q. rewrite A in Q0. rewrite B in Q1.
    assert (V : In v [1; 2; 3; 4]) by (clear -R; simpl; lia).
    destruct (coord_eq_dec (0, 1) p) as [<-|Np]; [apply (Q1 ltac:(discriminate) V)|apply (Q0 Np V)].
  - rewrite (proj2 C83_ex), (proj2 C84_ex). split; left; reflexivity.
Qed.
