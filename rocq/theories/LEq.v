(** Lemmas about == of a sudoku with any object. *)
From Verif Require Export LSudoku2 LCheck SpecEq.

Lemma coords_split : forall s l1 p l2, coords s = l1 ++ p :: l2 -> forall q, field s q -> (In q l1 <-> lex_lt q p).
Proof.
  intros s l1 p l2 E q Hq. pose proof (coords_sorted s) as S. rewrite E in S. apply in_coords in Hq. rewrite E in Hq.
  assert (A : forall l, StronglySorted lex_lt (l ++ p :: l2) -> forall x, In x l -> lex_lt x p).
  { clear. induction l as [|a l IH]; intros S x H; [destruct H|]. cbn [app] in S. inversion S as [|? ? S1 S2]; subst.
    destruct H as [<-|H]; [|auto]. rewrite Forall_forall in S2. apply S2. apply in_or_app. right; left; auto. }
  assert (B : forall x, In x l2 -> lex_lt p x).
  { clear - S. induction l1 as [|a l IH]; cbn [app] in S; inversion S as [|? ? S1 S2]; subst; auto.
    rewrite Forall_forall in S2. auto. }
  split; [apply A; auto|]. intros L. apply in_app_or in Hq. destruct Hq as [Hq|[<-|Hq]]; auto; exfalso.
  - unfold lex_lt in L. lia.
  - apply B in Hq. unfold lex_lt in *. lia.
Qed.


Lemma eq_loop_spec : forall s get, wf s -> forall l, (forall p, In p l -> field s p) ->
  (eq_loop s get l = Ok true /\ forall p, In p l -> get (fst p) (snd p) = Ok (Some (num s p))) \/
  exists l1 p l2, l = l1 ++ p :: l2 /\ (forall q, In q l1 -> get (fst q) (snd q) = Ok (Some (num s q))) /\
    ((eq_loop s get l = Ok false /\ exists x, get (fst p) (snd p) = Ok x /\ x <> Some (num s p)) \/
     (exists e, eq_loop s get l = Err e /\ get (fst p) (snd p) = Err e)).
Proof.
  intros s get W. induction l as [|[r c] l IH]; intros F; cbn [eq_loop fst snd].
  - left. split; auto. intros p [].
  - rewrite getitem_ok by (auto; apply F; left; auto). cbn [rbind].
    destruct (get r c) as [[b|]|e] eqn:G; cbn [rbind].
    + destruct (Z.eqb_spec (num s (r, c)) b) as [E|E]; cbn [negb].
      * destruct IH as [[I1 I2]|[l1 [p [l2 [I1 [I2 I3]]]]]]; [intros p Hp; apply F; right; auto| |].
        -- left. split; auto. intros p [<-|Hp]; auto. cbn [fst snd]. congruence.
        -- right. exists ((r, c) :: l1), p, l2. split; [rewrite I1; reflexivity|]. split; auto.
           intros q [<-|Hq]; auto. cbn [fst snd]. congruence.
      * right. exists [], (r, c), l. split; auto. split; [intros q []|]. left. split; auto. exists (Some b). cbn [fst snd]. split; auto. congruence.
    + right. exists [], (r, c), l. split; auto. split; [intros q []|]. left. split; auto. exists None. cbn [fst snd]. split; auto. congruence.
    + right. exists [], (r, c), l. split; auto. split; [intros q []|]. right. exists e. auto.
Qed.

Lemma caught_dec : forall e, caught e \/ ~ caught e.
Proof. intros e. unfold caught. destruct e; auto; right; intros [H|[H|H]]; discriminate H. Qed.

Lemma object_eq_caught : forall s get e, eq_loop s get (coords s) = Err e -> caught e -> object_eq s get = Ok false.
Proof. intros s get e E [-> | [-> | ->]]; unfold object_eq; rewrite E; reflexivity. Qed.
Lemma object_eq_not_caught : forall s get e, eq_loop s get (coords s) = Err e -> ~ caught e -> object_eq s get = Err e.
Proof. intros s get e E H; unfold object_eq; rewrite E. unfold caught in H. destruct e; auto; exfalso; auto. Qed.

(** The first field that is not equal *)
Lemma object_eq_spec : forall s get, wf s ->
  (object_eq s get = Ok true /\ forall p, field s p -> get (fst p) (snd p) = Ok (Some (num s p))) \/
  exists p, field s p /\ (forall q, field s q -> lex_lt q p -> get (fst q) (snd q) = Ok (Some (num s q))) /\
    ((object_eq s get = Ok false /\ ((exists x, get (fst p) (snd p) = Ok x /\ x <> Some (num s p)) \/ exists e, get (fst p) (snd p) = Err e /\ caught e)) \/
     (exists e, object_eq s get = Err e /\ get (fst p) (snd p) = Err e /\ ~ caught e)).
Proof.
  intros s get W. destruct (eq_loop_spec s get W (coords s)) as [[A B]|[l1 [p [l2 [A [B C]]]]]].
  - intros p Hp. apply in_coords; auto.
  - left. unfold object_eq. rewrite A. split; auto. intros p Hp. apply B, in_coords; auto.
  - right. assert (F : field s p) by (apply in_coords; rewrite A; apply in_or_app; right; left; auto).
    exists p. split; auto. split; [intros q Hq L; apply B; apply (coords_split s l1 p l2 A q Hq); auto|].
    destruct C as [[C1 C2]|[e [C1 C2]]].
    + left. unfold object_eq. rewrite C1. auto.
    + destruct (caught_dec e) as [D|D].
      * left. rewrite (object_eq_caught s get e C1 D). split; auto. right. eauto.
      * right. exists e. rewrite (object_eq_not_caught s get e C1 D). auto.
Qed.

Lemma object_eq_true : forall s get, wf s ->
  (object_eq s get = Ok true <-> forall p, field s p -> get (fst p) (snd p) = Ok (Some (num s p))).
Proof.
  intros s get W. destruct (object_eq_spec s get W) as [[A B]|[p [F [L C]]]].
  - rewrite A. split; auto.
  - split; intros H.
    + destruct C as [[C _]|[e [C _]]]; congruence.
    + specialize (H p F). destruct C as [[_ [[x [C1 C2]]|[e [C1 _]]]]|[e [_ [C1 _]]]]; congruence.
Qed.

Lemma lex_total : forall p q : coord, lex_lt p q \/ p = q \/ lex_lt q p.
Proof.
  intros [a b] [c d]. unfold lex_lt. cbn [fst snd]. destruct (Z.lt_trichotomy a c) as [|[->|]]; try lia.
  destruct (Z.lt_trichotomy b d) as [|[->|]]; auto; lia.
Qed.

Lemma object_eq_raise : forall s get e, wf s ->
  (object_eq s get = Err e <-> exists p, field s p /\ get (fst p) (snd p) = Err e /\ ~ caught e /\
     forall q, field s q -> lex_lt q p -> get (fst q) (snd q) = Ok (Some (num s q))).
Proof.
  intros s get e W. destruct (object_eq_spec s get W) as [[A B]|[p [F [L C]]]].
  - rewrite A. split; [discriminate|]. intros [p [F [G _]]]. rewrite B in G by auto. discriminate.
  - split.
    + intros H. destruct C as [[C _]|[e' [C1 [C2 C3]]]]; [congruence|]. exists p. assert (e' = e) by congruence. subst. auto.
    + intros [p' [F' [G' [N' L']]]].
      assert (p' = p).
      { destruct (lex_total p' p) as [X|[X|X]]; auto; exfalso.
        - specialize (L p' F' X). congruence.
        - specialize (L' p F X). destruct C as [[_ [[x [C1 C2]]|[e1 [C1 _]]]]|[e1 [_ [C1 _]]]]; congruence. }
      subst p'. destruct C as [[_ [[x [C1 C2]]|[e' [C1 C2]]]]|[e' [C1 [C2 C3]]]]; [congruence| |congruence].
      assert (e' = e) by congruence. subst. contradiction.
Qed.

Lemma list_get_exn : forall {A} (l : list A) i e, list_get l i = Err e -> e = IndexError.
Proof.
  intros A l i e. unfold list_get, py_idx. repeat (destruct (_ && _)); cbn [rbind]; try congruence.
  all: destruct (nth_error l _); congruence.
Qed.

(** == of two sudokus, of any sizes *)

Lemma sudoku_eq_total : forall a b, wf a -> wf b -> exists x, sudoku_eq a b = Ok x.
Proof.
  intros a b Wa Wb. destruct (sudoku_eq a b) as [x|e] eqn:E; eauto. exfalso. unfold sudoku_eq in E.
  apply object_eq_raise in E; auto. destruct E as [p [_ [G [N _]]]]. apply N. left.
  unfold getitem in G. destruct (list_get (s_numbers b) (fst p)) as [row|e1] eqn:E1; cbn [rbind] in G.
  - destruct (list_get row (snd p)) as [v|e2] eqn:E2; cbn [rbind] in G; [discriminate|]. apply list_get_exn in E2. congruence.
  - apply list_get_exn in E1. congruence.
Qed.

Lemma sudoku_eq_corner : forall a b, wf a -> wf b -> (sudoku_eq a b = Ok true <-> corner_of a b).
Proof.
  intros a b Wa Wb. unfold sudoku_eq. rewrite object_eq_true by auto. pose proof (NN_pos a Wa) as P.
  assert (F : NN a <= NN b -> forall p, field a p -> field b p).
  { intros L p [Hp1 Hp2]. unfold cell in *. split; cbn in *; lia. }
  split.
  - intros H. assert (L : NN a <= NN b).
    { destruct (Z_le_gt_dec (NN a) (NN b)) as [L|G]; auto. exfalso.
      specialize (H (NN a - 1, NN a - 1)). cbn [fst snd] in H. rewrite getitem_err in H; auto.
      - cbn [rbind] in H. assert (X : field a (NN a - 1, NN a - 1)) by (split; cbn; lia). apply H in X. discriminate.
      - unfold valid_index. lia. }
    split; auto. intros [r c] Hp. specialize (H _ Hp). cbn [fst snd] in H. rewrite getitem_ok in H by auto. cbn [rbind] in H. congruence.
  - intros [L H] [r c] Hp. cbn [fst snd]. rewrite getitem_ok by auto. cbn [rbind]. rewrite H by auto. reflexivity.
Qed.
