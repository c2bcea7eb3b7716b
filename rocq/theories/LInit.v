(** Proofs about Sudoku() with any argument (C112). *)
From Verif Require Import LBase SpecInit.

Lemma as_int_iff : forall v n, as_int v = Some n <-> is_int v n.
Proof.
  intros v n. split; intros H.
  - destruct v as [|m|[]| | | | | |]; cbn in H; inv H; constructor.
  - inv H; reflexivity.
Qed.
Lemma as_int_none : forall v, as_int v = None <-> forall n, ~ is_int v n.
Proof.
  intros v. split; intros H.
  - intros n X. apply as_int_iff in X. congruence.
  - destruct (as_int v) as [n|] eqn:E; auto. apply as_int_iff in E. exfalso. eapply H; eauto.
Qed.
Lemma key_iff : forall k n, key_is k n = true <-> is_key k n.
Proof.
  intros k n. split; intros H.
  - destruct k as [|m|b|[m|]| | | | |]; cbn in H; try discriminate; apply Z.eqb_eq in H; subst; [apply key_int; constructor|apply key_int; destruct b; constructor|apply key_float].
  - inv H; [inv H0|]; cbn; auto; apply Z.eqb_refl.
Qed.
Lemma find_entry : forall l n, match List.find (fun e : pyval * pyval => key_is (fst e) n) l with
  | Some e => entry l n (snd e) | None => no_entry l n end.
Proof.
  induction l as [|[k v] l IH]; intros n; cbn [List.find].
  - intros e [].
  - cbn [fst]. destruct (key_is k n) eqn:K.
    + exists [], k, l. split; [reflexivity|]. split; [now apply key_iff|intros e []].
    + assert (NK : ~ is_key k n) by (intros X; apply key_iff in X; congruence).
      specialize (IH n). destruct (List.find _ l) as [e|].
      * destruct IH as [l1 [k' [l2 [-> [A B]]]]]. exists ((k, v) :: l1), k', l2. splits; auto. intros e0 [<-|X]; auto.
      * intros e [<-|X]; auto.
Qed.
Lemma entry_unique : forall l n v v', entry l n v -> entry l n v' -> v = v'.
Proof.
  intros l n v v' [a [k [b [-> [A B]]]]] H. induction a as [|x a IH]; cbn [app] in *.
  - destruct H as [[|y a'] [k' [b' [E [A' B']]]]]; cbn in E; [now inv E|]. inv E. exfalso. apply (B' (k, v)); cbn; auto.
  - apply IH.
    + intros e He. apply B. now right.
    + destruct H as [[|y a'] [k' [b' [E [A' B']]]]]; cbn in E; inv E.
      * exfalso. apply (B (k', v')); cbn; auto.
      * exists a', k', b'. splits; auto. intros e He. apply B'. now right.
Qed.
Lemma entry_no : forall l n v, entry l n v -> ~ no_entry l n.
Proof. intros l n v [a [k [b [-> [A _]]]]] N. apply (N (k, v)); auto. apply in_app_iff; cbn; auto. Qed.

Lemma range_of_mul : forall a b, (exists m, py_mul a b = Ok m /\ py_range_of m = match as_int a, as_int b with Some x, Some y => Ok (py_range (x * y)) | _, _ => Err TypeError end
    /\ py_range_from_1 m = match as_int a, as_int b with Some x, Some y => Ok (py_range2 1 (x * y + 1)) | _, _ => Err TypeError end)
  \/ py_mul a b = Err TypeError /\ (as_int a = None \/ as_int b = None).
Proof.
  intros a b. unfold py_mul. destruct (as_int a) as [x|] eqn:A, (as_int b) as [y|] eqn:B.
  - left. eexists. splits; reflexivity.
  - destruct b; cbn in *; try discriminate; try (right; split; [reflexivity|auto]; fail); left; eexists; splits; reflexivity.
  - destruct a; cbn in *; try discriminate; try (right; split; [reflexivity|auto]; fail); left; eexists; splits; reflexivity.
  - destruct a; cbn in *; try discriminate; try (right; split; [reflexivity|auto]; fail).
    destruct b; cbn in *; try discriminate; try (right; split; [reflexivity|auto]; fail); left; eexists; splits; reflexivity.
Qed.

Definition finish (t w h : pyval) (n : Z) : raw_sudoku :=
  let ind := py_range n in
  mkRaw t w h ind (py_range2 1 (n + 1)) (map (fun _ => repeat 0 (length ind)) ind) (map (fun _ => repeat [] (length ind)) ind).

Lemma init_two : forall v w h a b, py_iter v = Ok [w; h] -> py_index v 0 = Ok a -> py_index v 1 = Ok b ->
  sudoku_init v = match as_int a, as_int b with Some x, Some y => Ok (finish (PTuple [w; h]) w h (x * y)) | _, _ => Err TypeError end.
Proof.
  intros v w h a b E1 E2 E3. unfold sudoku_init, init_attributes. rewrite E1. cbn [rbind]. rewrite E2. cbn [rbind]. rewrite E3. cbn [rbind].
  destruct (range_of_mul a b) as [[m [M1 [M2 M3]]]|[M1 M2]].
  - rewrite M1. cbn [rbind]. rewrite M2, M3. destruct (as_int a), (as_int b); reflexivity.
  - rewrite M1. cbn [rbind]. destruct M2 as [-> | ->]; [reflexivity|]. destruct (as_int a); reflexivity.
Qed.

Lemma finish_describes : forall w h x y, is_int w x -> is_int h y -> describes (finish (PTuple [w; h]) w h (x * y)) (new_sudoku (x, y)).
Proof. intros. unfold describes. cbn. splits; auto. Qed.

Lemma pair_accepted : forall v w h x y, v = PTuple [w; h] \/ v = PList [w; h] -> is_int w x -> is_int h y ->
  exists o, sudoku_init v = Ok o /\ describes o (new_sudoku (x, y)).
Proof.
  intros v w h x y Hv Hw Hh. exists (finish (PTuple [w; h]) w h (x * y)). split; [|now apply finish_describes].
  rewrite (init_two v w h w h) by (destruct Hv; subst; reflexivity). apply as_int_iff in Hw, Hh. rewrite Hw, Hh. reflexivity.
Qed.

Lemma accepted_iff : forall v, (exists o, sudoku_init v = Ok o) <->
  (exists w h x y, (v = PTuple [w; h] \/ v = PList [w; h]) /\ is_int w x /\ is_int h y) \/
  (exists l a b x y, v = PDict l /\ length l = 2%nat /\ entry l 0 a /\ entry l 1 b /\ is_int a x /\ is_int b y).
Proof.
  intros v. split.
  - intros [o H]. destruct v as [|n|b|q|s|l|l|l|l]; try discriminate.
    + destruct s as [|c [|d [|e s]]]; discriminate.
    + left. destruct l as [|w [|h [|e l]]]; try discriminate. rewrite (init_two _ w h w h) in H by reflexivity.
      destruct (as_int w) as [x|] eqn:W, (as_int h) as [y|] eqn:K; try discriminate. exists w, h, x, y. splits; auto; now apply as_int_iff.
    + left. destruct l as [|w [|h [|e l]]]; try discriminate. rewrite (init_two _ w h w h) in H by reflexivity.
      destruct (as_int w) as [x|] eqn:W, (as_int h) as [y|] eqn:K; try discriminate. exists w, h, x, y. splits; auto; now apply as_int_iff.
    + destruct l as [|w [|h [|e l]]]; discriminate.
    + right. destruct l as [|[k1 v1] [|[k2 v2] [|e l]]]; try discriminate. set (l := [(k1, v1); (k2, v2)]) in *.
      pose proof (find_entry l 0) as F0. pose proof (find_entry l 1) as F1.
      destruct (List.find _ l) as [e0|] eqn:E0; [|exfalso]. destruct (List.find (fun e => key_is (fst e) 1) l) as [e1|] eqn:E1; [|exfalso].
      * rewrite (init_two _ k1 k2 (snd e0) (snd e1)) in H; cbn [py_iter py_index]; auto; [|change (Z.of_nat 0) with 0; now rewrite E0|change (Z.of_nat 1) with 1; now rewrite E1].
        destruct (as_int (snd e0)) as [x|] eqn:W, (as_int (snd e1)) as [y|] eqn:K; try discriminate.
        exists l, (snd e0), (snd e1), x, y. splits; auto; now apply as_int_iff.
      * unfold sudoku_init, init_attributes in H. cbn [py_iter rbind map l py_index] in H. fold l in H. change (Z.of_nat 0) with 0 in H. change (Z.of_nat 1) with 1 in H.
        rewrite E0 in H. cbn [rbind] in H. rewrite E1 in H. discriminate.
      * unfold sudoku_init, init_attributes in H. cbn [py_iter rbind map l py_index] in H. fold l in H. change (Z.of_nat 0) with 0 in H. 
        rewrite E0 in H. discriminate.
  - intros [[w [h [x [y [Hv [Hw Hh]]]]]]|[l [a [b [x [y [-> [L [Ha [Hb [Xa Xb]]]]]]]]]]].
    + destruct (pair_accepted v w h x y Hv Hw Hh) as [o [E _]]. eauto.
    + destruct l as [|[k1 v1] [|[k2 v2] [|e l]]]; try discriminate. set (l := [(k1, v1); (k2, v2)]) in *.
      pose proof (find_entry l 0) as F0. pose proof (find_entry l 1) as F1.
      destruct (List.find _ l) as [e0|] eqn:E0; [|destruct (entry_no _ _ _ Ha F0)]. destruct (List.find (fun e => key_is (fst e) 1) l) as [e1|] eqn:E1; [|destruct (entry_no _ _ _ Hb F1)].
      rewrite (entry_unique _ _ _ _ Ha F0) in Xa. rewrite (entry_unique _ _ _ _ Hb F1) in Xb. apply as_int_iff in Xa, Xb.
      eexists. rewrite (init_two _ k1 k2 (snd e0) (snd e1)); cbn [py_iter py_index]; auto; [|change (Z.of_nat 0) with 0; now rewrite E0|change (Z.of_nat 1) with 1; now rewrite E1].
      rewrite Xa, Xb. reflexivity.
Qed.

Lemma init_errors : forall v e, sudoku_init v = Err e -> e = ValueError \/ e = TypeError.
Proof.
  intros v e H. destruct v as [|n|b|q|s|l|l|l|l]; try (inv H; auto; fail).
  - destruct s as [|c [|d [|f s]]]; inv H; auto.
  - destruct l as [|w [|h [|f l]]]; try (inv H; auto; fail). rewrite (init_two _ w h w h) in H by reflexivity. destruct (as_int w), (as_int h); inv H; auto.
  - destruct l as [|w [|h [|f l]]]; try (inv H; auto; fail). rewrite (init_two _ w h w h) in H by reflexivity. destruct (as_int w), (as_int h); inv H; auto.
  - destruct l as [|w [|h [|f l]]]; inv H; auto.
  - destruct l as [|[k1 v1] [|[k2 v2] [|f l]]]; try (inv H; auto; fail). set (l := [(k1, v1); (k2, v2)]) in *.
    destruct (py_index (PDict l) 0) as [a|ea] eqn:E0.
    + destruct (py_index (PDict l) 1) as [b|eb] eqn:E1.
      * rewrite (init_two _ k1 k2 a b) in H; auto. destruct (as_int a), (as_int b); inv H; auto.
      * unfold sudoku_init, init_attributes in H. cbn [py_iter rbind map l] in H. fold l in H. rewrite E0 in H. cbn [rbind] in H. rewrite E1 in H. cbn [rbind] in H.
        cbn [py_index] in E1. destruct (List.find _ l); inv E1. inv H. auto.
    + unfold sudoku_init, init_attributes in H. cbn [py_iter rbind map l] in H. fold l in H. rewrite E0 in H. cbn [rbind] in H.
      cbn [py_index] in E0. destruct (List.find _ l); inv E0. inv H. auto.
Qed.

Lemma value_error_iff : forall v, sudoku_init v = Err ValueError <->
  (exists n, holds_n v n /\ n <> 2%nat) \/ (exists l, v = PDict l /\ length l = 2%nat /\ (no_entry l 0 \/ no_entry l 1)).
Proof.
  intros v. split.
  - intros H. destruct v as [|n|b|q|s|l|l|l|l]; try discriminate.
    + left. destruct s as [|c [|d [|e s]]]; try discriminate; eexists; (split; [constructor|cbn; lia]).
    + left. destruct l as [|w [|h [|e l]]]; try (eexists; split; [constructor|cbn; lia]).
      rewrite (init_two _ w h w h) in H by reflexivity. destruct (as_int w), (as_int h); discriminate.
    + left. destruct l as [|w [|h [|e l]]]; try (eexists; split; [constructor|cbn; lia]).
      rewrite (init_two _ w h w h) in H by reflexivity. destruct (as_int w), (as_int h); discriminate.
    + left. destruct l as [|w [|h [|e l]]]; try discriminate; eexists; (split; [constructor|cbn; lia]).
    + destruct l as [|[k1 v1] [|[k2 v2] [|e l]]]; try (left; eexists; split; [constructor|cbn; lia]). set (l := [(k1, v1); (k2, v2)]) in *.
      right. exists l. splits; auto. pose proof (find_entry l 0) as F0. pose proof (find_entry l 1) as F1.
      destruct (List.find _ l) as [e0|] eqn:E0; [|auto]. destruct (List.find (fun e => key_is (fst e) 1) l) as [e1|] eqn:E1; [exfalso|auto].
      rewrite (init_two _ k1 k2 (snd e0) (snd e1)) in H; cbn [py_iter py_index]; auto; [|change (Z.of_nat 0) with 0; now rewrite E0|change (Z.of_nat 1) with 1; now rewrite E1].
      destruct (as_int (snd e0)), (as_int (snd e1)); discriminate.
  - intros [[n [H N]]|[l [-> [L H]]]].
    + inv H; (destruct l as [|x [|y [|z l]]] || destruct s as [|x [|y [|z s]]]); cbn in N; try lia; reflexivity.
    + destruct l as [|[k1 v1] [|[k2 v2] [|e l]]]; try discriminate. set (l := [(k1, v1); (k2, v2)]) in *.
      pose proof (find_entry l 0) as F0. pose proof (find_entry l 1) as F1.
      unfold sudoku_init, init_attributes. cbn [py_iter rbind map l py_index]. fold l. change (Z.of_nat 0) with 0. change (Z.of_nat 1) with 1.
      destruct (List.find _ l) as [e0|] eqn:E0; cbn [rbind]; [|reflexivity]. destruct (List.find (fun e => key_is (fst e) 1) l) as [e1|] eqn:E1; cbn [rbind]; [exfalso|reflexivity].
      destruct H as [H|H]; [eapply entry_no; [exact F0|exact H]|eapply entry_no; [exact F1|exact H]].
Qed.
