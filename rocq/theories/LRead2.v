(** Proofs about Sudoku.decode on arbitrary texts, continued: the whole function. *)
From Verif Require Export LRead.
Import PyStr.

Definition read_rest (e ns cs b : pystr) (l : list pystr) (z : Z * Z) : res sudoku :=
  let* t := read_fields e l (new_sudoku z) 0 0 in
  match b with [] => Ok t | _ => let* l2 := split cs b in read_candidates ns l2 t 0 0 end.
Lemma decode_parts : forall s e ns ss cs size u a b l, ss <> [] -> cleaned_text e ns ss cs s u -> two_parts ss u a b -> items_of ns a l ->
  decode s e ns ss cs size = let* z := match size with Some z => Ok z | None => infer_box_size (py_len l) end in read_rest e ns cs b l z.
Proof.
  intros s e ns ss cs size u a b l H C T I. apply cleaned_iff in C. apply two_parts_iff in T; auto. apply items_iff in I. unfold decode. rewrite <- C.
  destruct ss as [|c ss]; [congruence|]. rewrite T. cbn [rbind]. subst l. reflexivity.
Qed.
Lemma decode_no_sep : forall s e ns cs size, decode s e ns [] cs size = Err ValueError.
Proof. reflexivity. Qed.
Lemma parts_exist : forall s e ns ss cs, ss <> [] -> exists u a b l, cleaned_text e ns ss cs s u /\ two_parts ss u a b /\ items_of ns a l.
Proof.
  intros s e ns ss cs H. exists (clean s e ns ss cs).
  destruct (match cut ss (clean s e ns ss cs) with Some (a, b) => (a, b) | None => (clean s e ns ss cs, []) end) as [a b] eqn:E.
  exists a, b. eexists. split; [apply cleaned_iff; reflexivity|]. split; [apply two_parts_iff; auto; exact E|]. apply items_iff. reflexivity.
Qed.
Lemma parts_unique : forall s e ns ss cs u a b l u' a' b' l', ss <> [] -> cleaned_text e ns ss cs s u -> two_parts ss u a b -> items_of ns a l ->
  cleaned_text e ns ss cs s u' -> two_parts ss u' a' b' -> items_of ns a' l' -> u = u' /\ a = a' /\ b = b' /\ l = l'.
Proof.
  intros s e ns ss cs u a b l u' a' b' l' H C T I C' T' I'. apply cleaned_iff in C, C'. subst. apply two_parts_iff in T, T'; auto. rewrite T in T'. injection T' as -> ->.
  apply items_iff in I, I'. subst. auto.
Qed.

(** What the parts of the text say about the sudoku *)
Definition says (e ns cs b : pystr) (l : list pystr) (w h : Z) (t : sudoku) : Prop :=
  wf t /\ box_width t = w /\ box_height t = h /\
  (exists vs, Forall2 (item_value e) (firstn (Z.to_nat (w * h * (w * h))) l) vs /\
     forall i j, field t (i, j) -> num t (i, j) = nth (Z.to_nat (i * (w * h) + j)) vs 0) /\
  ((b = [] /\ forall p, field t p -> cand t p = []) \/
   (b <> [] /\ cs <> [] /\ exists l2 ls, pieces cs b l2 /\ Forall2 (item_cands ns) (firstn (Z.to_nat (w * h * (w * h))) l2) ls /\
      forall i j, field t (i, j) -> forall v, In v (cand t (i, j)) <-> In v (nth (Z.to_nat (i * (w * h) + j)) ls []))).

Lemma split_some : forall cs b, cs <> [] -> split cs b = Ok (split_go cs b 0).
Proof. intros [|c cs] b H; [congruence|reflexivity]. Qed.
Lemma rest_says : forall e ns cs b l w h t, 1 <= w -> 1 <= h -> (read_rest e ns cs b l (w, h) = Ok t <-> says e ns cs b l w h t).
Proof.
  intros e ns cs b l w h t Hw Hh. unfold read_rest, says. split.
  - destruct (read_fields e l (new_sudoku (w, h)) 0 0) as [t0|x] eqn:E0; cbn [rbind]; [|discriminate].
    apply (fields_iff e w h Hw Hh) in E0. destruct E0 as [W0 [B1 [B2 [C0 [vs [F0 N0]]]]]]. destruct b as [|b0 b].
    + intros E. injection E as <-. split; [auto|]. split; [auto|]. split; [auto|]. split; [exists vs; auto|]. left. auto.
    + destruct cs as [|c cs]; [discriminate|]. rewrite split_some by discriminate. cbn [rbind]. intros E.
      apply (cands_read_iff ns w h Hw Hh t0 W0 B1 B2 C0) in E. destruct E as [Wt [D1 [D2 [Nm [ls [F C]]]]]].
      split; [auto|]. split; [auto|]. split; [auto|]. split.
      * exists vs. split; auto. intros i j Hf. rewrite Nm by auto. apply N0. unfold field in *. rewrite B1, B2. rewrite D1, D2 in Hf. auto.
      * right. split; [discriminate|]. split; [discriminate|]. eexists. exists ls. split; [apply pieces_iff; [discriminate|reflexivity]|]. split; auto.
  - intros [Wt [D1 [D2 [[vs [F N]] R]]]]. destruct (fields_read_ok e w h Hw Hh l vs F) as [t0 [E0 [W0 [B1 [B2 [C0 N0]]]]]]. rewrite E0. cbn [rbind].
    assert (Ft : forall p, field t p -> field t0 p) by (unfold field; rewrite B1, B2, D1, D2; auto).
    destruct R as [[-> C]|[Nb [Nc [l2 [ls [P [Fc C]]]]]]].
    + f_equal. symmetry. apply sudoku_ext; auto; try congruence.
      * intros [i j] Hp. rewrite N, N0; auto.
      * intros p Hp. rewrite C, C0; auto.
    + destruct b as [|b0 b]; [congruence|]. rewrite split_some by auto. cbn [rbind]. apply pieces_iff in P; auto. subst l2.
      apply (cands_read_iff ns w h Hw Hh t0 W0 B1 B2 C0). split; [auto|]. split; [auto|]. split; [auto|]. split.
      * intros [i j] Hp. rewrite N, N0; auto.
      * exists ls. auto.
Qed.
Lemma rest_outcome : forall e ns cs b l w h, 1 <= w -> 1 <= h -> ok_or_value (read_rest e ns cs b l (w, h)).
Proof.
  intros e ns cs b l w h Hw Hh. unfold read_rest. destruct (fields_outcome e w h Hw Hh l) as [[t0 E0]|E0]; rewrite E0; cbn [rbind]; [|right; auto].
  apply (fields_iff e w h Hw Hh) in E0. destruct E0 as [W0 [B1 [B2 [C0 _]]]]. destruct b as [|b0 b]; [left; eauto|].
  destruct cs as [|c cs]; [right; reflexivity|]. rewrite split_some by discriminate. cbn [rbind]. apply (cands_outcome ns w h Hw Hh t0 W0 B1 B2 C0).
Qed.
Lemma auto_cases : forall n w h, auto_size n w h -> (n = 0 /\ w = 0 /\ h = 0) \/ (1 <= n /\ 1 <= w /\ 1 <= h).
Proof.
  intros n w h [k [K [<- [[-> [H1 H2]]|[N [[L _] [H1 H2]]]]]]].
  - destruct (Z.eq_dec h 0) as [->|]; [left; lia|right; nia].
  - right. nia.
Qed.
Lemma infer_outcome : forall n, ok_or_value (infer_box_size n).
Proof.
  intros n. unfold infer_box_size. destruct (exact_sqrt n); [|right; auto]. destruct (exact_sqrt _); [left; eauto|].
  destruct (List.find _ _); [|right; auto]. destruct (_ =? _); [right; auto|left; eauto].
Qed.

(** * No size and no fields *)
Lemma rest_none : forall ns e cs b t, read_rest e ns cs b [] (0, 0) = Ok t <-> b = [] /\ t = new_sudoku (0, 0).
Proof.
  intros ns e cs b t. unfold read_rest. cbn [read_fields rbind]. destruct b as [|b0 b]; [split; [intros E; injection E as <-; auto|intros [_ ->]; auto]|].
  split; [|intros [? _]; discriminate]. destruct cs as [|c cs]; [discriminate|]. rewrite split_some by discriminate. cbn [rbind].
  rewrite split_cut by discriminate. intros E. exfalso. revert E.
  destruct (cut (c :: cs) (b0 :: b)) as [[x y]|]; rewrite read_candidates_eq; destruct (read_cands ns _); cbn; discriminate.
Qed.
Lemma rest_none_err : forall ns e cs b x, read_rest e ns cs b [] (0, 0) = Err x -> x = ValueError \/ x = IndexError /\ b <> [] /\ cs <> [] /\
  exists it l vs, pieces cs b (it :: l) /\ item_cands ns it vs.
Proof.
  intros ns e cs b x. unfold read_rest. cbn [read_fields rbind]. destruct b as [|b0 b]; [discriminate|]. destruct cs as [|c cs]; [intros E; injection E as <-; auto|].
  rewrite split_some by discriminate. cbn [rbind]. destruct (split_go (c :: cs) (b0 :: b) 0) as [|it l] eqn:E.
  - rewrite split_cut in E by discriminate. destruct (cut _ _) as [[y z]|]; discriminate.
  - rewrite read_candidates_eq. destruct (read_cands_value ns it) as [[vs V]|V]; rewrite V; cbn [rbind].
    + cbn. intros X. injection X as <-. right. split; auto. split; [discriminate|]. split; [discriminate|]. exists it, l, vs.
      split; [apply pieces_iff; [discriminate|symmetry; exact E]|apply cands_iff; auto].
    + intros X. injection X as <-. auto.
Qed.
Lemma rest_index : forall ns e cs b it l vs, b <> [] -> cs <> [] -> pieces cs b (it :: l) -> item_cands ns it vs ->
  read_rest e ns cs b [] (0, 0) = Err IndexError.
Proof.
  intros ns e cs b it l vs Hb Hc P V. unfold read_rest. cbn [read_fields rbind]. destruct b; [congruence|]. rewrite split_some by auto. cbn [rbind].
  apply pieces_iff in P; auto. rewrite <- P. rewrite read_candidates_eq. apply cands_iff in V. rewrite V. cbn. reflexivity.
Qed.
Lemma items_nil : forall ns a, items_of ns a [] <-> ns = [] /\ a = [].
Proof.
  intros ns a. rewrite items_iff. destruct ns as [|c ns].
  - destruct a; cbn; intuition discriminate.
  - split; [|intros [? _]; discriminate]. rewrite split_cut by discriminate. destruct (cut _ _) as [[x y]|]; discriminate.
Qed.

(** * The theorems *)
Theorem decode_reads : forall s e ns ss cs size t, size_given_ok size ->
  (decode s e ns ss cs size = Ok t <-> stands_for s e ns ss cs size t \/ stands_for_nothing s e ns ss cs size t).
Proof.
  intros s e ns ss cs size t G. destruct ss as [|c ss0]; [split; [discriminate|intros [[X _]|[X _]]; congruence]|].
  assert (H : c :: ss0 <> []) by discriminate. set (ss := c :: ss0) in *. clearbody ss. clear c ss0.
  destruct (parts_exist s e ns ss cs H) as [u [a [b [l [C [T I]]]]]]. rewrite (decode_parts s e ns ss cs size u a b l H C T I).
  assert (Main : forall w h, 1 <= w -> 1 <= h -> (match size with Some z => z = (w, h) | None => auto_size (py_len l) w h end) ->
    read_rest e ns cs b l (w, h) = Ok t -> stands_for s e ns ss cs size t).
  { intros w h Hw Hh Z E. apply rest_says in E; auto. destruct E as [Wt [B1 [B2 [[vs [F N]] R]]]]. split; [auto|]. split; [auto|]. exists u, a, b, l, vs. cbv zeta.
    split; [auto|]. split; [auto|]. split; [auto|]. rewrite B1, B2. split; [exact Z|]. split; [exact F|]. split; [exact N|]. exact R. }
  split.
  - destruct size as [[w h]|]; cbn [rbind].
    + destruct G as [Gw Gh]. intros E. left. apply (Main w h); auto.
    + destruct (infer_box_size (py_len l)) as [[w h]|x] eqn:E; cbn [rbind]; [|discriminate]. apply size_iff in E; [|unfold py_len; lia].
      destruct (auto_cases _ _ _ E) as [[L0 [-> ->]]|[_ [Gw Gh]]]; [|intros X; left; apply (Main w h); auto].
      assert (l = []) as -> by (destruct l; [auto|unfold py_len in L0; cbn in L0; lia]). rewrite rest_none. intros [-> ->]. right.
      apply items_nil in I. destruct I as [-> ->]. split; [auto|]. split; [auto|]. split; [auto|]. split; [auto|]. exists u. auto.
  - intros [[_ [Wt [u' [a' [b' [l' [vs [C' [T' [I' [Z [F [N R]]]]]]]]]]]]]|[_ [-> [-> [-> [u' [C' T']]]]]]].
    + destruct (parts_unique s e ns ss cs u a b l u' a' b' l' H C T I C' T' I') as [-> [-> [-> ->]]]. cbv zeta in *.
      assert (X : read_rest e ns cs b' l' (box_width t, box_height t) = Ok t).
      { apply rest_says; [apply Wt|apply Wt|]. split; [auto|]. split; [auto|]. split; [auto|]. split; [exists vs; auto|exact R]. }
      destruct size as [[w h]|]; cbn [rbind]; [rewrite Z; exact X|]. apply size_iff in Z; [|lia]. unfold py_len. rewrite Z. cbn [rbind]. exact X.
    + destruct (parts_unique s e [] ss cs u a b l u' [] [] [] H C T I C' T' (proj2 (items_nil [] []) (conj eq_refl eq_refl))) as [-> [-> [-> ->]]]. reflexivity.
Qed.
Theorem decode_fails : forall s e ns ss cs size x, size_given_ok size -> decode s e ns ss cs size = Err x ->
  x = ValueError \/ x = IndexError.
Proof.
  intros s e ns ss cs size x G. destruct ss as [|c ss0]; [rewrite decode_no_sep; intros E; injection E as <-; auto|].
  assert (H : c :: ss0 <> []) by discriminate. set (ss := c :: ss0) in *. clearbody ss. clear c ss0.
  destruct (parts_exist s e ns ss cs H) as [u [a [b [l [C [T I]]]]]]. rewrite (decode_parts s e ns ss cs size u a b l H C T I).
  destruct size as [[w h]|]; cbn [rbind].
  - destruct G as [Gw Gh]. destruct (rest_outcome e ns cs b l w h Gw Gh) as [[t ->]| ->]; [discriminate|]. intros E. injection E as <-. auto.
  - destruct (infer_outcome (py_len l)) as [[[w h] E]|E]; rewrite E; cbn [rbind]; [|intros X; injection X as <-; auto].
    apply size_iff in E; [|unfold py_len; lia].
    destruct (auto_cases _ _ _ E) as [[L0 [-> ->]]|[_ [Gw Gh]]].
    + assert (l = []) as -> by (destruct l; [auto|unfold py_len in L0; cbn in L0; lia]). intros X. apply rest_none_err in X. tauto.
    + destruct (rest_outcome e ns cs b l w h Gw Gh) as [[t ->]| ->]; [discriminate|]. intros X. injection X as <-. auto.
Qed.
Theorem decode_index : forall s e ns ss cs size, size_given_ok size ->
  (decode s e ns ss cs size = Err IndexError <-> only_candidates s e ns ss cs size).
Proof.
  intros s e ns ss cs size G. destruct ss as [|c ss0]; [split; [discriminate|intros [X _]; congruence]|].
  assert (H : c :: ss0 <> []) by discriminate. set (ss := c :: ss0) in *. clearbody ss. clear c ss0.
  destruct (parts_exist s e ns ss cs H) as [u [a [b [l [C [T I]]]]]]. rewrite (decode_parts s e ns ss cs size u a b l H C T I). split.
  - destruct size as [[w h]|]; cbn [rbind].
    + destruct G as [Gw Gh]. destruct (rest_outcome e ns cs b l w h Gw Gh) as [[t ->]| ->]; discriminate.
    + destruct (infer_outcome (py_len l)) as [[[w h] E]|E]; rewrite E; cbn [rbind]; [|discriminate].
      apply size_iff in E; [|unfold py_len; lia].
      destruct (auto_cases _ _ _ E) as [[L0 [-> ->]]|[_ [Gw Gh]]].
      * assert (l = []) as -> by (destruct l; [auto|unfold py_len in L0; cbn in L0; lia]). intros X. apply rest_none_err in X.
        destruct X as [X|[_ [Nb [Nc [it [l [vs [P V]]]]]]]]; [discriminate|]. apply items_nil in I. destruct I as [-> ->].
        split; [auto|]. split; [auto|]. split; [auto|]. split; [auto|]. exists u, b, it, l, vs. auto.
      * destruct (rest_outcome e ns cs b l w h Gw Gh) as [[t ->]| ->]; discriminate.
  - intros [_ [-> [-> [Nc [u' [b' [it [l' [vs [C' [T' [Nb [P V]]]]]]]]]]]]].
    destruct (parts_unique s e [] ss cs u a b l u' [] b' [] H C T I C' T' (proj2 (items_nil [] []) (conj eq_refl eq_refl))) as [-> [-> [-> ->]]].
    cbn [rbind]. change (infer_box_size (py_len (@nil pystr))) with (Ok (0, 0)). cbn [rbind]. apply (rest_index [] e cs b' it l' vs); auto.
Qed.
