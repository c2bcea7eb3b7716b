(** The library functions of MShellLib satisfy the assumptions about a world. *)
From Verif Require Export LShell5 MShellLib.

Definition exn_ok {A} (r : res A) : Prop := forall e, r = Err e -> is_exception e = true.
Lemma exn_Ok : forall {A} (a : A), exn_ok (Ok a).
Proof. intros A a e E. discriminate. Qed.
Lemma exn_bind : forall {A B} (m : res A) (f : A -> res B), exn_ok m -> (forall a, m = Ok a -> exn_ok (f a)) -> exn_ok (rbind m f).
Proof. intros A B [a|e'] f H K e E; cbn [rbind] in E; [eapply K; eauto|]. inv E. apply H; auto. Qed.
Lemma exn_mapM : forall {A B} (f : A -> res B) l, (forall a, exn_ok (f a)) -> exn_ok (mapM f l).
Proof.
  intros A B f l H. induction l as [|x l IH]; cbn [mapM]; [apply exn_Ok|].
  apply exn_bind; auto. intros; apply exn_bind; auto. intros; apply exn_Ok.
Qed.
Lemma exn_foldM : forall {A S} (f : S -> A -> res S) l s, (forall s a, exn_ok (f s a)) -> exn_ok (foldM f l s).
Proof. intros A S f l s H. revert s. induction l as [|x l IH]; intros s; cbn [foldM]; [apply exn_Ok|]. apply exn_bind; auto. Qed.
Lemma exn_idx : forall n i, exn_ok (py_idx n i).
Proof. intros n i e. unfold py_idx. repeat (destruct (_ && _); try discriminate). intros E; inv E; auto. Qed.
Lemma exn_get : forall {A} (l : list A) i, exn_ok (list_get l i).
Proof. intros A l i. apply exn_bind; [apply exn_idx|]. intros k _. destruct (nth_error l k); intros e E; inv E; auto. Qed.
Lemma exn_set : forall {A} (l : list A) i v, exn_ok (list_set l i v).
Proof. intros A l i v. apply exn_bind; [apply exn_idx|]. intros; apply exn_Ok. Qed.
Lemma exn_int : forall s, exn_ok (int_of_str s).
Proof. intros s e E. apply int_of_str_exn in E. subst; auto. Qed.

Ltac exn1 :=
  match goal with
  | |- exn_ok (Ok _) => apply exn_Ok
  | |- exn_ok (Err _) => let e := fresh in let E := fresh in intros e E; inversion E; reflexivity
  | |- exn_ok (rbind _ _) => apply exn_bind; [|intros]
  | |- exn_ok (mapM _ _) => apply exn_mapM; intros
  | |- exn_ok (foldM _ _ _) => apply exn_foldM; intros
  | |- exn_ok (list_get _ _) => apply exn_get
  | |- exn_ok (list_set _ _ _) => apply exn_set
  | |- exn_ok (int_of_str _) => apply exn_int
  | |- exn_ok (if ?b then _ else _) => destruct b
  | |- exn_ok (match ?b with _ => _ end) => destruct b
  end.
Ltac exn := repeat exn1.

Lemma exn_getitem : forall s r c, exn_ok (getitem s r c).
Proof. intros. unfold getitem. exn. Qed.
Lemma exn_setitem : forall s r c v, exn_ok (setitem s r c v).
Proof. intros. unfold setitem. exn. Qed.
Lemma exn_get_candidates : forall s r c, exn_ok (get_candidates s r c).
Proof. intros. unfold get_candidates. exn. Qed.
Lemma exn_set_candidates : forall s r c v, exn_ok (set_candidates s r c v).
Proof. intros. unfold set_candidates. exn. Qed.
Lemma exn_remove_candidates : forall s r c v, exn_ok (remove_candidates s r c v).
Proof. intros. unfold remove_candidates. exn. Qed.
Ltac exn ::= repeat (exn1 || apply exn_getitem || apply exn_setitem || apply exn_get_candidates || apply exn_set_candidates).
Lemma exn_encode : forall s a b c, exn_ok (MCodec.encode s a b c).
Proof. intros. unfold MCodec.encode. exn. Qed.
Lemma exn_view : forall s a b c d, exn_ok (view s a b c d).
Proof. intros. unfold view, view_row, MCodec.list_max. exn. Qed.
Lemma exn_split : forall a b, exn_ok (PyStr.split a b).
Proof. intros. unfold PyStr.split. exn. Qed.

(** Shapes *)
Lemma sudoku_ok_of : forall s t, sudoku_ok s -> box_width t = box_width s -> box_height t = box_height s ->
  (length (s_numbers t) = length (s_numbers s) /\
   forall row, In row (s_numbers t) -> exists row', In row' (s_numbers s) /\ length row = length row') ->
  (length (s_candidates t) = length (s_candidates s) /\
   forall row, In row (s_candidates t) -> exists row', In row' (s_candidates s) /\ length row = length row' /\
     forall c, In c row -> In c row' \/ StronglySorted Z.lt c) -> sudoku_ok t.
Proof.
  intros s t [A [B [C [D E]]]] W H [N1 N2] [C1 C2]. unfold sudoku_ok. rewrite W, H. cbv zeta. splits; auto; try congruence.
  - intros row I. destruct (N2 row I) as [row' [I' L]]. rewrite L. auto.
  - intros row I. destruct (C2 row I) as [row' [I' [L _]]]. rewrite L. auto.
  - intros row c I Ic. destruct (C2 row I) as [row' [I' [_ K]]]. destruct (K c Ic); eauto.
Qed.

Lemma zsset_sorted : forall s : zset, zsset s <-> StronglySorted Z.lt s.
Proof. intros s. unfold zsset, sset, Z.lt. reflexivity. Qed.
Lemma list_upd_In : forall {A} k (v x : A) l, In x (list_upd k v l) -> x = v \/ In x l.
Proof.
  intros A k v x l. revert k. induction l as [|y l IH]; intros k H; destruct k; cbn in H; try (destruct H; fail).
  - destruct H; auto. right; right; auto.
  - destruct H as [H|H]; [right; left; auto|]. destruct (IH k H); auto. right; right; auto.
Qed.
Lemma list_upd_len : forall {A} k (v : A) l, length (list_upd k v l) = length l.
Proof. intros A k v l. revert k. induction l as [|y l IH]; intros k; destruct k; cbn; auto. Qed.
Lemma list_set_inv : forall {A} (l : list A) i v l', list_set l i v = Ok l' ->
  length l' = length l /\ forall x, In x l' -> x = v \/ In x l.
Proof.
  intros A l i v l' E. unfold list_set in E. destruct (py_idx (length l) i) as [k|]; cbn [rbind] in E; inv E.
  split; [apply list_upd_len|]. intros x. apply list_upd_In.
Qed.
Lemma list_get_In : forall {A} (l : list A) i x, list_get l i = Ok x -> In x l.
Proof.
  intros A l i x E. unfold list_get in E. destruct (py_idx (length l) i) as [k|]; cbn [rbind] in E; [|discriminate].
  destruct (nth_error l k) eqn:N; inv E. eapply nth_error_In; eauto.
Qed.

Lemma setitem_shape : forall s r c v t, setitem s r c v = Ok t -> sudoku_ok s -> sudoku_ok t.
Proof.
  intros s r c v t E H. unfold setitem in E.
  destruct (list_get (s_numbers s) r) as [row|] eqn:E1; cbn [rbind] in E; [|discriminate].
  destruct (list_set row c v) as [row'|] eqn:E2; cbn [rbind] in E; [|discriminate].
  destruct (list_set (s_numbers s) r row') as [rows|] eqn:E3; cbn [rbind] in E; [|discriminate]. inv E.
  apply list_get_In in E1. apply list_set_inv in E2, E3. destruct E2 as [L2 _], E3 as [L3 I3].
  eapply sudoku_ok_of; eauto; cbn [s_numbers s_candidates]; split; auto.
  - intros x Ix. destruct (I3 x Ix) as [->|]; eauto.
  - intros x Ix. exists x; splits; auto.
Qed.

Lemma cands_shape : forall s r row c v row' rows, list_get (s_candidates s) r = Ok row ->
  list_set row c v = Ok row' -> list_set (s_candidates s) r row' = Ok rows -> StronglySorted Z.lt v ->
  sudoku_ok s -> sudoku_ok (mkSudoku (box_width s) (box_height s) (s_numbers s) rows).
Proof.
  intros s r row c v row' rows E1 E2 E3 Hv H.
  apply list_get_In in E1. apply list_set_inv in E2, E3. destruct E2 as [L2 I2], E3 as [L3 I3].
  eapply sudoku_ok_of; eauto; cbn [s_numbers s_candidates]; split; auto.
  - intros x Ix. destruct (I3 x Ix) as [->|]; [|exists x; splits; auto].
    exists row; splits; auto. intros d Id. destruct (I2 d Id) as [->|]; auto.
Qed.
Lemma set_candidates_shape : forall s r c v t, set_candidates s r c v = Ok t -> sudoku_ok s -> sudoku_ok t.
Proof.
  intros s r c v t E H. unfold set_candidates in E.
  destruct (list_get (s_candidates s) r) as [row|] eqn:E1; cbn [rbind] in E; [|discriminate].
  destruct (list_set row c _) as [row'|] eqn:E2; cbn [rbind] in E; [|discriminate].
  destruct (list_set (s_candidates s) r row') as [rows|] eqn:E3; cbn [rbind] in E; [|discriminate]. inv E.
  eapply cands_shape; eauto. apply zsset_sorted, sof_list_sset, zcmp_good.
Qed.
Lemma remove_candidates_shape : forall s r c v t, remove_candidates s r c v = Ok t -> sudoku_ok s -> sudoku_ok t.
Proof.
  intros s r c v t E H. unfold remove_candidates in E.
  destruct (list_get (s_candidates s) r) as [row|] eqn:E1; cbn [rbind] in E; [|discriminate].
  destruct (list_get row c) as [old|] eqn:E0; cbn [rbind] in E; [|discriminate].
  destruct (list_set row c _) as [row'|] eqn:E2; cbn [rbind] in E; [|discriminate].
  destruct (list_set (s_candidates s) r row') as [rows|] eqn:E3; cbn [rbind] in E; [|discriminate]. inv E.
  eapply cands_shape; eauto. apply zsset_sorted, sdiff_zsset, zsset_sorted. destruct H as [_ [_ [_ [_ H]]]]. apply (H row); eapply list_get_In; eauto.
Qed.
Lemma init_shape : forall s b t, init_candidates s b = Ok t -> sudoku_ok s -> sudoku_ok t.
Proof.
  intros s b t. unfold init_candidates. generalize (coords s). intros l. revert s.
  induction l as [|x l IH]; intros s E H; cbn [foldM] in E; [inv E; auto|].
  destruct (getitem s (fst x) (snd x)) as [v|]; cbn [rbind] in E; [|discriminate].
  destruct (negb b || negb (v =? 0)); cbn [rbind] in E; [|eauto].
  destruct (calc_candidates s (fst x) (snd x)) as [c|]; cbn [rbind] in E; [|discriminate].
  destruct (set_candidates s (fst x) (snd x) c) as [s1|] eqn:E1; cbn [rbind] in E; [|discriminate].
  eapply IH; eauto. eapply set_candidates_shape; eauto.
Qed.
Lemma new_shape : forall b, sudoku_ok (new_sudoku b).
Proof.
  intros [w h]. unfold sudoku_ok, new_sudoku. cbn [box_width box_height s_numbers s_candidates].
  assert (L : length (py_range (w * h)) = Z.to_nat (w * h)) by (unfold py_range; rewrite map_length, seq_length; auto).
  rewrite !map_length, L. splits; auto.
  - intros row I. apply in_map_iff in I. destruct I as [_ [<- _]]. apply repeat_length.
  - intros row I. apply in_map_iff in I. destruct I as [_ [<- _]]. apply repeat_length.
  - intros row c I Ic. apply in_map_iff in I. destruct I as [_ [<- _]]. apply repeat_spec in Ic. subst. constructor.
Qed.
Lemma read_fields_ok : forall e items s r c, exn_ok (read_fields e items s r c) /\
  forall t, read_fields e items s r c = Ok t -> sudoku_ok s -> sudoku_ok t.
Proof.
  intros e items. induction items as [|x items IH]; intros s r c; cbn [read_fields].
  - split; [apply exn_Ok|]. intros t E. inv E. auto.
  - split.
    + exn. apply IH.
    + intros t E H. destruct (if str_is x e then Ok 0 else int_of_str x) as [v|]; cbn [rbind] in E; [|discriminate].
      destruct (setitem s r c v) as [s1|] eqn:E1; cbn [rbind] in E; [|discriminate]. apply setitem_shape in E1; auto.
      destruct (_ <=? c + 1); (destruct (_ <=? _); [inv E; auto|]); eapply IH; eauto.
Qed.
Lemma read_candidates_ok : forall e items s r c, exn_ok (read_candidates e items s r c) /\
  forall t, read_candidates e items s r c = Ok t -> sudoku_ok s -> sudoku_ok t.
Proof.
  intros e items. induction items as [|x items IH]; intros s r c; cbn [read_candidates].
  - split; [apply exn_Ok|]. intros t E. inv E. auto.
  - split.
    + exn; try apply exn_split; apply IH.
    + intros t E H. cbv zeta in E. match type of E with rbind ?m _ = _ => destruct m as [l|] end; cbn [rbind] in E; [|discriminate].
      destruct (mapM int_of_str l) as [v|]; cbn [rbind] in E; [|discriminate].
      destruct (set_candidates s r c v) as [s1|] eqn:E1; cbn [rbind] in E; [|discriminate]. apply set_candidates_shape in E1; auto.
      destruct (c + 1 =? _); (destruct (_ =? _); [inv E; auto|]); eapply IH; eauto.
Qed.
Lemma decode_ok : forall s a b c d z, exn_ok (MCodec.decode s a b c d z) /\
  forall t, MCodec.decode s a b c d z = Ok t -> sudoku_ok t.
Proof.
  intros s a b c d z. unfold MCodec.decode, infer_box_size. split.
  - exn; try apply exn_split; try apply read_fields_ok; try apply read_candidates_ok.
  - intros t E. match type of E with rbind ?m _ = _ => destruct m as [[u v]|] end; cbn [rbind] in E; [|discriminate].
    match type of E with rbind ?m _ = _ => destruct m as [wh|] end; cbn [rbind] in E; [|discriminate].
    match type of E with rbind ?m _ = _ => destruct m as [s1|] eqn:E1 end; cbn [rbind] in E; [|discriminate].
    apply read_fields_ok in E1; [|apply new_shape]. destruct v; [inv E; auto|].
    destruct (PyStr.split d _) as [l|]; cbn [rbind] in E; [|discriminate]. eapply read_candidates_ok; eauto.
Qed.

Lemma lib_sudoku_ok : forall name s args r, lib_sudoku name s args = Some r -> sudoku_ok s ->
  result_ok (snd r) /\ sudoku_ok (fst r).
Proof.
  intros name s args r E H.
  assert (T : forall x, exn_ok x -> result_ok (snd (text_result s x)) /\ sudoku_ok (fst (text_result s x))).
  { intros x Hx. split; auto. unfold text_result. cbn [snd]. destruct x as [|e]; cbn; auto. }
  assert (O : forall A (x : res A), exn_ok x -> result_ok (snd (object_result s x)) /\ sudoku_ok (fst (object_result s x))).
  { intros A x Hx. split; auto. unfold object_result. cbn [snd]. destruct x as [|e]; cbn; auto. }
  assert (C : forall x, exn_ok x -> (forall t, x = Ok t -> sudoku_ok t) -> result_ok (snd (change_result s x)) /\ sudoku_ok (fst (change_result s x))).
  { intros x Hx Hs. unfold change_result. destruct x as [t|e]; cbn [fst snd]; split; auto; cbn; auto. }
  unfold lib_sudoku in E.
  repeat match type of E with
  | (if ?b then _ else _) = _ => destruct b
  | (match ?b with _ => _ end) = _ => let X := fresh in destruct b eqn:X; try discriminate
  end; inv E; try discriminate;
  try (apply T; apply exn_encode || apply exn_view); try (apply O; apply exn_getitem || apply exn_get_candidates);
  try (apply C; [apply exn_setitem || apply exn_set_candidates || apply exn_remove_candidates|]; intros t Et;
       eapply setitem_shape in Et || eapply set_candidates_shape in Et || eapply remove_candidates_shape in Et; eauto; fail);
  split; cbn [fst snd]; auto; try exact I; eapply init_shape; eauto.
Qed.

Lemma std_world_ok : forall O, world_ok O -> world_ok (std_world O).
Proof.
  intros O H. destruct H as [H1 H2 H3 H4 H5]. constructor; cbn [std_world w_fun w_sudoku w_int w_literal]; auto.
  - intros n f args kw. destruct kw; [|apply H1]. destruct (lib_fun f args) as [r|] eqn:E; [|apply H1].
    assert (N : forall b, Some (RFresh (new_sudoku b)) = Some r -> result_ok r).
    { intros b X. replace r with (RFresh (new_sudoku b)) by congruence. exact (new_shape b). }
    unfold lib_fun in E.
    destruct (str_eqb f (lit "new")).
    + repeat match type of E with (match ?b with _ => _ end) = _ => destruct b; try discriminate end; exact (N _ E).
    + destruct (str_eqb f (lit "decode")); [|discriminate].
      repeat match type of E with (match ?b with _ => _ end) = _ => destruct b; try discriminate end; inv E.
      match goal with |- result_ok (match ?d with _ => _ end) => destruct d as [t|e] eqn:D end; cbn; eapply decode_ok; eauto.
  - intros n f s args kw Hs. destruct kw; [|apply H2; auto]. destruct (lib_sudoku f s args) as [r|] eqn:E; [|apply H2; auto].
    eapply lib_sudoku_ok; eauto.
  - intros n f s args kw Hs. destruct kw; [|apply H3; auto]. destruct (lib_sudoku f s args) as [r|] eqn:E; [|apply H3; auto].
    eapply lib_sudoku_ok; eauto.
Qed.
