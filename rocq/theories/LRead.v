(** Proofs about Sudoku.decode on arbitrary texts. *)
From Coq Require Import Znumtheory.
From Verif Require Export SpecRead LDecode4 LCodec3.
Import PyStr.

(** * Cleaning *)
Lemma blank_ws : forall c, In c WHITESPACE <-> blank c.
Proof.
  intros c. unfold blank, WHITESPACE. cbn [In]. split; [intros [<-|[<-|[<-|[<-|[<-|[<-|[]]]]]]]; lia|]. intros [->|H]; [auto|].
  assert (c = 9 \/ c = 10 \/ c = 11 \/ c = 12 \/ c = 13) as [->|[->|[->|[->| ->]]]] by lia; auto 8.
Qed.
Definition swap (sp ns : pystr) (ws : pystr) (c : Z) : pystr := if char_in c ws && negb (char_in c sp) then ns else [c].
Lemma swap_fold : forall sp ns ws s, (forall c, In c ns -> In c sp) ->
  fold_left (fun s c => if char_in c sp then s else replace_char c ns s) ws s = flat_map (swap sp ns ws) s.
Proof.
  intros sp ns ws s Hn. induction ws as [|w ws IH] using rev_ind.
  - cbn [fold_left]. induction s as [|c s IH]; auto. cbn [flat_map swap char_in existsb andb app]. f_equal. exact IH.
  - rewrite fold_left_app, IH. cbn [fold_left]. clear IH.
    assert (X : forall c, swap sp ns (ws ++ [w]) c = if char_in w sp then swap sp ns ws c else replace_char w ns (swap sp ns ws c)).
    { intros c. unfold swap. destruct (char_in c ws) eqn:E1.
      - assert (E : char_in c (ws ++ [w]) = true) by (apply char_in_iff, in_app_iff; left; apply char_in_iff; auto). rewrite E. cbn [andb].
        destruct (char_in c sp) eqn:E2; cbn [negb].
        + destruct (char_in w sp) eqn:E3; auto. unfold replace_char. cbn [flat_map]. destruct (c =? w) eqn:E4; auto.
          apply Z.eqb_eq in E4. subst. congruence.
        + destruct (char_in w sp) eqn:E3; auto. symmetry. apply replace_char_id. intros I. apply Hn, char_in_iff in I. congruence.
      - cbn [andb]. destruct (Z.eq_dec c w) as [->|N].
        + assert (E : char_in w (ws ++ [w]) = true) by (apply char_in_iff, in_app_iff; right; left; auto). rewrite E. cbn [andb].
          destruct (char_in w sp); cbn [negb]; auto. unfold replace_char. cbn [flat_map]. rewrite Z.eqb_refl, app_nil_r. reflexivity.
        + assert (E : char_in c (ws ++ [w]) = false).
          { apply char_in_false. rewrite in_app_iff. intros [I|[I|[]]]; [apply char_in_iff in I; congruence|congruence]. }
          rewrite E. cbn [andb]. destruct (char_in w sp); auto. symmetry. apply replace_char_id. intros [I|[]]. congruence. }
    destruct (char_in w sp).
    + induction s as [|c s IH]; auto. cbn [flat_map]. rewrite X, IH. reflexivity.
    + induction s as [|c s IH]; auto. cbn [flat_map]. rewrite X, <- IH. unfold replace_char. rewrite flat_map_app. reflexivity.
Qed.
Lemma cleaned_iff : forall e ns ss cs s u, cleaned_text e ns ss cs s u <-> u = clean s e ns ss cs.
Proof.
  intros e ns ss cs s u. unfold clean. rewrite swap_fold by (intros c I; rewrite !in_app_iff; auto).
  set (sp := e ++ ss ++ cs ++ ns).
  assert (X : forall c, (blank_item sp c -> swap sp ns WHITESPACE c = ns) /\ (~ blank_item sp c -> swap sp ns WHITESPACE c = [c])).
  { intros c. unfold swap, blank_item. destruct (char_in c WHITESPACE) eqn:E1, (char_in c sp) eqn:E2; cbn [andb negb]; split; auto.
    - intros [_ H]. apply char_in_iff in E2. contradiction.
    - intros H. destruct H. split; [apply blank_ws, char_in_iff; auto|apply char_in_false; auto].
    - intros [H _]. apply blank_ws, char_in_iff in H. congruence.
    - intros [H _]. apply blank_ws, char_in_iff in H. congruence. }
  assert (D : forall c, blank_item sp c \/ ~ blank_item sp c).
  { intros c. unfold blank_item. rewrite <- blank_ws, <- !char_in_iff. destruct (char_in c WHITESPACE), (char_in c sp); intuition congruence. }
  split.
  - intros [t [xs [T [-> F]]]]. apply trimmed_strip in T. subst t. rewrite flat_map_concat_map. f_equal. fold sp in F.
    induction F as [|c x t xs [A B] F IH]; auto. cbn [map]. rewrite <- IH. f_equal. destruct (X c) as [X1 X2]. destruct (D c) as [d|d].
    + rewrite X1, A; auto.
    + rewrite X2, B; auto.
  - intros ->. exists (strip s), (map (swap sp ns WHITESPACE) (strip s)). splits.
    + apply trimmed_strip; auto.
    + apply flat_map_concat_map.
    + fold sp. induction (strip s) as [|c t IH]; cbn [map]; constructor; auto.
Qed.

(** * Pieces *)
Lemma split_cut : forall m t, m <> [] -> split_go m t 0 = match cut m t with Some (l, r) => l :: split_go m r 0 | None => [t] end.
Proof.
  intros m t Hm. induction t as [|c t IH].
  - rewrite cut_step. destruct (starts_with m []) eqn:S; [|reflexivity]. apply starts_with_iff in S. destruct S as [x S]. destruct m; [congruence|discriminate].
  - rewrite cut_step. destruct (starts_with m (c :: t)) eqn:S.
    + apply starts_with_iff in S. destruct S as [x S]. rewrite S. rewrite skipn_app, skipn_all, Nat.sub_diag. cbn [app skipn].
      destruct m as [|m0 m]; [congruence|]. apply split_go_sep.
    + cbn [split_go]. rewrite S, IH. destruct (cut m t) as [[a b]|]; reflexivity.
Qed.
Lemma pieces_iff : forall m t ps, m <> [] -> (pieces m t ps <-> ps = split_go m t 0).
Proof.
  intros m t ps Hm. split.
  - intros P. induction P as [t N|t l r ps F P IH].
    + rewrite split_cut by auto. rewrite (proj2 (cut_no m t) N). reflexivity.
    + rewrite split_cut by auto. rewrite (proj2 (cut_iff m t l r Hm) F), IH. reflexivity.
  - intros ->. assert (X : forall n t, (length t <= n)%nat -> pieces m t (split_go m t 0)); [|apply (X (length t)); auto].
    clear t. induction n as [|n IH]; intros t L; rewrite split_cut by auto; destruct (cut m t) as [[l r]|] eqn:C.
    + apply cut_first_cut in C; auto. destruct C as [-> _]. rewrite !app_length in L. destruct m; [congruence|cbn in L; lia].
    + apply pieces_last, cut_no; auto.
    + apply cut_first_cut in C; auto. apply (pieces_more m t l r); auto. apply IH. destruct C as [-> _]. rewrite !app_length in L. destruct m; [congruence|cbn in L; lia].
    + apply pieces_last, cut_no; auto.
Qed.
Lemma items_iff : forall ns a l, items_of ns a l <-> l = match ns with [] => map (fun c => [c]) a | _ => split_go ns a 0 end.
Proof.
  intros ns a l. unfold items_of. destruct ns as [|c ns].
  - intuition congruence.
  - rewrite pieces_iff by discriminate. intuition congruence.
Qed.
Lemma two_parts_iff : forall ss u a b, ss <> [] -> (two_parts ss u a b <-> (match cut ss u with Some (a, b) => (a, b) | None => (u, []) end) = (a, b)).
Proof.
  intros ss u a b H. unfold two_parts. rewrite <- cut_iff by auto. rewrite <- cut_no. destruct (cut ss u) as [[x y]|].
  - split; [intros [E|[E _]]; [injection E as <- <-; auto|discriminate]|]. intros E. injection E as <- <-. auto.
  - split; [intros [E|[_ [-> ->]]]; [discriminate|auto]|]. intros E. injection E as <- <-. auto.
Qed.

(** * Items *)
Lemma str_is_iff : forall a b, str_is a b = true <-> is_empty_item b a.
Proof.
  intros a b. unfold str_is, is_empty_item. rewrite andb_true_iff, str_eqb_eq.
  assert (X : unique_object b = true <-> b = [] \/ exists c, b = [c] /\ c < 256).
  { destruct b as [|c [|d b]]; cbn [unique_object].
    - split; auto.
    - rewrite Z.leb_le. split; [intros; right; exists c; split; auto; lia|]. intros [E|[x [E L]]]; [discriminate|]. injection E as <-. lia.
    - split; [discriminate|]. intros [E|[x [E L]]]; discriminate. }
  split; [intros [A ->]; split; auto; apply X; auto|]. intros [-> A]. split; auto. apply X. exact A.
Qed.
Lemma item_iff : forall e it v, read_item e it = Ok v <-> item_value e it v.
Proof.
  intros e it v. unfold read_item, item_value. rewrite <- str_is_iff. destruct (str_is it e).
  - split; [intros E; injection E as <-; auto|]. intros [[_ ->]|[N _]]; [auto|congruence].
  - rewrite int_text_iff. split; [auto|]. intros [[X _]|[_ X]]; [discriminate|auto].
Qed.
Lemma cands_iff : forall ns it vs, read_cands ns it = Ok vs <-> item_cands ns it vs.
Proof.
  intros ns it vs. unfold read_cands, item_cands.
  assert (X : (match ns with [] => Ok (map (fun x => [x]) (strip it)) | _ => PyStr.split ns (strip it) end) =
    Ok (match ns with [] => map (fun c => [c]) (strip it) | _ => split_go ns (strip it) 0 end)) by (destruct ns; reflexivity).
  unfold pystr in *. rewrite X. cbn [rbind]. rewrite mapM_forall2. rewrite (forall2_iff _ int_text _ _ int_text_iff). split.
  - intros F. exists (strip it). eexists. split; [apply trimmed_strip; auto|]. split; [apply items_iff; reflexivity|]. exact F.
  - intros [t [l [T [I F]]]]. apply trimmed_strip in T. subst t. apply items_iff in I. subst l. exact F.
Qed.
Lemma size_iff : forall n w h, 0 <= n -> (infer_box_size n = Ok (w, h) <-> auto_size n w h).
Proof.
  intros n w h Hn. split.
  - unfold infer_box_size. destruct (exact_sqrt n) as [k|] eqn:E1; [|discriminate]. apply exact_sqrt_inv in E1. destruct E1 as [K1 K2].
    destruct (exact_sqrt k) as [m|] eqn:E2.
    + apply exact_sqrt_inv in E2. destruct E2 as [M1 M2]. intros E. injection E as <- <-. exists k. splits; auto.
    + assert (Nq : ~ square k) by (intros [m [M1 M2]]; rewrite (exact_sqrt_some k m M1 M2) in E2; discriminate).
      destruct (List.find _ _) as [d|] eqn:F; [|discriminate]. destruct (d =? k) eqn:D; [discriminate|]. apply Z.eqb_neq in D. intros E. injection E as <- <-.
      assert (Kp : 2 <= k). { destruct (Z_lt_le_dec k 2); auto. exfalso. apply Nq. exists k. nia. }
      assert (L : exists m, least_divisor m k).
      { assert (Y : forall j, 0 <= j -> (exists m, least_divisor m k) \/ (forall e, 2 <= e < 2 + j -> ~ (e | k))).
        { intros j J. pattern j. apply natlike_ind; auto; [right; intros; lia|]. intros x Hx [H|H]; auto.
          destruct (Zdivide_dec (2 + x) k) as [Y|Y].
          - left. exists (2 + x). split; [lia|]. split; auto. intros e He De. destruct (Z_lt_le_dec e (2 + x)); [|auto]. exfalso. exact (H e ltac:(lia) De).
          - right. intros e He. destruct (Z.eq_dec e (2 + x)) as [->|]; auto. apply H. lia. }
        destruct (Y (k - 1) ltac:(lia)) as [H|H]; auto. exfalso. apply (H k); [lia|]. apply Z.divide_refl. }
      destruct L as [m L]. rewrite (find_divisor k m K1 L ltac:(lia)) in F. injection F as ->.
      exists k. splits; auto. right. destruct L as [L1 [L2 L3]]. splits; auto.
      * split; auto.
      * specialize (L3 k ltac:(lia) (Z.divide_refl k)). lia.
      * destruct L2 as [q ->]. rewrite Z.div_mul by lia. lia.
  - intros [k [K1 [<- [[-> [H1 H2]]|[N [L [H1 H2]]]]]]].
    + subst k. apply infer_fourth; auto.
    + rewrite (infer_rect k w) by (auto; lia). f_equal. f_equal. destruct L as [L _]. subst k. rewrite Z.mul_comm. apply Z.div_mul. lia.
Qed.

(** * Reading *)
Lemma fields_trunc : forall e items s i, wf s -> 0 <= i < NN s * NN s ->
  read_fields e items s (i / NN s) (i mod NN s) = read_fields e (firstn (Z.to_nat (NN s * NN s - i)) items) s (i / NN s) (i mod NN s).
Proof.
  intros e items; induction items as [|it items IH]; intros s i W H; [rewrite firstn_nil; reflexivity|].
  replace (Z.to_nat (NN s * NN s - i)) with (S (Z.to_nat (NN s * NN s - (i + 1)))) by lia. cbn [firstn read_fields].
  destruct (if str_is it e then Ok 0 else int_of_str it) as [v|x]; cbn [rbind]; auto.
  pose proof (NN_pos s W) as Np. assert (Hf : field s (i / NN s, i mod NN s)) by (apply div_field; lia).
  rewrite setitem_ok by auto. cbn [rbind]. set (s1 := pset s (i / NN s, i mod NN s) v). change (box_width s1 * box_height s1) with (NN s).
  rewrite step_div by lia. cbv beta iota. destruct (NN s <=? (i + 1) / NN s) eqn:E; auto. apply Z.leb_gt in E.
  assert (W1 : wf s1) by (apply pset_wf; auto). change (NN s) with (NN s1). apply IH; auto. change (NN s1) with (NN s). split; [lia|].
  pose proof (Z.div_mod (i + 1) (NN s) ltac:(lia)). pose proof (Z.mod_pos_bound (i + 1) (NN s)). nia.
Qed.
Lemma cands_trunc : forall ns items s i, wf s -> 0 <= i < NN s * NN s ->
  read_candidates ns items s (i / NN s) (i mod NN s) = read_candidates ns (firstn (Z.to_nat (NN s * NN s - i)) items) s (i / NN s) (i mod NN s).
Proof.
  intros ns items; induction items as [|it items IH]; intros s i W H; [rewrite firstn_nil; reflexivity|].
  replace (Z.to_nat (NN s * NN s - i)) with (S (Z.to_nat (NN s * NN s - (i + 1)))) by lia. cbn [firstn]. rewrite !read_candidates_eq.
  destruct (read_cands ns it) as [v|x]; cbn [rbind]; auto.
  pose proof (NN_pos s W) as Np. assert (Hf : field s (i / NN s, i mod NN s)) by (apply div_field; lia).
  rewrite set_candidates_ok by auto. cbn [rbind]. set (s1 := pcset s (i / NN s, i mod NN s) (sof_list zcmp v)). cbv zeta. change (box_width s1 * box_height s1) with (NN s).
  rewrite step_div_eq by lia. cbv beta iota. destruct ((i + 1) / NN s =? NN s) eqn:E; auto. apply Z.eqb_neq in E.
  assert (W1 : wf s1) by (apply pcset_wf; auto; apply (sof_list_sset zcmp zcmp_good)). change (NN s) with (NN s1). apply IH; auto. change (NN s1) with (NN s). split; [lia|].
  pose proof (Z.div_mod (i + 1) (NN s) ltac:(lia)). pose proof (Z.mod_pos_bound (i + 1) (NN s)).
  assert ((i + 1) / NN s <= NN s) by (apply Z.div_le_upper_bound; lia). nia.
Qed.
Lemma fields_value : forall e items s i, wf s -> 0 <= i -> (items <> [] -> i + py_len items <= NN s * NN s) ->
  (exists vs, Forall2 (fun it v => read_item e it = Ok v) items vs) \/ read_fields e items s (i / NN s) (i mod NN s) = Err ValueError.
Proof.
  intros e items; induction items as [|it items IH]; intros s i W Hi L; [left; exists []; constructor|].
  cbn [read_fields]. change (if str_is it e then Ok 0 else int_of_str it) with (read_item e it).
  assert (Lb : i + 1 + py_len items <= NN s * NN s) by (specialize (L ltac:(discriminate)); unfold py_len in *; cbn [length] in L; lia).
  destruct (read_item e it) as [v|x] eqn:E; cbn [rbind].
  - pose proof (NN_pos s W) as Np. assert (Hf : field s (i / NN s, i mod NN s)) by (apply div_field; unfold py_len in Lb; lia).
    rewrite setitem_ok by auto. cbn [rbind]. set (s1 := pset s (i / NN s, i mod NN s) v). change (box_width s1 * box_height s1) with (NN s).
    rewrite step_div by lia. cbv beta iota. assert (W1 : wf s1) by (apply pset_wf; auto).
    destruct (IH s1 (i + 1) W1 ltac:(lia)) as [[vs F]|F]; [intros _; exact Lb|left; exists (v :: vs); constructor; auto|].
    destruct (NN s <=? (i + 1) / NN s) eqn:E2; [|right; exact F]. apply Z.leb_le in E2.
    pose proof (Z.mul_div_le (i + 1) (NN s)). destruct items; [left; exists [v]; constructor; auto|]. unfold py_len in Lb. cbn [length] in Lb. nia.
  - right. unfold read_item in E. destruct (str_is it e); [discriminate|]. destruct (int_ok_value it) as [[y Y]|Y]; rewrite Y in E; [discriminate|]. injection E as <-. auto.
Qed.
Lemma read_cands_value : forall ns it, ok_or_value (read_cands ns it).
Proof.
  intros ns it. unfold read_cands. destruct ns as [|c ns]; [cbn [rbind]|unfold PyStr.split; cbn [rbind]]; apply ok_value_mapM; intros; apply int_ok_value.
Qed.
Lemma cands_value : forall ns items s i, wf s -> 0 <= i -> (items <> [] -> i + py_len items <= NN s * NN s) ->
  (exists vs, Forall2 (fun it v => read_cands ns it = Ok v) items vs) \/ read_candidates ns items s (i / NN s) (i mod NN s) = Err ValueError.
Proof.
  intros ns items; induction items as [|it items IH]; intros s i W Hi L; [left; exists []; constructor|].
  rewrite read_candidates_eq.
  assert (Lb : i + 1 + py_len items <= NN s * NN s) by (specialize (L ltac:(discriminate)); unfold py_len in *; cbn [length] in L; lia).
  destruct (read_cands_value ns it) as [[v E]|E]; rewrite E; cbn [rbind]; auto.
  pose proof (NN_pos s W) as Np. assert (Hf : field s (i / NN s, i mod NN s)) by (apply div_field; unfold py_len in Lb; lia).
  rewrite set_candidates_ok by auto. cbn [rbind]. set (s1 := pcset s (i / NN s, i mod NN s) (sof_list zcmp v)). cbv zeta. change (box_width s1 * box_height s1) with (NN s).
  rewrite step_div_eq by lia. cbv beta iota. assert (W1 : wf s1) by (apply pcset_wf; auto; apply (sof_list_sset zcmp zcmp_good)).
  destruct (IH s1 (i + 1) W1 ltac:(lia)) as [[vs F]|F]; [intros _; exact Lb|left; exists (v :: vs); constructor; auto|].
  destruct ((i + 1) / NN s =? NN s) eqn:E2; [|right; exact F]. apply Z.eqb_eq in E2.
  pose proof (Z.mul_div_le (i + 1) (NN s)). destruct items; [left; exists [v]; constructor; auto|]. unfold py_len in Lb. cbn [length] in Lb. nia.
Qed.

Lemma firstn_len : forall {A} (n : Z) (l : list A), 0 <= n -> py_len (firstn (Z.to_nat n) l) <= n.
Proof. intros A n l H. unfold py_len. rewrite firstn_length. lia. Qed.
Lemma nth_out : forall {A} k (l : list A) d, py_len l <= k -> nth (Z.to_nat k) l d = d.
Proof. intros A k l d H. apply nth_overflow. unfold py_len in H. lia. Qed.
Lemma forall2_len : forall {A B} (P : A -> B -> Prop) l m, Forall2 P l m -> length l = length m.
Proof. intros A B P l m F. induction F; cbn; auto. Qed.
Lemma sof_list_iff : forall l v, In v (sof_list zcmp l) <-> In v l.
Proof. intros l v. apply (In_sof_list zcmp zcmp_good). Qed.

Section Fields.
Context (e ns : pystr) (w h : Z) (Hw : 1 <= w) (Hh : 1 <= h).
Let s0 := new_sudoku (w, h).
Let n := w * h.
Let W0 : wf s0. Proof. apply new_sudoku_wf; auto. Qed.
Let Np : 0 < n. Proof. unfold n. nia. Qed.
Lemma zero_start : forall {A} (f : Z -> Z -> A), f 0 0 = f (0 / n) (0 mod n).
Proof. intros A f. rewrite Z.div_0_l, Z.mod_0_l by lia. reflexivity. Qed.
Definition fields_read (l : list pystr) (t : sudoku) : Prop :=
  wf t /\ box_width t = w /\ box_height t = h /\ (forall p, field t p -> cand t p = []) /\
  exists vs, Forall2 (item_value e) (firstn (Z.to_nat (n * n)) l) vs /\
    forall i j, field t (i, j) -> num t (i, j) = nth (Z.to_nat (i * n + j)) vs 0.
Lemma item_value_unique : forall it v v', item_value e it v -> item_value e it v' -> v = v'.
Proof. intros it v v' A B. apply item_iff in A, B. congruence. Qed.
Lemma fields_read_ok : forall l vs, Forall2 (item_value e) (firstn (Z.to_nat (n * n)) l) vs ->
  exists t, read_fields e l s0 0 0 = Ok t /\ wf t /\ box_width t = w /\ box_height t = h /\ (forall p, field t p -> cand t p = []) /\
    forall i j, field t (i, j) -> num t (i, j) = nth (Z.to_nat (i * n + j)) vs 0.
Proof.
  intros l vs F. rewrite (zero_start (read_fields e l s0)).
  pose proof (fields_trunc e l s0 0 W0 ltac:(change (NN s0) with n; nia)) as T. change (NN s0) with n in T. rewrite T. rewrite Z.sub_0_r. clear T.
  pose proof (firstn_len (n * n) l ltac:(nia)) as L.
  destruct (read_fields_ok e (firstn (Z.to_nat (n * n)) l) vs s0 0 W0 ltac:(lia)) as [t [E [Wt [B1 [B2 P]]]]].
  - eapply forall2_iff; [|exact F]. intros; apply item_iff.
  - intros _. exact L.
  - change (NN s0) with n in E. exists t. split; [exact E|]. split; [exact Wt|]. split; [exact B1|]. split; [exact B2|].
    assert (Ft : forall p, field t p -> field s0 p) by (unfold field; rewrite B1, B2; auto).
    split.
    + intros p Hp. destruct (P p (Ft p Hp)) as [-> _]. apply cand_new; auto. apply (Ft p Hp).
    + intros i j Hp. pose proof (pos_bound s0 _ (Ft _ Hp)) as K. destruct (P _ (Ft _ Hp)) as [_ ->]. cbv zeta. unfold pos in *. cbn [fst snd] in *.
      change (NN s0) with n in *. rewrite Z.sub_0_r. pose proof (forall2_len _ _ _ F) as FL.
      destruct (_ && _) eqn:E1; auto. rewrite nth_out; [apply num_new; auto; apply (Ft _ Hp)|].
      apply andb_false_iff in E1. rewrite Z.leb_gt, Z.ltb_ge in E1. unfold py_len in *. rewrite <- FL. lia.
Qed.
Lemma fields_iff : forall l t, read_fields e l s0 0 0 = Ok t <-> fields_read l t.
Proof.
  intros l t. unfold fields_read. split.
  - intros E. assert (X : exists vs, Forall2 (item_value e) (firstn (Z.to_nat (n * n)) l) vs).
    { destruct (fields_value e (firstn (Z.to_nat (n * n)) l) s0 0 W0 ltac:(lia)) as [[vs F]|F].
      - intros _. apply firstn_len. change (NN s0) with n. nia.
      - exists vs. eapply forall2_iff; [|exact F]. intros; symmetry; apply item_iff.
      - exfalso. rewrite (zero_start (read_fields e l s0)) in E.
        pose proof (fields_trunc e l s0 0 W0 ltac:(change (NN s0) with n; nia)) as T. change (NN s0) with n in *. rewrite T, Z.sub_0_r in E. congruence. }
    destruct X as [vs F]. destruct (fields_read_ok l vs F) as [t' [E' R]]. rewrite E in E'. injection E' as <-. splits; try apply R. exists vs. split; [exact F|apply R].
  - intros [Wt [B1 [B2 [C [vs [F Nm]]]]]]. destruct (fields_read_ok l vs F) as [t' [E' [Wt' [B1' [B2' [C' Nm']]]]]]. rewrite E'. f_equal.
    assert (Ft : forall p, field t p -> field t' p) by (unfold field; rewrite B1, B2, B1', B2'; auto).
    assert (Ft' : forall p, field t' p -> field t p) by (unfold field; rewrite B1, B2, B1', B2'; auto).
    apply sudoku_ext; auto; try congruence.
    + intros [i j] Hp. rewrite Nm, Nm'; auto.
    + intros p Hp. rewrite C, C'; auto.
Qed.
Lemma fields_outcome : forall l, ok_or_value (read_fields e l s0 0 0).
Proof.
  intros l. destruct (fields_value e (firstn (Z.to_nat (n * n)) l) s0 0 W0 ltac:(lia)) as [[vs F]|F].
  - intros _. apply firstn_len. change (NN s0) with n. nia.
  - destruct (fields_read_ok l vs) as [t [E _]]; [eapply forall2_iff; [|exact F]; intros; symmetry; apply item_iff|]. left. exists t. exact E.
  - right. rewrite (zero_start (read_fields e l s0)).
    pose proof (fields_trunc e l s0 0 W0 ltac:(change (NN s0) with n; nia)) as T. change (NN s0) with n in *. rewrite T, Z.sub_0_r. exact F.
Qed.

Section Cands.
Context (s : sudoku) (Ws : wf s) (Sw : box_width s = w) (Sh : box_height s = h) (Sc : forall p, field s p -> cand s p = []).
Let Sn : NN s = n. Proof. unfold n. rewrite Sw, Sh. reflexivity. Qed.
Definition cands_read (l : list pystr) (t : sudoku) : Prop :=
  wf t /\ box_width t = w /\ box_height t = h /\ (forall p, field t p -> num t p = num s p) /\
  exists ls, Forall2 (item_cands ns) (firstn (Z.to_nat (n * n)) l) ls /\
    forall i j, field t (i, j) -> forall v, In v (cand t (i, j)) <-> In v (nth (Z.to_nat (i * n + j)) ls []).
Lemma cands_read_ok : forall l ls, Forall2 (item_cands ns) (firstn (Z.to_nat (n * n)) l) ls ->
  exists t, read_candidates ns l s 0 0 = Ok t /\ wf t /\ box_width t = w /\ box_height t = h /\ (forall p, field t p -> num t p = num s p) /\
    forall i j, field t (i, j) -> forall v, In v (cand t (i, j)) <-> In v (nth (Z.to_nat (i * n + j)) ls []).
Proof.
  intros l vs F. rewrite (zero_start (read_candidates ns l s)).
  pose proof (cands_trunc ns l s 0 Ws ltac:(rewrite Sn; nia)) as T. rewrite Sn in T. rewrite T. rewrite Z.sub_0_r. clear T.
  pose proof (firstn_len (n * n) l ltac:(nia)) as L.
  destruct (read_candidates_ok ns (firstn (Z.to_nat (n * n)) l) vs s 0 Ws ltac:(lia)) as [t [E [Wt [B1 [B2 P]]]]].
  - eapply forall2_iff; [|exact F]. intros; apply cands_iff.
  - intros _. rewrite Sn. exact L.
  - rewrite Sn in E. exists t. split; [exact E|]. split; [exact Wt|]. split; [congruence|]. split; [congruence|].
    assert (Ft : forall p, field t p -> field s p) by (unfold field; rewrite B1, B2; auto).
    split.
    + intros p Hp. destruct (P p (Ft p Hp)) as [-> _]. reflexivity.
    + intros i j Hp v. pose proof (pos_bound s _ (Ft _ Hp)) as K. destruct (P _ (Ft _ Hp)) as [_ ->]. cbv zeta. unfold pos in *. cbn [fst snd] in *.
      rewrite Sn in *. rewrite Z.sub_0_r. pose proof (forall2_len _ _ _ F) as FL.
      destruct (_ && _) eqn:E1; [apply sof_list_iff|]. rewrite nth_out; [rewrite Sc; [reflexivity|apply (Ft _ Hp)]|].
      apply andb_false_iff in E1. rewrite Z.leb_gt, Z.ltb_ge in E1. unfold py_len in *. rewrite <- FL. lia.
Qed.
Lemma cands_read_iff : forall l t, read_candidates ns l s 0 0 = Ok t <-> cands_read l t.
Proof.
  intros l t. unfold cands_read. split.
  - intros E. assert (X : exists vs, Forall2 (item_cands ns) (firstn (Z.to_nat (n * n)) l) vs).
    { destruct (cands_value ns (firstn (Z.to_nat (n * n)) l) s 0 Ws ltac:(lia)) as [[vs F]|F].
      - intros _. rewrite Sn. apply firstn_len. nia.
      - exists vs. eapply forall2_iff; [|exact F]. intros; symmetry; apply cands_iff.
      - exfalso. rewrite (zero_start (read_candidates ns l s)) in E.
        pose proof (cands_trunc ns l s 0 Ws ltac:(rewrite Sn; nia)) as T. rewrite Sn in *. rewrite T, Z.sub_0_r in E. congruence. }
    destruct X as [vs F]. destruct (cands_read_ok l vs F) as [t' [E' R]]. rewrite E in E'. injection E' as <-. splits; try apply R. exists vs. split; [exact F|apply R].
  - intros [Wt [B1 [B2 [C [vs [F Nm]]]]]]. destruct (cands_read_ok l vs F) as [t' [E' [Wt' [B1' [B2' [C' Nm']]]]]]. rewrite E'. f_equal.
    assert (Ft : forall p, field t p -> field t' p) by (unfold field; rewrite B1, B2, B1', B2'; auto).
    assert (Ft' : forall p, field t' p -> field t p) by (unfold field; rewrite B1, B2, B1', B2'; auto).
    apply sudoku_ext; auto; try congruence.
    + intros p Hp. rewrite C, C'; auto.
    + intros [i j] Hp. apply (sset_ext zcmp zcmp_good); [apply cand_sset; auto|apply cand_sset; auto|]. intros v. rewrite (Nm' i j), (Nm i j); auto. reflexivity.
Qed.
Lemma cands_outcome : forall l, ok_or_value (read_candidates ns l s 0 0).
Proof.
  intros l. destruct (cands_value ns (firstn (Z.to_nat (n * n)) l) s 0 Ws ltac:(lia)) as [[vs F]|F].
  - intros _. rewrite Sn. apply firstn_len. nia.
  - destruct (cands_read_ok l vs) as [t [E _]]; [eapply forall2_iff; [|exact F]; intros; symmetry; apply cands_iff|]. left. exists t. exact E.
  - right. rewrite (zero_start (read_candidates ns l s)).
    pose proof (cands_trunc ns l s 0 Ws ltac:(rewrite Sn; nia)) as T. rewrite Sn in *. rewrite T, Z.sub_0_r. exact F.
Qed.
End Cands.
End Fields.
