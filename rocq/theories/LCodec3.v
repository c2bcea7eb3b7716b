(** Lemmas about MCodec: ambiguity, the automatic box size, blanks. *)
From Verif Require Export LCodec2.
Import PyStr.

(** * C51 *)
Lemma C51_partial_proof : forall s t, wf s -> wf t -> box_size s = box_size t ->
  one_digit s -> one_digit_cands s -> one_digit t -> one_digit_cands t ->
  encode s [] [] true = encode t [] [] true -> s = t.
Proof.
  intros s t W1 W2 B D1 D2 D3 D4 E.
  destruct (decode_candidates s W1 D1 D2) as [a [A1 A2]].
  destruct (decode_candidates t W2 D3 D4) as [b [B1 B2]].
  assert (a = b) by congruence. subst b. rewrite B in A2. congruence.
Qed.

Lemma app_sep_inj : forall (c : Z) a b a' b', ~ In c a -> ~ In c a' -> a ++ [c] ++ b = a' ++ [c] ++ b' -> a = a' /\ b = b'.
Proof.
  intros c. induction a as [|x a IH]; intros b [|y a'] b' H1 H2 E; cbn [app] in E; inversion E; subst; auto.
  - exfalso. apply H2. left; auto.
  - exfalso. apply H1. left; auto.
  - apply IH in H3; [destruct H3; subst; auto| |]; intros X; [apply H1|apply H2]; right; auto.
Qed.

(** When two encodings with candidates are equal *)
Lemma encode_same : forall s t, wf s -> wf t -> NN s = NN t ->
  (encode s [] [] true = encode t [] [] true <->
   concat (map (fun p => str_of_int (num s p)) (coords s)) = concat (map (fun p => str_of_int (num t p)) (coords s)) /\
   forall p, field s p -> concat (map str_of_int (cand s p)) = concat (map str_of_int (cand t p))).
Proof.
  intros s t W1 W2 E. rewrite !encode_cands by auto.
  assert (C : coords t = coords s) by (unfold coords, indices; rewrite E; reflexivity). rewrite C, !join_nil.
  change (lit "|") with [124]. change (lit ",") with [44].
  assert (N : forall u l, ~ In 124 (concat (map (fun p => str_of_int (num u p)) l))).
  { intros u l H. apply in_concat in H. destruct H as [a [A1 A2]]. apply in_map_iff in A1. destruct A1 as [p [<- _]].
    apply str_of_int_chars in A2. destruct A2 as [A2|A2]; [|discriminate]. unfold is_digit in A2. b2p. lia. }
  assert (K : forall u a, In a (map (fun p => concat (map str_of_int (cand u p))) (coords s)) -> ~ In 44 a).
  { intros u a Ha H. apply in_map_iff in Ha. destruct Ha as [p [<- _]]. apply in_concat in H. destruct H as [a [A1 A2]].
    apply in_map_iff in A1. destruct A1 as [n [<- _]]. apply str_of_int_chars in A2. destruct A2 as [A2|A2]; [|discriminate]. unfold is_digit in A2. b2p. lia. }
  assert (Ne : forall u : sudoku, map (fun p => concat (map str_of_int (cand u p))) (coords s) <> []).
  { intros u H. apply map_eq_nil in H. exact (coords_nonempty s W1 H). }
  split.
  - intros H. injection H as H. apply app_sep_inj in H; auto. destruct H as [H1 H2]. split; auto.
    apply (f_equal (fun x => split_go [44] x 0)) in H2. rewrite (split_join 44 [] _ (Ne s) (K s)), (split_join 44 [] _ (Ne t) (K t)) in H2.
    intros p Hp. apply in_coords in Hp. revert p Hp. apply map_ext_in_iff. exact H2.
  - intros [H1 H2]. f_equal. f_equal; [exact H1|]. f_equal. f_equal. apply map_ext_in. intros p Hp. apply H2, in_coords; auto.
Qed.

(** * C52 *)
Lemma exact_sqrt_some : forall n k, 0 <= k -> k * k = n -> exact_sqrt n = Some k.
Proof.
  intros n k Hk E. unfold exact_sqrt. rewrite <- E, Z.sqrt_square, Z.eqb_refl; auto.
Qed.

Lemma exact_sqrt_inv : forall n k, exact_sqrt n = Some k -> 0 <= k /\ k * k = n.
Proof.
  intros n k. unfold exact_sqrt. destruct (_ =? n) eqn:E; [|discriminate]. b2p. intros H; injection H as <-.
  split; auto. apply Z.sqrt_nonneg.
Qed.

Lemma exact_sqrt_none : forall n, ~ square n -> exact_sqrt n = None.
Proof.
  intros n H. destruct (exact_sqrt n) as [k|] eqn:E; auto. apply exact_sqrt_inv in E. exfalso; apply H; exists k; auto.
Qed.

Lemma mod_divide : forall a b, 2 <= b -> ((a mod b =? 0) = true <-> (b | a)).
Proof. intros a b H. rewrite Z.eqb_eq. rewrite Z.mod_divide by lia. reflexivity. Qed.

Lemma find_first_Z : forall (f : Z -> bool) n a d, (forall i, a <= i < d -> f i = false) -> f d = true ->
  a <= d < a + Z.of_nat n -> List.find f (map (fun i => a + Z.of_nat i) (seq 0 n)) = Some d.
Proof.
  intros f n; induction n as [|n IH]; intros a d H1 H2 H3; [lia|].
  cbn [seq map List.find]. replace (a + Z.of_nat 0) with a by lia.
  destruct (Z.eq_dec a d) as [->|Hn]; [rewrite H2; auto|].
  rewrite H1 by lia. rewrite <- seq_shift, map_map.
  rewrite <- (IH (a + 1) d); auto; [|intros; apply H1; lia|lia].
  f_equal. apply map_ext. intros; lia.
Qed.

Lemma find_range2 : forall f a b d, (forall i, a <= i < d -> f i = false) -> f d = true -> a <= d < b ->
  List.find f (py_range2 a b) = Some d.
Proof.
  intros f a b d H1 H2 H3. unfold py_range2, py_range. rewrite map_map. apply find_first_Z; auto. lia.
Qed.

Lemma find_divisor : forall k d, 0 <= k -> least_divisor d k -> 0 < k ->
  List.find (fun i => k mod i =? 0) (py_range2 2 (k + 1)) = Some d.
Proof.
  intros k d Hk [D1 [D2 D3]] Hp. apply find_range2.
  - intros i Hi. destruct (k mod i =? 0) eqn:E; auto. apply mod_divide in E; [|lia]. pose proof (D3 i ltac:(lia) E); lia.
  - apply mod_divide; auto.
  - pose proof (Z.divide_pos_le d k Hp D2). lia.
Qed.

Lemma infer_not_square : forall n, ~ square n -> infer_box_size n = Err ValueError.
Proof. intros n H. unfold infer_box_size. rewrite exact_sqrt_none; auto. Qed.

Lemma infer_fourth : forall m, 0 <= m -> infer_box_size (m * m * (m * m)) = Ok (m, m).
Proof.
  intros m H. unfold infer_box_size. rewrite (exact_sqrt_some _ (m * m)); auto; [|nia].
  rewrite (exact_sqrt_some _ m); auto.
Qed.

Lemma infer_rect : forall k d, 0 <= k -> ~ square k -> least_divisor d k -> d <> k ->
  infer_box_size (k * k) = Ok (d, k / d).
Proof.
  intros k d Hk Hs Hd Hn. unfold infer_box_size. rewrite (exact_sqrt_some _ k); auto.
  rewrite exact_sqrt_none; auto. assert (k <> 0) by (intros ->; apply Hs; exists 0; lia).
  rewrite (find_divisor k d); auto; [|lia]. destruct (d =? k) eqn:E; b2p; congruence.
Qed.

Lemma infer_prime : forall k, 0 <= k -> ~ square k -> least_divisor k k ->
  infer_box_size (k * k) = Err ValueError.
Proof.
  intros k Hk Hs Hd. unfold infer_box_size. rewrite (exact_sqrt_some _ k); auto.
  rewrite exact_sqrt_none; auto. assert (k <> 0) by (intros ->; apply Hs; exists 0; lia).
  rewrite (find_divisor k k); auto; [|lia]. rewrite Z.eqb_refl; auto.
Qed.

(** Decoding a string of digits without a box size. *)
Lemma decode_infer : forall str, (forall c, In c str -> is_digit c = true) ->
  decode str (lit "0") [] (lit "|") (lit ",") None =
  let* b := infer_box_size (py_len str) in
  read_fields (lit "0") (map (fun c => [c]) str) (new_sudoku b) 0 0.
Proof.
  intros str H. unfold decode. rewrite clean_id.
  2:{ apply strip_by_id. intros c Hc. apply is_space_digit; auto. }
  2:{ intros c Hc. right. intros Hi. apply H in Hi. rewrite ws_not_digit in Hi; auto; discriminate. }
  cbv zeta. change (lit "|") with [124]. cbv iota. cbn [rbind]. rewrite (cut_none 124 []).
  2:{ intros Hi. apply H in Hi. discriminate. }
  cbn [rbind]. unfold py_len. rewrite map_length.
  destruct (infer_box_size (Z.of_nat (length str))) as [b|e]; cbn [rbind]; auto.
  destruct (read_fields _ _ _ _ _); reflexivity.
Qed.

Lemma read_item_digit : forall c, is_digit c = true -> read_item (lit "0") [c] = Ok (c - 48).
Proof.
  intros c H. apply is_digit_range in H.
  replace [c] with (str_of_int (c - 48)) by (rewrite str_of_digit by lia; f_equal; lia).
  apply read_item_int.
Qed.

Lemma decode_sized : forall str w h, (forall c, In c str -> is_digit c = true) -> 1 <= w -> 1 <= h ->
  py_len str = w * h * (w * h) ->
  exists t, read_fields (lit "0") (map (fun c => [c]) str) (new_sudoku (w, h)) 0 0 = Ok t /\ wf t /\
    box_size t = (w, h) /\
    (forall r c, field t (r, c) -> num t (r, c) = nth (Z.to_nat (r * (w * h) + c)) str 0 - 48 /\ cand t (r, c) = []).
Proof.
  intros str w h H Hw Hh L.
  pose proof (new_sudoku_wf w h Hw Hh) as W.
  destruct (read_fields_ok (lit "0") (map (fun c => [c]) str) (map (fun c => c - 48) str) (new_sudoku (w, h)) 0)
    as [t [T1 [T2 [T3 [T4 T5]]]]]; auto; try lia.
  - clear L. induction str as [|c str IH]; cbn [map]; constructor.
    + apply read_item_digit, H; left; auto.
    + apply IH. intros; apply H; right; auto.
  - intros _. unfold py_len in *. rewrite map_length. cbn. lia.
  - exists t. change (NN (new_sudoku (w, h))) with (w * h) in *.
    rewrite Z.div_0_l, Z.mod_0_l in T1 by nia. splits; auto.
    + unfold box_size. rewrite T3, T4. reflexivity.
    + intros r c Hp. assert (Hf : field (new_sudoku (w, h)) (r, c)) by (unfold field in *; rewrite <- T3, <- T4; auto).
      destruct (T5 (r, c) Hf) as [E1 E2]. pose proof (pos_bound _ _ Hf) as B. change (NN (new_sudoku (w, h))) with (w * h) in B.
      split; [|rewrite E1; apply cand_new; auto].
      rewrite E2. cbv zeta. unfold py_len in *. rewrite map_length, L.
      replace (0 <=? pos (w * h) (r, c)) with true by (symmetry; apply Z.leb_le; lia).
      replace (pos (w * h) (r, c) <? 0 + w * h * (w * h)) with true by (symmetry; apply Z.ltb_lt; lia). cbn [andb].
      rewrite Z.sub_0_r. rewrite nth_indep with (d' := 0 - 48) by (rewrite map_length; lia).
      rewrite (map_nth (fun c => c - 48)). reflexivity.
Qed.

Lemma square_dec : forall n, square n \/ ~ square n.
Proof.
  intros n. destruct (exact_sqrt n) as [k|] eqn:E.
  - left. exists k. apply exact_sqrt_inv; auto.
  - right. intros [k [K1 K2]]. rewrite (exact_sqrt_some n k) in E; auto. discriminate.
Qed.

Lemma least_divisor_exists : forall k, 2 <= k -> exists d, least_divisor d k.
Proof.
  intros k Hk. destruct (List.find (fun i => k mod i =? 0) (py_range2 2 (k + 1))) as [d|] eqn:E.
  - destruct (find_some _ _ E) as [F1 F2]. apply in_py_range2 in F1.
    (* the least one exists by strong induction *)
    clear E. assert (X : forall n d, Z.of_nat n = d -> 2 <= d -> (d | k) -> exists e, least_divisor e k).
    { intros n. induction n as [n IH] using (well_founded_induction Wf_nat.lt_wf). intros e E1 E2 E3.
      destruct (existsb (fun i => k mod i =? 0) (py_range2 2 e)) eqn:Ex.
      - apply existsb_exists in Ex. destruct Ex as [i [I1 I2]]. apply in_py_range2 in I1.
        apply mod_divide in I2; [|lia]. apply (IH (Z.to_nat i)) with (d := i); auto; lia.
      - exists e. split; [|split]; auto. intros i Hi Hd. destruct (Z_lt_le_dec i e); [|lia].
        exfalso. assert (existsb (fun i => k mod i =? 0) (py_range2 2 e) = true); [|congruence].
        apply existsb_exists. exists i. split; [apply in_py_range2; lia|apply mod_divide; auto]. }
    apply (X (Z.to_nat d) d); [lia|lia|apply mod_divide; auto; lia].
  - exfalso. pose proof (find_none _ _ E k ltac:(apply in_py_range2; lia)) as F. cbn in F.
    rewrite Z.mod_same in F by lia. discriminate.
Qed.

Lemma C52_recover_proof : forall s, wf s -> one_digit s ->
  ((exists str t, encode s [] [] false = Ok str /\
      decode str (lit "0") [] (lit "|") (lit ",") None = Ok t /\ box_size t = box_size s) <->
   (box_width s = box_height s \/
    (~ square (NN s) /\ 2 <= box_height s /\ least_divisor (box_width s) (NN s)))).
Proof.
  intros s Hw Hd. pose proof (wf_w _ Hw) as Pw. pose proof (wf_h _ Hw) as Ph.
  assert (En : encode s [] [] false = Ok (digit_str s)).
  { rewrite encode_same_sep by auto. fold (texts s). rewrite join_digits; auto. }
  assert (De := decode_infer (digit_str s) (digit_str_in s Hd)).
  assert (Ln : py_len (digit_str s) = NN s * NN s).
  { unfold digit_str, py_len. rewrite map_length. apply (py_len_coords s Hw). }
  rewrite Ln in De.
  assert (Sz : forall w h, 1 <= w -> 1 <= h -> w * h = NN s ->
     exists t, read_fields (lit "0") (map (fun c => [c]) (digit_str s)) (new_sudoku (w, h)) 0 0 = Ok t /\ box_size t = (w, h)).
  { intros w h H1 H2 H3. destruct (decode_sized (digit_str s) w h (digit_str_in s Hd) H1 H2) as [t [T1 [_ [T2 _]]]].
    - rewrite Ln, H3. auto.
    - eauto. }
  assert (Np : 1 <= NN s) by (apply NN_pos; auto).
  split.
  - intros [str [t [E1 [E2 E3]]]]. rewrite En in E1. injection E1 as <-. rewrite E2 in De. clear E2 En.
    destruct (square_dec (NN s)) as [[m [M1 M2]]|Q].
    + left. rewrite <- M2 in De at 1. rewrite <- M2 in De at 1. rewrite infer_fourth in De by auto. cbn [rbind] in De.
      assert (1 <= m) by nia. destruct (Sz m m) as [u [U1 U2]]; auto. rewrite U1 in De. injection De as <-.
      rewrite U2 in E3. unfold box_size in E3. congruence.
    + right. split; auto. destruct (least_divisor_exists (NN s)) as [d D].
      { destruct (Z.eq_dec (NN s) 1) as [E|E]; [|lia]. exfalso; apply Q. exists 1. lia. }
      destruct (Z.eq_dec d (NN s)) as [Ed|Ed].
      * rewrite Ed in D. rewrite infer_prime in De; auto; [discriminate|lia].
      * rewrite (infer_rect (NN s) d) in De; auto; [|lia]. cbn [rbind] in De.
        destruct D as [D1 [D2 D3]]. pose proof D2 as [q Q1].
        assert (Eq : NN s / d = q) by (rewrite Q1; apply Z.div_mul; lia).
        assert (1 <= q) by nia.
        destruct (Sz d q) as [u [U1 U2]]; auto; [lia|nia|]. rewrite Eq, U1 in De. injection De as <-.
        rewrite U2 in E3. unfold box_size in E3. injection E3 as <- <-.
        replace (d * q) with (NN s) by lia. split; [|split; auto]. destruct (Z.eq_dec q 1) as [ -> |]; lia.
  - intros H. exists (digit_str s). rewrite De, En.
    assert (Inf : infer_box_size (NN s * NN s) = Ok (box_size s)).
    { destruct H as [E|[Q [Q1 Q2]]].
      - rewrite E. rewrite infer_fourth by lia. unfold box_size. rewrite E. auto.
      - rewrite (infer_rect (NN s) (box_width s)); auto; [|lia|].
        + unfold box_size. do 2 f_equal. rewrite Z.mul_comm. apply Z.div_mul. lia.
        + intros E. assert (box_height s = 1) by nia. lia. }
    rewrite Inf. cbn [rbind]. destruct (Sz (box_width s) (box_height s)) as [t [T1 T2]]; auto.
    exists t. splits; auto.
Qed.

(** * C53 *)
Definition no_blank (c : Z) : bool := negb (char_in c WHITESPACE).

Lemma blank_ws : forall c, blank c <-> In c WHITESPACE.
Proof. intros c. unfold blank, WHITESPACE. cbn [In]. lia. Qed.

Lemma no_blank_false : forall c, no_blank c = false <-> blank c.
Proof. intros c. unfold no_blank. rewrite negb_false_iff, char_in_iff, blank_ws. reflexivity. Qed.

Lemma sbb_filter : forall a b, same_but_blanks a b -> filter no_blank a = filter no_blank b.
Proof.
  induction 1; cbn [filter]; auto.
  - rewrite IHsame_but_blanks; auto.
  - apply no_blank_false in H. rewrite H; auto.
  - apply no_blank_false in H. rewrite H; auto.
Qed.

Lemma replace_char_filter : forall c s, replace_char c [] s = filter (fun x => negb (x =? c)) s.
Proof.
  intros c s; unfold replace_char; induction s as [|x s IH]; auto. cbn [flat_map filter]. rewrite IH.
  destruct (x =? c); reflexivity.
Qed.

Lemma drop_filter : forall s, drop_while is_space (filter no_blank s) = filter no_blank (drop_while is_space s).
Proof.
  induction s as [|c s IH]; auto. cbn [filter drop_while].
  destruct (is_space c) eqn:E.
  - destruct (no_blank c); cbn [drop_while]; rewrite ?E; auto.
  - assert (no_blank c = true).
    { destruct (no_blank c) eqn:E2; auto. apply no_blank_false, blank_ws in E2.
      destruct E2 as [<-|[<-|[<-|[<-|[<-|[<-|[]]]]]]]; discriminate. }
    rewrite H. cbn [filter drop_while]. rewrite E, H. auto.
Qed.

Lemma filter_rev' : forall (f : Z -> bool) l, filter f (rev l) = rev (filter f l).
Proof.
  intros f l; induction l as [|x l IH]; auto. cbn [rev filter]. rewrite filter_app, IH. cbn [filter].
  destruct (f x); cbn [rev]; auto. apply app_nil_r.
Qed.

Lemma strip_filter : forall s, strip (filter no_blank s) = filter no_blank (strip s).
Proof.
  intros s. unfold strip, strip_by. rewrite drop_filter, <- !filter_rev', drop_filter, filter_rev'. auto.
Qed.

Lemma filter_fold : forall ws s, fold_left (fun s c => filter (fun x => negb (x =? c)) s) ws s =
  filter (fun x => negb (char_in x ws)) s.
Proof.
  induction ws as [|c ws IH]; intros s.
  - cbn. induction s; cbn; f_equal; auto.
  - cbn [fold_left]. rewrite IH. induction s as [|x s IHs]; auto. cbn [filter char_in existsb].
    destruct (x =? c); cbn [negb orb]; auto. cbn [filter]. unfold char_in in *.
    destruct (existsb (Z.eqb x) ws); cbn [negb]; auto. f_equal; auto.
Qed.

Lemma fold_left_ext_in : forall {A B} (f g : A -> B -> A) l a, (forall a b, In b l -> f a b = g a b) ->
  fold_left f l a = fold_left g l a.
Proof.
  intros A B f g l; induction l as [|x l IH]; intros a H; auto. cbn [fold_left].
  rewrite H by (left; auto). apply IH. intros; apply H; right; auto.
Qed.

Lemma clean_filter : forall s e a b, (forall c, blank c -> ~ In c e /\ ~ In c a /\ ~ In c b) ->
  clean s e [] a b = strip (filter no_blank s).
Proof.
  intros s e a b H. unfold clean. rewrite strip_filter.
  rewrite (fold_left_ext_in _ (fun s c => filter (fun x => negb (x =? c)) s)).
  - apply filter_fold.
  - intros t c Hc. apply blank_ws in Hc. destruct (H c Hc) as [H1 [H2 H3]].
    replace (char_in c (e ++ a ++ b ++ [])) with false.
    + apply replace_char_filter.
    + symmetry. apply char_in_false. rewrite !in_app_iff. cbn [In]. tauto.
Qed.

Lemma C53_proof : forall x y e a b size, same_but_blanks x y ->
  (forall c, blank c -> ~ In c e /\ ~ In c a /\ ~ In c b) ->
  decode x e [] a b size = decode y e [] a b size.
Proof.
  intros x y e a b size H1 H2. unfold decode. rewrite !clean_filter by auto. rewrite (sbb_filter _ _ H1). auto.
Qed.

Lemma prime_not_square : forall k, least_divisor k k -> ~ square k.
Proof.
  intros k [D1 [D2 D3]] [m [M1 M2]]. assert (2 <= m) by nia.
  assert (k <= m) by (apply D3; auto; exists m; auto). nia.
Qed.

Lemma C52_proof : forall str, (forall c, In c str -> is_digit c = true) ->
  let r := decode str (lit "0") [] (lit "|") (lit ",") None in
  let result w h := exists t, r = Ok t /\ box_size t = (w, h) /\
    (forall i j, field t (i, j) ->
       num t (i, j) = nth (Z.to_nat (i * (w * h) + j)) str 0 - 48 /\ cand t (i, j) = []) in
  (~ square (py_len str) -> r = Err ValueError) /\
  (forall n, 0 <= n -> py_len str = n * n ->
     (forall m, 0 <= m -> n = m * m -> result m m) /\
     (forall d, ~ square n -> least_divisor d n -> d <> n -> result d (n / d)) /\
     (least_divisor n n -> r = Err ValueError)).
Proof.
  intros str H r result. unfold result, r in *. rewrite decode_infer by auto. split.
  - intros Q. rewrite infer_not_square by auto. reflexivity.
  - intros n Hn L. rewrite L. splits.
    + intros m Hm ->. rewrite infer_fourth by auto. cbn [rbind].
      destruct (Z.eq_dec m 0) as [ -> |Nz].
      * assert (str = []) as -> by (destruct str; [auto|unfold py_len in L; cbn in L; lia]).
        exists (new_sudoku (0, 0)). splits; auto. intros i j F. apply fieldD in F. cbn in F. lia.
      * destruct (decode_sized str m m H) as [t [T1 [T2 [T3 T4]]]]; try lia. eauto.
    + intros d Q D Ne. rewrite (infer_rect n d) by auto. cbn [rbind]. destruct D as [D1 [[q Q1] D3]].
      assert (Nz : n <> 0) by (intros ->; apply Q; exists 0; lia).
      assert (E : n / d = q) by (rewrite Q1; apply Z.div_mul; lia). rewrite E.
      assert (Ed : d * q = n) by lia.
      assert (Hq : 1 <= q) by nia. assert (Hd : 1 <= d) by lia.
      destruct (decode_sized str d q H Hd Hq ltac:(rewrite Ed; auto)) as [t [T1 [T2 [T3 T4]]]]. eauto.
    + intros D. rewrite infer_prime; auto. apply prime_not_square; auto.
Qed.
