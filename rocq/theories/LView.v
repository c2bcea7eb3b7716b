(** Lemmas about view of MCodec. *)
From Verif Require Export LCodec2.
Import PyStr MCodec.

(** * Lines *)
Definition NL : Z := 10.

Lemma length_str_mul : forall c n, 0 <= n -> py_len (str_mul c n) = n.
Proof. intros c n H. unfold py_len, str_mul. rewrite repeat_length. lia. Qed.

Lemma length_rjust : forall n s, py_len s <= n -> py_len (rjust n s) = n.
Proof. intros n s H. unfold rjust, py_len in *. rewrite app_length, repeat_length. lia. Qed.

Lemma length_ljust : forall n s, py_len s <= n -> py_len (ljust n s) = n.
Proof. intros n s H. unfold ljust, py_len in *. rewrite app_length, repeat_length. lia. Qed.

Lemma py_len_app : forall {A} (a b : list A), py_len (a ++ b) = py_len a + py_len b.
Proof. intros. unfold py_len. rewrite app_length. lia. Qed.

Lemma py_len_nonneg : forall {A} (a : list A), 0 <= py_len a.
Proof. intros; unfold py_len; lia. Qed.

Definition just (right : bool) (n : Z) (s : pystr) : pystr := if right then rjust n s else ljust n s.

Lemma length_just : forall b n s, py_len s <= n -> py_len (just b n s) = n.
Proof. intros [] n s H; [apply length_rjust|apply length_ljust]; auto. Qed.

Lemma just_padded : forall b n s, just b n s = padded b n s.
Proof.
  intros b n s. unfold just, padded, rjust, ljust, py_len.
  replace (Z.to_nat (n - Z.of_nat (length s))) with (Z.to_nat n - length s)%nat by lia. reflexivity.
Qed.

(** Every piece followed by a blank. *)
Definition spaced (l : list pystr) : pystr := flat_map (fun x => x ++ [32]) l.

Lemma join_spaced : forall l, l <> [] -> join [32] l ++ [32] = spaced l.
Proof.
  induction l as [|x [|y l] IH]; intros H; [congruence| |].
  - cbn. rewrite app_nil_r. auto.
  - rewrite join_cons. cbn [spaced flat_map]. rewrite <- app_assoc. rewrite <- app_assoc.
    rewrite IH by discriminate. cbn [spaced flat_map]. rewrite <- !app_assoc. reflexivity.
Qed.

Lemma div_succ : forall w c, 1 <= w -> 0 <= c -> (c + 1) / w = c / w + (if (c + 1) mod w =? 0 then 1 else 0).
Proof.
  intros w c Hw H. pose proof (step_div w c ltac:(lia) H) as E.
  pose proof (Z.mod_pos_bound c w ltac:(lia)). pose proof (Z.mod_pos_bound (c + 1) w ltac:(lia)).
  destruct (w <=? c mod w + 1) eqn:L; b2p; injection E as E1 E2; rewrite <- E1, <- E2.
  - rewrite Z.eqb_refl. lia.
  - replace (c mod w + 1 =? 0) with false by (symmetry; apply Z.eqb_neq; lia). lia.
Qed.

Section row.
Variables (w h m : Z) (v : Z -> pystr).
Hypothesis (Hw : 1 <= w) (Hh : 1 <= h) (Hm : 0 <= m).
Let N := w * h.
Hypothesis Hv : forall c, 0 <= c < N -> py_len (v c) = m.

Definition pieces (c : Z) : list pystr :=
  if ((c + 1) mod w =? 0) && (c <? N - 1) then [v c; [124]] else [v c].
Definition upto (c : Z) : pystr := spaced (concat (map pieces (py_range c))).

Lemma spaced_app : forall a b, spaced (a ++ b) = spaced a ++ spaced b.
Proof. intros; unfold spaced. apply flat_map_app. Qed.

Lemma upto_succ : forall c, 0 <= c -> upto (c + 1) = upto c ++ spaced (pieces c).
Proof.
  intros c H. unfold upto. rewrite py_range_app by auto. rewrite map_app, concat_app, spaced_app.
  cbn [map concat]. rewrite app_nil_r. auto.
Qed.

Lemma div_bound : forall c, 0 <= c < N -> 0 <= c / w < h.
Proof. intros c H. split; [apply Z.div_pos; lia|apply Z.div_lt_upper_bound; unfold N in H; lia]. Qed.

Lemma upto_length : forall n c, c = Z.of_nat n -> c < N -> py_len (upto c) = c * (m + 1) + 2 * (c / w).
Proof.
  induction n as [|n IH]; intros c E L.
  - subst c. change (Z.of_nat 0) with 0. rewrite Z.div_0_l by lia. reflexivity.
  - assert (E' : c = Z.of_nat n + 1) by lia. clear E. subst c. set (c := Z.of_nat n) in *.
    assert (0 <= c) by lia.
    rewrite upto_succ by lia. rewrite py_len_app, (IH c) by (auto; lia). rewrite div_succ by lia.
    unfold pieces. replace (c <? N - 1) with true by (symmetry; apply Z.ltb_lt; lia).
    rewrite andb_true_r. destruct ((c + 1) mod w =? 0); cbn [spaced flat_map]; rewrite ?py_len_app, Hv by lia;
      unfold py_len; cbn [length]; lia.
Qed.

(** The line of a row and its length *)
Definition line : pystr := join [32] (concat (map pieces (py_range N))).

Lemma N_pos : 1 <= N. Proof. unfold N; nia. Qed.

Lemma pieces_nonempty : concat (map pieces (py_range N)) <> [].
Proof.
  pose proof N_pos. replace N with (N - 1 + 1) by lia. rewrite py_range_app by lia. rewrite map_app, concat_app.
  intros E. apply app_eq_nil in E. destruct E as [_ E]. cbn [map concat] in E. unfold pieces in E.
  destruct (_ && _); discriminate.
Qed.

Lemma line_blank : line ++ [32] = upto N.
Proof. apply join_spaced, pieces_nonempty. Qed.

Lemma upto_N : upto N = upto (N - 1) ++ v (N - 1) ++ [32].
Proof.
  pose proof N_pos. replace N with (N - 1 + 1) at 1 by lia. rewrite upto_succ by lia. f_equal. unfold pieces.
  replace (N - 1 <? N - 1) with false by (symmetry; apply Z.ltb_ge; lia). rewrite andb_false_r.
  cbn. rewrite app_nil_r. auto.
Qed.

Lemma div_last : (N - 1) / w = h - 1.
Proof.
  unfold N. replace (w * h - 1) with ((h - 1) * w + (w - 1)) by ring. rewrite Z.div_add_l by lia.
  rewrite (Z.div_small (w - 1)) by lia. lia.
Qed.

Lemma length_line : py_len line = N * m + N + 2 * h - 3.
Proof.
  pose proof N_pos. assert (E : py_len (line ++ [32]) = py_len (upto N)) by (rewrite line_blank; auto).
  rewrite upto_N, !py_len_app in E. rewrite (upto_length (Z.to_nat (N - 1))) in E by lia.
  rewrite Hv in E by lia. rewrite div_last in E. unfold py_len in *. cbn [length] in E. lia.
Qed.

Lemma substr_app : forall a b c, substr (py_len a) (py_len b) (a ++ b ++ c) = b.
Proof.
  intros a b c. unfold substr, py_len. rewrite !Nat2Z.id. rewrite skipn_app, skipn_all, Nat.sub_diag.
  cbn [app skipn]. rewrite firstn_app, firstn_all, Nat.sub_diag. cbn. apply app_nil_r.
Qed.

Lemma substr_snoc : forall i n l x, 0 <= i -> 0 <= n -> i + n <= py_len l -> substr i n (l ++ [x]) = substr i n l.
Proof.
  intros i n l x Hi Hn H. unfold substr, py_len in *. rewrite skipn_app, firstn_app, skipn_length.
  replace (Z.to_nat n - (length l - Z.to_nat i))%nat with 0%nat by lia. cbn. apply app_nil_r.
Qed.

Lemma upto_split : forall c n, 0 <= c -> c + Z.of_nat n = N -> exists rest, upto N = upto c ++ rest.
Proof.
  intros c n; revert c; induction n as [|n IH]; intros c Hc E.
  - exists []. rewrite app_nil_r. f_equal; lia.
  - destruct (IH (c + 1)) as [r R]; [lia|lia|]. rewrite R, upto_succ, <- app_assoc by lia. eauto.
Qed.

Lemma upto_cell : forall c, 0 <= c < N -> exists rest, upto N = upto c ++ v c ++ [32] ++ rest.
Proof.
  intros c Hc. destruct (upto_split (c + 1) (Z.to_nat (N - (c + 1)))) as [r R]; [lia|lia|].
  rewrite R, upto_succ by lia. unfold pieces.
  destruct (_ && _); cbn [spaced flat_map]; rewrite <- !app_assoc; cbn [app]; eauto.
Qed.

(** Where the field of column [c] is. *)
Lemma line_field : forall c, 0 <= c < N -> substr (c * (m + 1) + 2 * (c / w)) m line = v c.
Proof.
  intros c Hc. destruct (upto_cell c Hc) as [r R]. pose proof N_pos.
  assert (L : py_len (upto c) = c * (m + 1) + 2 * (c / w)) by (apply (upto_length (Z.to_nat c)); lia).
  pose proof (div_bound c Hc) as B.
  rewrite <- (substr_snoc _ _ line 32); try lia.
  - rewrite line_blank, R, <- L. rewrite <- (Hv c Hc) at 1. apply substr_app.
  - rewrite length_line. assert (c * (m + 1) <= (N - 1) * (m + 1)) by (apply Z.mul_le_mono_nonneg_r; lia). lia.
Qed.

(** Where the vertical bars are: before the box columns 1 .. h-1. *)
Lemma line_bar : forall k, 1 <= k < h -> substr (k * w * (m + 1) + 2 * (k - 1)) 1 line = [124].
Proof.
  intros k Hk. pose proof N_pos. set (c := k * w - 1).
  assert (Bc : 0 <= c < N - 1) by (unfold c, N; nia).
  assert (Dc : c / w = k - 1).
  { unfold c. replace (k * w - 1) with ((k - 1) * w + (w - 1)) by ring. rewrite Z.div_add_l by lia.
    rewrite (Z.div_small (w - 1)) by lia. lia. }
  assert (Mc : (c + 1) mod w = 0) by (unfold c; replace (k * w - 1 + 1) with (k * w) by ring; apply Z.mod_mul; lia).
  destruct (upto_split (c + 1) (Z.to_nat (N - (c + 1)))) as [r R]; [lia|lia|].
  rewrite upto_succ in R by lia. unfold pieces in R. rewrite Mc in R.
  replace (c <? N - 1) with true in R by (symmetry; apply Z.ltb_lt; lia). cbn [Z.eqb andb spaced flat_map] in R.
  assert (L : py_len (upto c ++ v c ++ [32]) = k * w * (m + 1) + 2 * (k - 1)).
  { rewrite !py_len_app, (upto_length (Z.to_nat c)), Hv, Dc by lia. unfold py_len, c. cbn [length]. lia. }
  rewrite <- (substr_snoc _ _ line 32); try lia.
  - rewrite line_blank, R, <- L. change 1 with (py_len [124]) at 1.
    replace ((upto c ++ (v c ++ [32]) ++ ([124] ++ [32]) ++ []) ++ r)
      with ((upto c ++ v c ++ [32]) ++ [124] ++ [32] ++ r) by (rewrite <- !app_assoc; reflexivity).
    apply substr_app.
  - rewrite length_line. assert (k * w * (m + 1) <= (h - 1) * w * (m + 1)).
    { apply Z.mul_le_mono_nonneg_r; [lia|]. apply Z.mul_le_mono_nonneg_r; lia. }
    assert (w * (m + 1) >= 1) by nia. unfold N. lia.
Qed.

(** The rule *)
Definition dashes : Z := w + w * m.
Definition rule_body : pystr :=
  str_mul 45 dashes ++ [43] ++
  concat (map (fun _ => str_mul 45 (dashes + 1) ++ [43]) (py_range (h - 2))) ++ str_mul 45 dashes.

Lemma length_blocks : forall n, py_len (concat (map (fun _ : Z => str_mul 45 (dashes + 1) ++ [43]) (py_range (Z.of_nat n))))
  = Z.of_nat n * (dashes + 2).
Proof.
  assert (0 <= dashes) by (unfold dashes; nia).
  induction n as [|n IH]; auto. replace (Z.of_nat (S n)) with (Z.of_nat n + 1) by lia.
  rewrite py_range_app by lia. rewrite map_app, concat_app, py_len_app, IH. cbn [map concat].
  rewrite app_nil_r, py_len_app, length_str_mul by lia. unfold py_len. cbn [length]. lia.
Qed.

Lemma length_rule : 2 <= h -> py_len rule_body = N * m + N + 2 * h - 3.
Proof.
  intros H2. assert (0 <= dashes) by (unfold dashes; nia). unfold rule_body.
  pose proof (length_blocks (Z.to_nat (h - 2))) as L. rewrite Z2Nat.id in L by lia.
  rewrite !py_len_app, L, !length_str_mul by lia. unfold py_len, dashes, N; cbn [length]. nia.
Qed.

(** A plus sign in the rule is exactly where a bar is in the lines. *)
Lemma rule_plus_first : substr dashes 1 rule_body = [43].
Proof.
  assert (0 <= dashes) by (unfold dashes; nia). unfold rule_body.
  rewrite <- (length_str_mul 45 dashes) at 1 by lia. change 1 with (py_len [43]). apply substr_app.
Qed.

Lemma rule_plus : forall k, 1 <= k < h -> substr (k * w * (m + 1) + 2 * (k - 1)) 1 rule_body = [43].
Proof.
  intros k Hk. assert (0 <= dashes) by (unfold dashes; nia).
  destruct (Z.eq_dec k 1) as [->|N1].
  { replace (1 * w * (m + 1) + 2 * (1 - 1)) with dashes by (unfold dashes; ring). apply rule_plus_first. }
  unfold rule_body.
  replace (py_range (h - 2)) with (py_range (k - 2) ++ [k - 2] ++ py_range2 (k - 1) (h - 2)).
  - set (blk := fun _ : Z => str_mul 45 (dashes + 1) ++ [43]).
    rewrite !map_app, !concat_app. cbn [map concat]. rewrite app_nil_r. unfold blk at 2.
    set (A := concat (map blk (py_range (k - 2)))). set (B := concat (map blk (py_range2 (k - 1) (h - 2)))).
    assert (LA : py_len A = (k - 2) * (dashes + 2)).
    { pose proof (length_blocks (Z.to_nat (k - 2))) as L. rewrite Z2Nat.id in L by lia. exact L. }
    set (P := str_mul 45 dashes ++ [43] ++ A ++ str_mul 45 (dashes + 1)).
    assert (LP : py_len P = k * w * (m + 1) + 2 * (k - 1)).
    { unfold P. rewrite !py_len_app, LA, !length_str_mul by lia. unfold py_len, dashes; cbn [length]. ring. }
    rewrite <- LP. change 1 with (py_len [43]) at 1.
    replace (str_mul 45 dashes ++ [43] ++ (A ++ (str_mul 45 (dashes + 1) ++ [43]) ++ B) ++ str_mul 45 dashes)
      with (P ++ [43] ++ B ++ str_mul 45 dashes) by (unfold P; rewrite <- !app_assoc; reflexivity).
    apply substr_app.
  - unfold py_range2. replace (h - 2) with (k - 2 + 1 + (h - 2 - (k - 1))) at 2 by lia.
    assert (X : forall a b, 0 <= a -> 0 <= b -> py_range (a + b) = py_range a ++ map (fun i => a + i) (py_range b)).
    { intros a b Ha Hb. rewrite <- (Z2Nat.id b) by lia. induction (Z.to_nat b) as [|y IHy].
      - rewrite Z.add_0_r, app_nil_r. auto.
      - replace (Z.of_nat (S y)) with (Z.of_nat y + 1) by lia. rewrite Z.add_assoc, !py_range_app by lia.
        rewrite IHy, map_app, app_assoc. reflexivity. }
    rewrite (X (k - 2 + 1) (h - 2 - (k - 1))) by lia. rewrite py_range_app by lia.
    rewrite <- app_assoc. cbn [app]. do 2 f_equal. apply map_ext. intros; lia.
Qed.

Lemma rule_chars : forall c, In c rule_body -> c = 45 \/ c = 43.
Proof.
  intros c H. unfold rule_body in H. rewrite !in_app_iff in H.
  assert (R : forall n, In c (str_mul 45 n) -> c = 45) by (intros n Hn; apply repeat_spec in Hn; auto).
  destruct H as [H|[[<-|[]]|[H|H]]]; eauto.
  apply in_concat in H. destruct H as [l [Hl Hc]]. apply in_map_iff in Hl. destruct Hl as [i [<- _]].
  apply in_app_iff in Hc. destruct Hc as [Hc|[<-|[]]]; eauto.
Qed.

Lemma line_chars : forall c, In c line -> c = 32 \/ c = 124 \/ exists j, 0 <= j < N /\ In c (v j).
Proof.
  intros c H. apply in_join in H. destruct H as [[<-|[]]|[a [Ha Hc]]]; auto.
  apply in_concat in Ha. destruct Ha as [l [Hl Ha]]. apply in_map_iff in Hl. destruct Hl as [j [<- Hj]].
  apply in_py_range in Hj. unfold pieces in Ha.
  destruct (_ && _); cbn [In] in Ha.
  - destruct Ha as [<-|[<-|[]]]; [eauto|]. destruct Hc as [<-|[]]; auto.
  - destruct Ha as [<-|[]]; eauto.
Qed.
End row.

(** * The whole text *)
Lemma digits_of_len : forall f n, 0 <= n -> (Z.to_nat (Z.log2 n) < f)%nat -> 10 <= n ->
  (2 <= length (digits_of f n))%nat.
Proof.
  intros f n Hn Hf H10. destruct f as [|f]; [lia|]. cbn [digits_of].
  replace (n <? 10) with false by (symmetry; apply Z.ltb_ge; lia). rewrite app_length. cbn [length].
  destruct f as [|f].
  - exfalso. assert (Z.log2 8 <= Z.log2 n) by (apply Z.log2_le_mono; lia). change (Z.log2 8) with 3 in *. lia.
  - cbn [digits_of]. destruct (n / 10 <? 10); rewrite ?app_length; cbn [length]; lia.
Qed.

Lemma len_str_one : forall n, 0 <= n -> (1 < py_len (str_of_int n) <-> 10 <= n).
Proof.
  intros n Hn. unfold py_len. split; intros H.
  - destruct (Z_lt_le_dec n 10); auto. rewrite str_of_digit in H by lia. cbn in H. lia.
  - unfold str_of_int. destruct (n <? 0) eqn:E; b2p; [lia|].
    assert (2 <= length (str_of_nat n))%nat; [|lia]. apply digits_of_len; lia.
Qed.

Lemma fold_max : forall l x, x <= fold_left Z.max l x /\ (forall y, In y l -> y <= fold_left Z.max l x) /\
  (fold_left Z.max l x = x \/ In (fold_left Z.max l x) l).
Proof.
  induction l as [|y l IH]; intros x; cbn [fold_left].
  - splits; auto; try lia. intros y [].
  - destruct (IH (Z.max x y)) as [H1 [H2 H3]]. splits.
    + lia.
    + intros z [<-|Hz]; [lia|auto].
    + destruct H3 as [H3|H3]; [|right; right; auto]. rewrite H3.
      destruct (Z.max_spec x y) as [[_ ->]|[_ ->]]; [right; left; auto|left; auto].
Qed.

Lemma list_max_ok : forall l, l <> [] -> exists M, list_max l = Ok M /\ In M l /\ forall y, In y l -> y <= M.
Proof.
  intros [|x l] H; [congruence|]. exists (fold_left Z.max l x). destruct (fold_max l x) as [H1 [H2 H3]].
  splits; auto.
  - destruct H3 as [->|H3]; [left|right]; auto.
  - intros y [<-|Hy]; auto.
Qed.

Section view.
Variables (s : sudoku) (inc : bool) (prefix : pystr) (right : bool).
Hypothesis Hwf : wf s.
Hypothesis Hr : forall p, field s p -> 0 <= num s p <= NN s.
Hypothesis Hp : ~ In 10 prefix.
Let w := box_width s.
Let h := box_height s.

Lemma Hw1 : 1 <= w. Proof. apply (wf_w _ Hwf). Qed.
Lemma Hh1 : 1 <= h. Proof. apply (wf_h _ Hwf). Qed.

Lemma max_length_ok : exists M, list_max (map (fun n => py_len (str_of_int n)) (numbers s)) = Ok M /\
  1 <= M /\ (forall n, 0 <= n <= NN s -> py_len (str_of_int n) <= M) /\ (1 <? M) = (10 <=? NN s).
Proof.
  pose proof (NN_pos s Hwf) as Np.
  destruct (list_max_ok (map (fun n => py_len (str_of_int n)) (numbers s))) as [M [M1 [M2 M3]]].
  { intros E. apply map_eq_nil in E. assert (I : In 1 (numbers s)) by (apply in_py_range2; lia). rewrite E in I; auto. }
  assert (B : forall n, 1 <= n <= NN s -> py_len (str_of_int n) <= M).
  { intros n Hn. apply M3. apply in_map_iff. exists n. split; auto. apply in_py_range2. lia. }
  assert (P : 1 <= M) by (specialize (B 1 ltac:(lia)); change (py_len (str_of_int 1)) with 1 in B; lia).
  exists M. splits; auto.
  - intros n Hn. destruct (Z.eq_dec n 0) as [ -> |]; [exact P|apply B; lia].
  - apply in_map_iff in M2. destruct M2 as [n [N1 N2]]. apply in_py_range2 in N2.
    destruct (10 <=? NN s) eqn:E; b2p.
    + apply Z.ltb_lt. specialize (B (NN s) ltac:(lia)). assert (1 < py_len (str_of_int (NN s))) by (apply len_str_one; lia). lia.
    + apply Z.ltb_ge. destruct (Z_lt_le_dec 1 M); auto. rewrite <- N1 in l. apply len_str_one in l; lia.
Qed.

Lemma max_field_ok : forall sep M, 1 <= M -> exists m, M <= m /\
  (inc = true -> forall p, field s p -> py_len (join sep (map str_of_int (cand s p))) + py_len prefix <= m) /\
  (if inc then
      foldM (fun m rc =>
               let* c := get_candidates s (fst rc) (snd rc) in
               let length := py_len (join sep (map str_of_int c)) + py_len prefix in
               Ok (if m <? length then length else m))
            (coords s) M
    else Ok M) = Ok m.
Proof.
  intros sep M HM. destruct inc.
  2:{ exists M. splits; auto; try lia; discriminate. }
  assert (G : forall l, (forall p, In p l -> field s p) -> forall M0, exists m, M0 <= m /\
     (forall p, In p l -> py_len (join sep (map str_of_int (cand s p))) + py_len prefix <= m) /\
     foldM (fun m rc =>
               let* c := get_candidates s (fst rc) (snd rc) in
               let length := py_len (join sep (map str_of_int c)) + py_len prefix in
               Ok (if m <? length then length else m)) l M0 = Ok m).
  { induction l as [|[r c] l IH]; intros F M0.
    - exists M0. splits; auto; try lia. intros p [].
    - cbn [foldM]. cbn [fst snd]. rewrite get_candidates_ok by (auto; apply F; left; auto). cbn [rbind].
      set (n := py_len (join sep (map str_of_int (cand s (r, c)))) + py_len prefix).
      destruct (IH ltac:(intros; apply F; right; auto) (if M0 <? n then n else M0)) as [m [I1 [I2 I3]]].
      exists m. splits; [| |exact I3].
      + destruct (M0 <? n) eqn:E; b2p; lia.
      + intros p [<-|Hi]; auto. fold n. destruct (M0 <? n) eqn:E; b2p; lia. }
  destruct (G (coords s) (fun p => proj1 (in_coords s p)) M) as [m [I1 [I2 I3]]].
  exists m. splits; auto. intros _ p Hf. apply I2, in_coords; auto.
Qed.

Lemma shown_len : forall m p, field s p ->
  (forall n, 0 <= n <= NN s -> py_len (str_of_int n) <= m) ->
  (inc = true -> forall p, field s p ->
     py_len (join (if 10 <=? NN s then lit "," else []) (map str_of_int (cand s p))) + py_len prefix <= m) ->
  py_len (shown s inc prefix p) <= m.
Proof.
  intros m p Hf H1 H2. unfold shown. destruct (num s p =? 0).
  - destruct inc.
    + rewrite py_len_app. specialize (H2 eq_refl p Hf). lia.
    + specialize (H1 0 ltac:(pose proof (NN_pos s Hwf); lia)). pose proof (py_len_nonneg (str_of_int 0)). cbn. lia.
  - apply H1, Hr; auto.
Qed.

Lemma view_row_ok : forall m r, 0 <= r < NN s ->
  view_row s inc (if 10 <=? NN s then lit "," else []) prefix right m r =
  Ok (line w h (fun c => just right m (shown s inc prefix (r, c)))).
Proof.
  intros m r Hr'. unfold view_row, line.
  rewrite (mapM_ok _ (pieces w h (fun c => just right m (shown s inc prefix (r, c))))); [reflexivity|].
  intros c Hc. apply in_indices in Hc. assert (Hf : field s (r, c)) by (apply field_cell; cbn; auto).
  rewrite getitem_ok by auto. cbn [rbind]. unfold pieces. fold w h.
  assert (E : (if negb (num s (r, c) =? 0) then Ok (str_of_int (num s (r, c)))
               else if negb inc then Ok []
               else let* c0 := get_candidates s r c in
                    Ok (prefix ++ join (if 10 <=? w * h then lit "," else []) (map str_of_int c0)))
              = Ok (shown s inc prefix (r, c))).
  { unfold shown. destruct (num s (r, c) =? 0); cbn [negb]; auto.
    destruct inc; cbn [negb]; auto. rewrite get_candidates_ok by auto. reflexivity. }
  unfold w, h in *. rewrite E. reflexivity.
Qed.

(** The lines of the text, grouped by rows *)
Definition block (ln : Z -> pystr) (rule : pystr) (r : Z) : list pystr :=
  if ((r + 1) mod h =? 0) && (r <? NN s - 1) then [ln r; rule] else [ln r].

Lemma view_text : forall m ln rule, (forall r, 0 <= r < NN s ->
    view_row s inc (if 10 <=? NN s then lit "," else []) prefix right m r = Ok (ln r)) ->
  view_rule s m = rule ++ [10] ->
  foldM (fun acc rc =>
           let* line := view_row s inc (if 10 <=? NN s then lit "," else []) prefix right m rc in
           let acc := acc ++ line in
           let acc := if rc <? NN s - 1 then acc ++ [10] else acc in
           Ok (if ((rc + 1) mod box_height s =? 0) && (rc <? NN s - 1)
               then acc ++ view_rule s m else acc))
        (indices s) []
  = Ok (join [10] (concat (map (block ln rule) (indices s)))).
Proof.
  intros m ln rule H1 H2. pose proof (NN_pos s Hwf) as Np.
  assert (G : forall n, Z.of_nat n < NN s -> foldM (fun acc rc =>
           let* line := view_row s inc (if 10 <=? NN s then lit "," else []) prefix right m rc in
           let acc := acc ++ line in
           let acc := if rc <? NN s - 1 then acc ++ [10] else acc in
           Ok (if ((rc + 1) mod box_height s =? 0) && (rc <? NN s - 1)
               then acc ++ view_rule s m else acc))
        (py_range (Z.of_nat n)) []
    = Ok (flat_map (fun x => x ++ [10]) (concat (map (block ln rule) (py_range (Z.of_nat n)))))).
  { induction n as [|n IH]; intros Hn; auto.
    replace (Z.of_nat (S n)) with (Z.of_nat n + 1) by lia. rewrite py_range_app by lia.
    rewrite foldM_app, IH by lia. cbn [rbind foldM]. rewrite H1 by lia. cbn [rbind].
    rewrite map_app, concat_app, flat_map_app. cbn [map concat]. rewrite app_nil_r. unfold block.
    replace (Z.of_nat n <? NN s - 1) with true by (symmetry; apply Z.ltb_lt; lia). rewrite andb_true_r.
    fold h. destruct ((Z.of_nat n + 1) mod h =? 0).
    - cbn [andb flat_map]. rewrite H2, ?app_nil_r, <- !app_assoc. reflexivity.
    - cbn [andb flat_map]. rewrite ?app_nil_r, <- !app_assoc. reflexivity. }
  assert (Ei : indices s = py_range (NN s - 1) ++ [NN s - 1]).
  { rewrite <- py_range_app by lia. unfold indices. f_equal. lia. }
  rewrite Ei.
  rewrite foldM_app. specialize (G (Z.to_nat (NN s - 1))). rewrite Z2Nat.id in G by lia. rewrite G by lia.
  cbn [rbind foldM]. rewrite H1 by lia. cbn [rbind].
  rewrite map_app, concat_app. cbn [map concat]. rewrite app_nil_r.
  replace (NN s - 1 <? NN s - 1) with false by (symmetry; apply Z.ltb_ge; lia). rewrite !andb_false_r.
  assert (Eb : block ln rule (NN s - 1) = [ln (NN s - 1)]).
  { unfold block. replace (NN s - 1 <? NN s - 1) with false by (symmetry; apply Z.ltb_ge; lia).
    rewrite andb_false_r. reflexivity. }
  rewrite Eb. apply (f_equal (@Ok pystr)). generalize (concat (map (block ln rule) (py_range (NN s - 1)))) as l. intros l.
  induction l as [|x l IH]; auto. cbn [flat_map]. rewrite <- app_assoc, IH.
  cbn [app]. destruct (l ++ [ln (NN s - 1)]) eqn:E.
  - apply app_eq_nil in E. destruct E; discriminate.
  - rewrite join_cons, <- app_assoc. reflexivity.
Qed.

Section blocks.
Variables (ln : Z -> pystr) (rule : pystr).
Let L := concat (map (block ln rule) (indices s)).

Lemma blocks_length : forall n r, r = Z.of_nat n -> r < NN s ->
  py_len (concat (map (block ln rule) (py_range r))) = r + r / h.
Proof.
  pose proof Hh1 as Hh. induction n as [|n IH]; intros r E Hn.
  - subst r. change (Z.of_nat 0) with 0. rewrite Z.div_0_l by lia. reflexivity.
  - assert (E' : r = Z.of_nat n + 1) by lia. clear E. subst r. set (c := Z.of_nat n) in *.
    assert (0 <= c) by lia.
    rewrite py_range_app by lia. rewrite map_app, concat_app, py_len_app, (IH c) by (auto; lia).
    rewrite (div_succ h c) by lia. cbn [map concat]. rewrite app_nil_r. unfold block.
    replace (c <? NN s - 1) with true by (symmetry; apply Z.ltb_lt; lia). rewrite andb_true_r.
    destruct ((c + 1) mod h =? 0); unfold py_len; cbn [length]; lia.
Qed.

Lemma blocks_split : forall n r, 0 <= r -> r + Z.of_nat n = NN s -> exists rest,
  L = concat (map (block ln rule) (py_range r)) ++ rest.
Proof.
  induction n as [|n IH]; intros r Hc E.
  - exists []. rewrite app_nil_r. unfold L, indices. do 3 f_equal; lia.
  - destruct (IH (r + 1)) as [q R]; [lia|lia|]. rewrite R, py_range_app, map_app, concat_app, <- app_assoc by lia. eauto.
Qed.

Lemma nth_len : forall (a : list pystr) x b i, i = py_len a -> nth (Z.to_nat i) (a ++ x :: b) [] = x.
Proof.
  intros a x b i ->. unfold py_len. rewrite Nat2Z.id, app_nth2, Nat.sub_diag by lia. reflexivity.
Qed.

Lemma blocks_line : forall r, 0 <= r < NN s -> nth (Z.to_nat (r + r / h)) L [] = ln r.
Proof.
  intros r H. destruct (blocks_split (Z.to_nat (NN s - (r + 1))) (r + 1)) as [q R]; [lia|lia|].
  rewrite R, py_range_app, map_app, concat_app by lia. cbn [map concat]. rewrite app_nil_r.
  assert (E : exists b, block ln rule r = ln r :: b) by (unfold block; destruct (_ && _); eauto).
  destruct E as [b E]. rewrite E, <- app_assoc. cbn [app]. apply nth_len.
  symmetry. apply (blocks_length (Z.to_nat r)); lia.
Qed.

Lemma blocks_rule : forall k, 1 <= k < w -> nth (Z.to_nat (k * (h + 1) - 1)) L [] = rule.
Proof.
  pose proof Hh1 as Hh. pose proof Hw1 as Hw.
  intros k Hk. set (r := k * h - 1).
  assert (Br : 0 <= r < NN s - 1) by (unfold r; fold w h; nia).
  assert (Dr : r / h = k - 1).
  { unfold r. replace (k * h - 1) with ((k - 1) * h + (h - 1)) by ring. rewrite Z.div_add_l by lia.
    rewrite (Z.div_small (h - 1)) by lia. lia. }
  assert (Mr : (r + 1) mod h = 0) by (unfold r; replace (k * h - 1 + 1) with (k * h) by ring; apply Z.mod_mul; lia).
  destruct (blocks_split (Z.to_nat (NN s - (r + 1))) (r + 1)) as [q R]; [lia|lia|].
  rewrite R, py_range_app, map_app, concat_app by lia. cbn [map concat]. rewrite app_nil_r.
  unfold block at 2. rewrite Mr. replace (r <? NN s - 1) with true by (symmetry; apply Z.ltb_lt; lia). cbn [Z.eqb andb].
  replace ((concat (map (block ln rule) (py_range r)) ++ [ln r; rule]) ++ q)
    with ((concat (map (block ln rule) (py_range r)) ++ [ln r]) ++ rule :: q) by (rewrite <- !app_assoc; reflexivity).
  apply nth_len. rewrite py_len_app, (blocks_length (Z.to_nat r)), Dr by lia. unfold py_len, r; cbn [length]. lia.
Qed.

Lemma blocks_total : py_len L = NN s + w - 1.
Proof.
  pose proof (NN_pos s Hwf) as Np. pose proof Hh1. pose proof Hw1. unfold L, indices.
  replace (NN s) with (NN s - 1 + 1) at 1 by lia. rewrite py_range_app by lia.
  rewrite map_app, concat_app, py_len_app, (blocks_length (Z.to_nat (NN s - 1))) by lia.
  cbn [map concat]. rewrite app_nil_r. unfold block.
  replace (NN s - 1 <? NN s - 1) with false by (symmetry; apply Z.ltb_ge; lia). rewrite andb_false_r.
  assert (E : (NN s - 1) / h = w - 1).
  { fold w h. replace (w * h - 1) with ((w - 1) * h + (h - 1)) by ring. rewrite Z.div_add_l by lia.
    rewrite (Z.div_small (h - 1)) by lia. lia. }
  rewrite E. unfold py_len; cbn [length]. lia.
Qed.

Lemma blocks_in : forall l, In l L -> l = rule \/ exists r, 0 <= r < NN s /\ l = ln r.
Proof.
  intros l Hl. apply in_concat in Hl. destruct Hl as [b [Hb Hl]]. apply in_map_iff in Hb.
  destruct Hb as [r [<- Hi]]. apply in_indices in Hi. unfold block in Hl.
  destruct (_ && _); cbn [In] in Hl; [destruct Hl as [<-|[<-|[]]]|destruct Hl as [<-|[]]]; eauto.
Qed.
End blocks.

Lemma shown_chars : forall p c, In c (shown s inc prefix p) -> In c prefix \/ is_digit c = true \/ c = 45 \/ c = 44.
Proof.
  intros p c. unfold shown. destruct (num s p =? 0).
  - destruct inc; [|intros []]. rewrite in_app_iff. intros [H|H]; auto. apply in_join in H.
    destruct H as [H|[a [Ha H]]].
    + destruct (10 <=? _); [destruct H as [<-|[]]; auto|destruct H].
    + apply in_map_iff in Ha. destruct Ha as [n [<- _]]. apply str_of_int_chars in H. tauto.
  - intros H. apply str_of_int_chars in H. tauto.
Qed.

Lemma just_chars : forall b n t c, In c (just b n t) -> In c t \/ c = 32.
Proof.
  intros b n t c. unfold just, rjust, ljust. destruct b; rewrite in_app_iff; intros [H|H]; auto;
    apply repeat_spec in H; auto.
Qed.

Lemma count_plus : forall m, 2 <= h -> 0 <= m -> count_occ Z.eq_dec (rule_body w h m) 43 = Z.to_nat (h - 1).
Proof.
  intros m H2 Hm. unfold rule_body.
  assert (Z0 : forall n, count_occ Z.eq_dec (str_mul 45 n) 43 = 0%nat).
  { intros n. unfold str_mul. induction (Z.to_nat n); auto. }
  rewrite !count_occ_app, !Z0. cbn [count_occ].
  destruct (Z.eq_dec 43 43) as [_|X]; [|congruence].
  assert (B : forall l : list Z, count_occ Z.eq_dec (concat (map (fun _ => str_mul 45 (dashes w m + 1) ++ [43]) l)) 43 = length l).
  { induction l as [|x l IH]; auto. cbn [map concat length]. rewrite !count_occ_app, Z0, IH. cbn [count_occ].
    destruct (Z.eq_dec 43 43); [|congruence]. lia. }
  rewrite B, length_py_range. lia.
Qed.

Lemma C54_proof : forall number_sep, 2 <= h ->
  exists text m, view s inc number_sep prefix right = Ok text /\
  py_len (lines text) = NN s + w - 1 /\
  (forall l, In l (lines text) -> py_len l = NN s * m + NN s + 2 * h - 3) /\
  (forall r c, field s (r, c) ->
     py_len (shown s inc prefix (r, c)) <= m /\
     substr (c * (m + 1) + 2 * (c / w)) m (nth (Z.to_nat (r + r / h)) (lines text) [])
     = padded right m (shown s inc prefix (r, c))) /\
  (forall r k, 0 <= r < NN s -> 1 <= k < h ->
     substr (k * w * (m + 1) + 2 * (k - 1)) 1 (nth (Z.to_nat (r + r / h)) (lines text) []) = lit "|") /\
  (forall j, 1 <= j < w ->
     let rule := nth (Z.to_nat (j * (h + 1) - 1)) (lines text) [] in
     (forall c, In c rule -> c = 45 \/ c = 43) /\
     count_occ Z.eq_dec rule 43 = Z.to_nat (h - 1) /\
     forall k, 1 <= k < h -> substr (k * w * (m + 1) + 2 * (k - 1)) 1 rule = lit "+").
Proof.
  intros number_sep H2. pose proof (NN_pos s Hwf) as Np. pose proof Hw1 as Hw. pose proof Hh1 as Hh.
  destruct max_length_ok as [M [M1 [M2 [M3 M4]]]].
  destruct (max_field_ok (if 10 <=? NN s then lit "," else []) M M2) as [m [F1 [F2 F3]]].
  assert (S1 : forall p, field s p -> py_len (shown s inc prefix p) <= m).
  { intros p Hf. apply shown_len; auto. intros n Hn. specialize (M3 n Hn). lia. }
  set (v := fun r c => just right m (shown s inc prefix (r, c))).
  assert (V : forall r, 0 <= r < NN s -> forall c, 0 <= c < w * h -> py_len (v r c) = m).
  { intros r Hr1 c Hc1. apply length_just, S1. apply field_cell; cbn; auto. }
  set (ln := fun r => line w h (v r)). set (rule := rule_body w h m).
  assert (Rule : view_rule s m = rule ++ [10]).
  { unfold view_rule, rule, rule_body, dashes. change (lit "+") with [43]. fold w h. rewrite <- !app_assoc. reflexivity. }
  exists (join [10] (concat (map (block ln rule) (indices s)))), m.
  assert (NoNL : forall a, In a (concat (map (block ln rule) (indices s))) -> ~ In 10 a).
  { intros a Ha Hn. apply blocks_in in Ha. destruct Ha as [ -> |[r [Hr1 -> ]]].
    - apply rule_chars in Hn. lia.
    - apply line_chars in Hn. destruct Hn as [X|[X|[j [Hj X]]]]; try lia.
      apply just_chars in X. destruct X as [X|X]; [|lia]. apply shown_chars in X.
      destruct X as [X|[X|X]]; auto; [discriminate|lia]. }
  assert (Ls : lines (join [10] (concat (map (block ln rule) (indices s)))) = concat (map (block ln rule) (indices s))).
  { apply split_join; auto. intros E. pose proof (blocks_total ln rule) as T. rewrite E in T. cbn in T. lia. }
  rewrite Ls. splits.
  - unfold view. rewrite M1. cbn [rbind]. rewrite M4. refine (eq_trans (rbind_ok_l _ _ _ F3) _).
    apply view_text; auto. intros r Hr1. apply view_row_ok; auto.
  - apply blocks_total.
  - intros l Hl. apply blocks_in in Hl. destruct Hl as [ -> |[r [Hr1 -> ]]].
    + apply length_rule; auto; lia.
    + apply length_line; auto; lia.
  - intros r c Hf. split; [apply S1; auto|]. apply fieldD in Hf. cbn [fst snd] in Hf.
    rewrite blocks_line by lia. rewrite <- just_padded. unfold ln.
    apply (line_field w h m (v r)); auto; try lia. apply V; lia.
  - intros r k Hr1 Hk. rewrite blocks_line by lia. apply line_bar; auto; lia.
  - intros j Hj. cbv zeta. rewrite blocks_rule by auto. splits.
    + apply rule_chars.
    + apply count_plus; auto; lia.
    + intros k Hk. apply rule_plus; auto; lia.
Qed.
End view.
