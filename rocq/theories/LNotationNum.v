(** Proofs about the notation with floats (C113). *)
From Verif Require Import LBase.
From Verif Require Export SpecNotationNum MNotationNum LNotation7.

(** ** Ints *)
Lemma numbers_str_int : forall ns l, numbers_str_num false ns l = numbers_str ns l.
Proof. intros. unfold numbers_str_num, numbers_str, num_str. f_equal. apply map_ext. intros. apply app_nil_r. Qed.
Lemma mapM_ext' : forall {A B} (f g : A -> res B) l, (forall x, f x = g x) -> mapM f l = mapM g l.
Proof. intros A B f g l E. induction l as [|x l IH]; cbn; auto. rewrite E, IH. reflexivity. Qed.
Lemma foldM_ext' : forall {A S} (f g : S -> A -> res S) l a, (forall a x, f a x = g a x) -> foldM f l a = foldM g l a.
Proof. intros A S f g l. induction l as [|x l IH]; intros a E; cbn; auto. rewrite E. destruct (g a x); cbn; auto. Qed.
Lemma dict_str_int : forall q1 q2 d sep ns, dict_to_str_num false q1 q2 d sep ns = dict_to_str q1 q2 d sep ns.
Proof.
  intros. unfold dict_to_str_num, dict_to_str. f_equal. apply mapM_ext'. intros K. destruct (dget key_eqb d K); cbn [rbind]; auto.
  now rewrite !numbers_str_int.
Qed.
Lemma encode_int : forall cs w h ub sep nsep, nencode_num cs (NInt w) (NInt h) ub sep nsep = nencode cs w h ub sep nsep.
Proof.
  intros. unfold nencode_num, nencode. cbn [num_val is_float orb]. destruct (_ || _); auto. cbv zeta.
  destruct (collect w h cs) as [[rows boxes]|e]; cbn [rbind]; auto.
  destruct ub as [[]|].
  - destruct (join_keys boxes); cbn [rbind]; auto using dict_str_int.
  - destruct (join_keys rows); cbn [rbind]; auto using dict_str_int.
  - destruct (join_keys boxes) as [bd|e]; cbn [rbind]; auto. rewrite dict_str_int.
    destruct (dict_to_str 98 112 bd sep (num_sep nsep (w * h))); cbn [rbind]; auto.
    destruct (join_keys rows); cbn [rbind]; auto. rewrite dict_str_int. reflexivity.
Qed.

Lemma mapM_total : forall {A B} (f : A -> B) l, mapM (fun x => Ok (f x)) l = Ok (map f l).
Proof. induction l as [|x l IH]; cbn; auto. rewrite IH. reflexivity. Qed.
Lemma concat_prod : forall {A} (f : Z -> Z -> A) l m, concat (map (fun i => map (f i) m) l) = map (fun ij => f (fst ij) (snd ij)) (list_prod l m).
Proof. intros A f l m. induction l as [|i l IH]; cbn; auto. rewrite map_app, map_map, IH. reflexivity. Qed.
Lemma qualifier_int : forall q n w h, qualifier_fun_num q n w h false false = qualifier_fun q n w h.
Proof.
  intros. unfold qualifier_fun_num, qualifier_fun. destruct (q =? 114); [|destruct (q =? 99); [|destruct (q =? 98)]].
  - unfold the_row_num, the_row. destruct (negb _); auto.
  - unfold the_column_num, the_column. destruct (negb _); auto.
  - unfold the_box_num, the_box. destruct (negb _); auto. cbn [range_num rbind]. rewrite mapM_total. cbn [rbind]. f_equal. unfold block.
    rewrite (concat_prod (fun i j => (n / h * h + i, n mod h * w + j))). reflexivity.
  - unfold the_part_num, the_part. destruct (negb _); auto. cbn [range_num rbind]. rewrite mapM_total. cbn [rbind]. f_equal.
    rewrite (concat_prod (fun i j => (n / w + i * h, n mod w + j * w))). reflexivity.
Qed.
Lemma single_int : forall g w h ns, decode_single_num g w h false false ns = decode_single g w h ns.
Proof.
  intros. unfold decode_single_num, decode_single. destruct (foldM (decode_char ns) g dstate0) as [d|e]; cbn [rbind]; auto.
  match goal with |- rbind ?a _ = rbind ?a _ => destruct a as [all|e]; cbn [rbind]; auto end.
  replace (build_sets_num w h false false all) with (build_sets w h all); auto. unfold build_sets, build_sets_num.
  rewrite (mapM_ext' (fun kv : Z * list Z => let* s := foldM (fun s number => let* l := qualifier_fun (fst kv) number w h in Ok (sunion coord_cmp s l)) (snd kv) [] in
             Ok (match snd kv with [] => [] | _ => [s] end))
           (fun kv => let* s := foldM (fun s number => let* l := qualifier_fun_num (fst kv) number w h false false in Ok (sunion coord_cmp s l)) (snd kv) [] in
             Ok (match snd kv with [] => [] | _ => [s] end))); auto.
  intros [q l]. cbn [fst snd]. erewrite foldM_ext'; [reflexivity|]. intros a x. cbv beta. now rewrite qualifier_int.
Qed.
Lemma decode_int : forall s w h sep nsep, ndecode_num s (NInt w) (NInt h) sep nsep = ndecode s w h sep nsep.
Proof.
  intros. unfold ndecode_num, ndecode. cbn [num_val is_float]. destruct (_ || _); auto. cbv zeta.
  match goal with |- rbind ?a _ = rbind ?a _ => destruct a as [gs|e]; cbn [rbind]; auto end.
  apply foldM_ext'. intros. now rewrite single_int.
Qed.

(** ** Floats *)
Lemma dict_str_float : forall q1 q2 nd sep ns, NoDup (dkeys nd) ->
  dict_to_str_num true q1 q2 nd sep ns = Ok (float_entries_text q1 q2 sep ns (entries_of nd)).
Proof.
  intros q1 q2 nd sep ns Hn. unfold dict_to_str_num.
  rewrite (mapM_ok _ (fun K => q1 :: join ns (map float_text (succ1 K)) ++ q2 :: join ns (map float_text (succ1 (dget_default key_eqb nd K []))))).
  - cbn [rbind]. unfold float_entries_text, entries_of. rewrite map_map. reflexivity.
  - intros K HK. apply (Permutation_in _ (py_sorted_perm _ _)) in HK.
    apply (dget_keys _ key_eqb_eq) in HK. destruct HK as [v E]. unfold dget_default. rewrite E. cbn [rbind].
    unfold numbers_str_num, succ1. rewrite !map_map. reflexivity.
Qed.

Lemma encode_float : forall w h x y cs sep nsep, num_val w = Some x -> num_val h = Some y -> is_float w || is_float h = true -> 1 <= x -> 1 <= y ->
  (forall p, In p cs -> cell x y p) ->
  let ns := number_separator nsep (x * y) in
  exists rs bs, entries (map row_col cs) rs /\ entries (map (box_part x y) cs) bs /\
    let rt := entries_text 114 99 sep ns rs in
    let bt := float_entries_text 98 112 sep ns bs in
    nencode_num cs w h (Some false) sep nsep = Ok rt /\
    nencode_num cs w h (Some true) sep nsep = Ok bt /\
    nencode_num cs w h None sep nsep = Ok (if py_len bt <? py_len rt then bt else rt).
Proof.
  intros w h x y cs sep nsep Hw Hh F Hx Hy Hc. cbv zeta.
  destruct (collect_ok x y cs Hc) as [rows [boxes [E [D1 D2]]]].
  destruct (join_keys_ok rows (proj1 D1)) as [rd [E1 J1]]. destruct (join_keys_ok boxes (proj1 D2)) as [bd [E2 J2]].
  exists (entries_of rd), (entries_of bd).
  split; [exact (entries_joined rd rows cs J1 D1)|]. split.
  { pose proof (entries_joined bd boxes _ J2 D2) as X. rewrite map_map in X.
    replace (map (box_part x y) cs) with (map (fun p => (fst (bp x y p) + 1, snd (bp x y p) + 1)) cs); auto.
    apply map_ext. intros [r c]. unfold box_part, bp. cbn [fst snd].
    replace (c / x + r - r mod y) with (r / y * y + c / x) by (pose proof (sub_mod r y ltac:(lia)); lia).
    f_equal; lia. }
  unfold nencode_num. rewrite Hw, Hh, F.
  replace ((x <? 1) || (y <? 1)) with false by (symmetry; apply orb_false_iff; split; apply Z.ltb_ge; auto).
  cbv zeta. rewrite E. cbn [rbind]. rewrite E1, E2. cbn [rbind]. rewrite num_sep_eq, !dict_str_int.
  rewrite !dict_to_str_ok, !dict_str_float by (eapply joined_keys; eauto; first [apply D1|apply D2]).
  cbn [rbind]. rewrite !out_entries. splits; auto. destruct (_ <? _); auto.
Qed.

Lemma encode_bad : forall w h cs ub sep nsep, num_val w = None \/ num_val h = None -> nencode_num cs w h ub sep nsep = Err ValueError.
Proof. intros w h cs ub sep nsep [H|H]; unfold nencode_num; rewrite H; auto. destruct (num_val w); auto. Qed.
Lemma decode_bad : forall w h s sep nsep, num_val w = None \/ num_val h = None -> ndecode_num s w h sep nsep = Err ValueError.
Proof. intros w h s sep nsep [H|H]; unfold ndecode_num; rewrite H; auto. destruct (num_val w); auto. Qed.

(** Every function of coordinates.py raises. *)
Lemma in_block : forall w h, 1 <= w -> 1 <= h -> py_range w <> [] /\ py_range h <> [].
Proof. intros w h Hw Hh. split; unfold py_range, py_range2; intros E; apply (f_equal (@length Z)) in E; rewrite ?map_length, ?seq_length in E; cbn in E; lia. Qed.
Lemma qualifier_float : forall q n w h wf hf, 1 <= w -> 1 <= h -> wf || hf = true ->
  qualifier_fun_num q n w h wf hf = if (0 <=? n) && (n <? w * h) then Err TypeError else range_error hf.
Proof.
  intros q n w h wf hf Hw Hh F. destruct (in_block w h Hw Hh) as [Rw Rh]. unfold qualifier_fun_num.
  destruct (q =? 114); [|destruct (q =? 99); [|destruct (q =? 98)]].
  - unfold the_row_num. destruct ((0 <=? n) && (n <? w * h)); cbn [negb]; auto. unfold range_num. rewrite F. reflexivity.
  - unfold the_column_num. destruct ((0 <=? n) && (n <? w * h)); cbn [negb]; auto. unfold range_num. rewrite F. reflexivity.
  - unfold the_box_num. destruct ((0 <=? n) && (n <? w * h)); cbn [negb]; auto. unfold range_num. destruct hf; auto. destruct wf; [|discriminate].
    cbn [rbind]. destruct (py_range h); [congruence|reflexivity].
  - unfold the_part_num. destruct ((0 <=? n) && (n <? w * h)); cbn [negb]; auto. unfold range_num. destruct wf; auto. destruct hf; [|discriminate].
    cbn [rbind]. destruct (py_range w); [congruence|reflexivity].
Qed.
Lemma units_float : forall n w h wf hf, 1 <= w -> 1 <= h -> wf || hf = true ->
  let e := if hf then TypeError else if (0 <=? n) && (n <? w * h) then TypeError else ValueError in
  the_row_num n w h wf hf = Err e /\ the_column_num n w h wf hf = Err e /\
  the_box_num n w h wf hf = Err e /\ the_part_num n w h wf hf = Err e.
Proof.
  intros n w h wf hf Hw Hh F e.
  assert (X : forall q, qualifier_fun_num q n w h wf hf = Err e).
  { intros q. rewrite qualifier_float by auto. unfold e, range_error. destruct hf, ((0 <=? n) && (n <? w * h)); reflexivity. }
  split; [exact (X 114)|]. split; [exact (X 99)|]. split; [exact (X 98)|exact (X 112)].
Qed.
Lemma qualifier_err : forall q n w h, qualifier_fun q n w h = Err ValueError <-> (0 <=? n) && (n <? w * h) = false.
Proof.
  intros. unfold qualifier_fun, the_row, the_column, the_box, the_part. destruct ((0 <=? n) && (n <? w * h)); cbn [negb];
    repeat (match goal with |- context [if ?b then _ else _] => destruct b end); split; intros; try discriminate; auto.
Qed.

(** Either no numbers at all, or an exception, namely TypeError if the same text can be read with ints. *)
Lemma sets_float : forall w h wf hf all, 1 <= w -> 1 <= h -> wf || hf = true ->
  (build_sets_num w h wf hf all = Ok [] /\ build_sets w h all = Ok []) \/
  build_sets_num w h wf hf all = Err TypeError \/
  (build_sets_num w h wf hf all = Err ValueError /\ build_sets w h all = Err ValueError).
Proof.
  intros w h wf hf all Hw Hh F. unfold build_sets_num, build_sets. induction all as [|[q l] all IH]; cbn [mapM fst snd]; [left; auto|].
  destruct l as [|n l].
  - cbn [foldM rbind]. revert IH.
    match goal with |- context [mapM ?f all] => generalize (mapM f all) end. intros M1.
    match goal with |- context [mapM ?f all] => generalize (mapM f all) end. intros M2.
    destruct M1 as [a|e], M2 as [b|e']; cbn [rbind concat app]; auto.
  - cbn [foldM]. rewrite qualifier_float by auto. destruct ((0 <=? n) && (n <? w * h)) eqn:R; cbn [rbind]; auto.
    apply (qualifier_err q n w h) in R. rewrite R. unfold range_error. destruct hf; cbn [rbind]; auto.
Qed.

Lemma single_float : forall g w h wf hf ns, 1 <= w -> 1 <= h -> wf || hf = true ->
  decode_single_num g w h wf hf ns = Err TypeError \/
  (decode_single_num g w h wf hf ns = Err ValueError /\ decode_single g w h ns = Err ValueError).
Proof.
  intros g w h wf hf ns Hw Hh F. unfold decode_single_num, decode_single. 
  destruct (ok_value_foldM (decode_char ns) g dstate0 (char_ok_value ns)) as [[d ->]| ->]; cbn [rbind]; auto.
  destruct (finish_ok_value ns d) as [[all E]|E]; unfold finish in E; rewrite E; cbn [rbind]; auto.
  destruct (sets_float w h wf hf all Hw Hh F) as [[-> ->]|[-> |[-> ->]]]; cbn [rbind]; auto.
Qed.

Lemma split_groups_ne : forall sep ks q ks', ks <> [] -> split_groups sep ks q = Ok ks' -> ks' <> [].
Proof.
  intros sep ks q ks' H E. unfold split_groups in E. destruct ks as [|k ks]; [congruence|]. cbn [mapM] in E.
  unfold PyStr.split in E. destruct (sep ++ [q]) as [|c t] eqn:S; [destruct sep; discriminate|]. cbn [rbind] in E.
  pose proof (split_go_nonempty (c :: t) k 0) as N. destruct (split_go (c :: t) k 0); [congruence|]. cbn [rbind] in E.
  match type of E with context [mapM ?f ks] => destruct (mapM f ks) end; cbn [rbind concat app] in E; inv E. discriminate.
Qed.
Lemma split_fold_ne : forall sep qs ks ks', ks <> [] -> foldM (split_groups sep) qs ks = Ok ks' -> ks' <> [].
Proof.
  intros sep qs. induction qs as [|q qs IH]; intros ks ks' H E; cbn [foldM] in E; [inv E; auto|].
  destruct (split_groups sep ks q) as [k1|e] eqn:S; cbn [rbind] in E; [|discriminate]. eapply IH; [|exact E]. eapply split_groups_ne; eauto.
Qed.

Lemma decode_float : forall s w h x y sep nsep, num_val w = Some x -> num_val h = Some y -> is_float w || is_float h = true ->
  ndecode_num s w h sep nsep = Err TypeError \/ (ndecode_num s w h sep nsep = Err ValueError /\ ndecode s x y sep nsep = Err ValueError).
Proof.
  intros s w h x y sep nsep Hw Hh F. unfold ndecode_num, ndecode. rewrite Hw, Hh.
  destruct ((x <? 1) || (y <? 1)) eqn:S; auto. apply orb_false_iff in S. destruct S as [S1 S2]. apply Z.ltb_ge in S1, S2. cbv zeta.
  match goal with |- context [foldM (split_groups sep) QUALIFIERS [?t]] => destruct (split_fold_total sep QUALIFIERS [t]) as [gs G]; rewrite G;
    pose proof (split_fold_ne sep QUALIFIERS [t] gs ltac:(discriminate) G) as N end.
  cbn [rbind]. destruct gs as [|g gs]; [congruence|]. cbn [foldM].
  destruct (single_float g x y (is_float w) (is_float h) (num_sep nsep (x * y)) S1 S2 F) as [-> |[-> ->]]; cbn [rbind]; auto.
Qed.
