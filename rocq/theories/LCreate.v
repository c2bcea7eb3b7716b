(** create_solution always succeeds (C28). *)
From Verif Require Export LDlx3 MGenerate LCoord.

(** * A solution grid for every box size *)
Definition pat (w h : Z) (p : coord) : Z :=
  ((fst p mod h) * w + fst p / h + snd p) mod (w * h) + 1.

Lemma mod_inj : forall n a b, 0 < n -> a mod n = b mod n -> - n < a - b < n -> a = b.
Proof.
  intros n a b Hn E H. pose proof (Z.div_mod a n) as Ha. pose proof (Z.div_mod b n) as Hb.
  rewrite E in Ha. assert (a - b = n * (a / n - b / n)) by lia.
  assert (a / n - b / n = 0) by nia. lia.
Qed.

Lemma mix_inj : forall w b a b' a', 0 <= a < w -> 0 <= a' < w ->
  b * w + a = b' * w + a' -> b = b' /\ a = a'.
Proof.
  intros w b a b' a' Ha Ha' E. apply (Z.div_mod_unique w); try lia.
Qed.

Lemma pat_valid : forall w h, 1 <= w -> 1 <= h -> valid_grid w h (pat w h).
Proof.
  intros w h Hw Hh. assert (HN : 0 < w * h) by nia. split.
  - intros p _. unfold pat. pose proof (Z.mod_pos_bound ((fst p mod h) * w + fst p / h + snd p) (w * h) HN). lia.
  - intros [r c] [r' c'] [Hr Hc] [Hr' Hc'] [Hne Hu]; cbn [fst snd] in *. unfold pat; cbn [fst snd].
    intros E. apply Z.add_cancel_r in E.
    unfold same_row, same_col, same_box in Hu; cbn [fst snd] in Hu.
    pose proof (Z.div_mod r h ltac:(lia)) as Dr. pose proof (Z.div_mod r' h ltac:(lia)) as Dr'.
    pose proof (Z.div_mod c w ltac:(lia)) as Dc. pose proof (Z.div_mod c' w ltac:(lia)) as Dc'.
    pose proof (Z.mod_pos_bound r h ltac:(lia)). pose proof (Z.mod_pos_bound r' h ltac:(lia)).
    pose proof (Z.mod_pos_bound c w ltac:(lia)). pose proof (Z.mod_pos_bound c' w ltac:(lia)).
    assert (0 <= r / h < w) by (split; [apply Z.div_pos; lia | apply Z.div_lt_upper_bound; nia]).
    assert (0 <= r' / h < w) by (split; [apply Z.div_pos; lia | apply Z.div_lt_upper_bound; nia]).
    assert (B : forall x y, 0 <= x < h -> 0 <= y < w -> 0 <= x * w + y < w * h) by (intros; nia).
    destruct Hu as [->|[->|[E1 E2]]].
    + apply mod_inj in E; auto; [|lia]. apply Hne; f_equal; lia.
    + pose proof (B (r mod h) (r / h) ltac:(auto) ltac:(auto)).
      pose proof (B (r' mod h) (r' / h) ltac:(auto) ltac:(auto)).
      apply mod_inj in E; auto; [|lia].
      destruct (mix_inj w (r mod h) (r / h) (r' mod h) (r' / h)); auto; [lia|].
      apply Hne; f_equal. rewrite Dr, Dr'. congruence.
    + pose proof (B (r mod h) (c mod w) ltac:(auto) ltac:(auto)).
      pose proof (B (r' mod h) (c' mod w) ltac:(auto) ltac:(auto)).
      rewrite E1 in E. rewrite E2 in Dc.
      apply mod_inj in E; auto; [|lia].
      destruct (mix_inj w (r mod h) (c mod w) (r' mod h) (c' mod w)); auto; [lia|].
      apply Hne; f_equal; [rewrite Dr, Dr' | rewrite Dc, Dc']; congruence.
Qed.

(** * Association lists *)
Section Look.
Context {K : Type}.
Variable eqb : K -> K -> bool.
Hypothesis eqb_eq : forall a b, eqb a b = true <-> a = b.
Fixpoint look (ks : list K) (vs : list Z) (k : K) (d : Z) : Z :=
  match ks, vs with
  | a :: ks', v :: vs' => if eqb k a then v else look ks' vs' k d
  | _, _ => d
  end.
Lemma look_in : forall ks vs k d, length ks = length vs -> In k ks -> In (look ks vs k d) vs.
Proof.
  induction ks as [|a ks IH]; intros [|v vs] k d Hl Hk; try discriminate; [contradiction|].
  cbn [look]. destruct (eqb k a) eqn:E; [left; auto|]. right. apply IH; auto.
  destruct Hk as [->|Hk]; auto. assert (eqb k k = true) by (apply eqb_eq; auto). congruence.
Qed.
Lemma look_notin : forall ks vs k d, ~ In k ks -> look ks vs k d = d.
Proof.
  induction ks as [|a ks IH]; intros [|v vs] k d Hk; auto. cbn [look].
  destruct (eqb k a) eqn:E; [apply eqb_eq in E; subst; exfalso; apply Hk; left; auto|].
  apply IH. intros H; apply Hk; right; auto.
Qed.
Lemma look_inj : forall ks vs k k' d, NoDup vs -> length ks = length vs -> In k ks -> In k' ks ->
  look ks vs k d = look ks vs k' d -> k = k'.
Proof.
  induction ks as [|a ks IH]; intros [|v vs] k k' d ND Hl Hk Hk'; try discriminate; [contradiction|].
  inv ND. injection Hl as Hl. cbn [look].
  assert (G : forall x, In x (a :: ks) -> eqb x a = false -> In x ks).
  { intros x [->|Hx] Ex; auto. assert (eqb x x = true) by (apply eqb_eq; auto). congruence. }
  destruct (eqb k a) eqn:E, (eqb k' a) eqn:E'; intros EE.
  - apply eqb_eq in E; apply eqb_eq in E'; congruence.
  - exfalso; apply H1. rewrite EE. apply look_in; auto.
  - exfalso; apply H1. rewrite <- EE. apply look_in; auto.
  - eapply IH; eauto.
Qed.
End Look.

Lemma look_map : forall (f : coord -> Z) ks vs q d,
  (forall a b, In a (q :: ks) -> In b (q :: ks) -> f a = f b -> a = b) ->
  look Z.eqb (map f ks) vs (f q) d = look coord_eqb ks vs q d.
Proof.
  intros f ks; induction ks as [|a ks IH]; intros [|v vs] q d Hi; auto. cbn [map look].
  destruct (coord_eqb q a) eqn:E.
  - apply coord_eqb_eq in E; subst. rewrite Z.eqb_refl; auto.
  - apply coord_eqb_neq in E. replace (f q =? f a) with false.
    + apply IH. intros x y Hx Hy. apply Hi; simpl in *; tauto.
    + symmetry; apply Z.eqb_neq. intros Ef; apply E. apply Hi; simpl; auto.
Qed.

Lemma look_def : forall ks vs q d d', length ks = length vs -> In q ks ->
  look coord_eqb ks vs q d = look coord_eqb ks vs q d'.
Proof.
  induction ks as [|a l IH]; intros [|v vs] q d d' L H; try discriminate; [contradiction|].
  cbn [look]. destruct (coord_eqb q a) eqn:E; auto. apply IH; auto. destruct H as [->|]; auto.
  rewrite coord_eqb_refl in E; discriminate.
Qed.

Lemma fill_ok : forall (l : list coord) vs s, wf s -> NoDup l -> (forall q, In q l -> field s q) ->
  length l = length vs ->
  exists s', foldM (fun '(nums, s) ij =>
                      let* (n, nums) := list_pop nums in
                      let* s := setitem s (fst ij) (snd ij) n in
                      Ok (nums, s)) l (rev vs, s) = Ok ([], s') /\
    wf s' /\ box_width s' = box_width s /\ box_height s' = box_height s /\
    (forall q, field s q -> num s' q = look coord_eqb l vs q (num s q)) /\
    (forall q, cand s' q = cand s q).
Proof.
  induction l as [|[i j] l IH]; intros [|v vs] s W ND Hl Hlen; try discriminate.
  - exists s; cbn; splits; auto.
  - inv ND. injection Hlen as Hlen. cbn [foldM rev]. rewrite list_pop_app. cbn [rbind fst snd].
    assert (F : field s (i, j)) by (apply Hl; left; auto).
    rewrite setitem_ok by auto. cbn [rbind].
    destruct (IH vs (pset s (i, j) v)) as [s' [E [W' [Ew [Eh [Hn Hc]]]]]]; auto.
    { apply pset_wf; auto. }
    { intros q Hq. apply pset_field. apply Hl; right; auto. }
    exists s'; split; [exact E|]. splits; auto.
    intros q Fq. rewrite Hn by (apply pset_field; auto). cbn [look].
    rewrite num_pset by auto.
    destruct (coord_eqb q (i, j)) eqn:Eq; auto.
    apply coord_eqb_eq in Eq; subst. apply look_notin; auto using coord_eqb_eq.
Qed.

Lemma choice_ok : forall {A} pick (l : list A), l <> [] -> exists x, choice pick l = Ok x /\ In x l.
Proof.
  intros A pick l Hl. unfold choice. destruct l as [|a l]; [contradiction|].
  assert (Hp : 0 < py_len (a :: l)) by (unfold py_len; cbn [length]; lia).
  pose proof (Z.mod_pos_bound pick _ Hp) as Hb.
  rewrite (list_get_ok _ _ a) by auto. eexists; split; [reflexivity|].
  apply nth_In. unfold py_len in *. lia.
Qed.

Lemma C28_proof : forall o w h, 1 <= w -> 1 <= h ->
  (forall l, Permutation (co_shuffle o l) l) -> (forall p l, Permutation (co_ord o p l) l) ->
  exists s, create_solution o (w, h) = Ok s /\ wf s /\ box_size s = (w, h) /\
    latin w h (num s) /\ valid_grid w h (num s) /\ (forall p, field s p -> cand s p = []).
Proof.
  intros o w h Hw Hh Hs Ho. unfold create_solution. cbv zeta.
  set (s0 := new_sudoku (w, h)).
  assert (W0 : wf s0) by (apply new_sudoku_wf; auto).
  change (box_height s0) with h. change (box_width s0) with w.
  assert (HN : 0 < w * h) by nia.
  destruct (choice_ok (co_row o) (py_range h)) as [row [Er Hr]].
  { intros E. assert (Hi : In 0 (py_range h)) by (apply in_py_range; lia). rewrite E in Hi; contradiction. }
  destruct (choice_ok (co_col o) (py_range w)) as [col [Ec Hc]].
  { intros E. assert (Hi : In 0 (py_range w)) by (apply in_py_range; lia). rewrite E in Hi; contradiction. }
  rewrite Er, Ec. cbn [rbind]. apply in_py_range in Hr. apply in_py_range in Hc.
  assert (F : cell w h (row, col)) by (split; cbn [fst snd]; nia).
  destruct (box_of_spec w h Hw Hh row col true F) as [box [Eb [Bn [Bi Bl]]]].
  rewrite method_box_of. change (box_width s0) with w. change (box_height s0) with h.
  rewrite Eb. cbn [rbind].
  set (nums := co_shuffle o (numbers s0)).
  assert (Pn : Permutation nums (numbers s0)) by apply Hs.
  set (vs := rev nums).
  assert (Hvs : forall v, In v vs <-> 1 <= v <= w * h).
  { intros v. unfold vs. rewrite <- in_rev. transitivity (In v (numbers s0)); [|apply in_numbers].
    split; apply Permutation_in; auto. symmetry; auto. }
  assert (NDv : NoDup vs).
  { unfold vs. apply NoDup_rev. eapply Permutation_NoDup; [symmetry; apply Pn|].
    apply (sset_NoDup _ zcmp_good), numbers_sorted. }
  assert (Lv : length box = length vs).
  { unfold vs. rewrite rev_length, (Permutation_length Pn). unfold numbers.
    change (box_width s0) with w. change (box_height s0) with h. rewrite length_py_range2. lia. }
  assert (Hbox : forall q, In q box <-> cell w h q /\ same_box w h q (row, col)).
  { intros q. rewrite Bi. tauto. }
  destruct (fill_ok box vs s0 W0 Bn) as [s1 [E1 [W1 [Ew1 [Eh1 [Hn1 Hc1]]]]]]; auto.
  { intros q Hq. apply Hbox in Hq. apply Hq. }
  replace nums with (rev vs) by (apply rev_involutive).
  rewrite E1. cbn [rbind].
  (* a solution of s1 *)
  pose proof (pat_valid w h Hw Hh) as [P1 P2].
  set (f := fun p => look Z.eqb (map (pat w h) box) vs (pat w h p) 0).
  assert (Lm : length (map (pat w h) box) = length vs) by (rewrite map_length; auto).
  assert (Hinj : forall a b, In a box -> In b box -> pat w h a = pat w h b -> a = b).
  { intros a b Ha Hb E. apply Hbox in Ha; apply Hbox in Hb.
    destruct (coord_eq_dec a b) as [|Hne]; auto. exfalso. apply (P2 a b); try tauto.
    split; auto. right; right. unfold same_box in *; intuition congruence. }
  assert (Hall : forall p, cell w h p -> In (pat w h p) (map (pat w h) box)).
  { intros p Hp. apply (NoDup_length_incl (l' := numbers s0)).
    - apply NoDup_map_inj; auto.
    - rewrite Lm. unfold vs; rewrite rev_length, (Permutation_length Pn); auto.
    - intros v Hv. apply in_map_iff in Hv. destruct Hv as [q [<- Hq]]. apply in_numbers.
      apply P1. apply Hbox in Hq; tauto.
    - apply in_numbers. apply P1; auto. }
  assert (Sf : solution s1 f).
  { unfold solution, extends, field. rewrite Ew1, Eh1. split; [split|].
    - intros p Hp. apply Hvs. unfold f. apply look_in; auto using Z.eqb_eq.
    - intros p q Hp Hq P E. apply (P2 p q); auto. unfold f in E.
      eapply (look_inj Z.eqb Z.eqb_eq); eauto.
    - intros p Hp. rewrite Hn1 by auto. destruct (in_dec coord_eq_dec p box) as [Hb|Hb].
      + right. unfold f. rewrite look_map.
        * apply look_def; auto.
        * intros a b Ha Hb'. apply Hinj; [destruct Ha as [<-|]; auto | destruct Hb' as [<-|]; auto].
      + left. rewrite look_notin by (auto using coord_eqb_eq). apply num_new; auto. }
  destruct (dlx_ok (co_ord o) Ho s1 W1) as [_ [[D1 [D2 D3]] Dc]].
  pose proof (gnext_spec (dlx (co_ord o) s1)) as HG.
  destruct (gyields (dlx (co_ord o) s1) tt) as [|y ys] eqn:Ey.
  { destruct (D2 f Sf) as [y [[] _]]. }
  destruct HG as [g' [Eg _]]. rewrite Eg. cbn [rbind].
  destruct (D1 y) as [Wy [By [V X]]]; [left; auto|].
  rewrite Ew1, Eh1 in V. exists y; splits; auto.
  - rewrite By. unfold box_size. rewrite Ew1, Eh1; auto.
  - apply valid_iff_latin; auto.
  - intros p Fp. apply (Dc y); [left; auto|]. unfold box_size in By; injection By as B1 B2.
    unfold field in *. rewrite <- B1, <- B2; auto.
Qed.
