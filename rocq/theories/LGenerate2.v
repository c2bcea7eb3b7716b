(** The possible results of generate, given the created solution (C98). *)
From Verif Require Export LGenerate.

Section Reach.
Variables (w h : Z) (y : symmetry) (f : Z -> Z -> Z -> Z -> list coord) (sol : sudoku) (min_count : Z).
Variable o : generate_oracle.
Hypothesis Hf : symmetry_func y = Ok f.
Hypothesis Wsol : wf sol.
Hypothesis Bsol : box_size sol = (w, h).
Hypothesis Vsol : valid_grid w h (num sol).
Hypothesis Ho : forall k p l, Permutation (go_ord o k p l) l.

Variable p : sudoku.
Hypothesis Gp : good w h y sol min_count p.

Notation inclass := (inclass w h f).
Notation minus := (minus w h f).
Notation LI := (LI w h y f sol min_count).

Lemma class_step_cell : forall a b, cell w h a -> sym_class (w * h) y a b ->
  cell w h b /\ (num p a = 0 <-> num p b = 0).
Proof.
  intros a b Ha Hab. destruct Gp as [_ [_ [_ [_ [_ [_ [Hsym _]]]]]]].
  split; [eapply class_cell; eauto | apply Hsym; auto].
Qed.

Lemma nfilled_le : forall s t, box_width s = w -> box_height s = h -> box_width t = w -> box_height t = h ->
  (forall q, cell w h q -> num s q <> 0 -> num t q <> 0) -> nfilled s <= nfilled t.
Proof.
  intros s t E1 E2 E3 E4 H. unfold nfilled, py_len. apply inj_le, NoDup_incl_length.
  - apply NoDup_filter, NoDup_coords.
  - intros q Hq. apply filter_In in Hq. destruct Hq as [Hq Hz]. apply in_coords in Hq.
    unfold field in Hq. rewrite E1, E2 in Hq. apply filter_In. split.
    + apply in_coords. unfold field. rewrite E3, E4; auto.
    + apply negb_true_iff, Z.eqb_neq in Hz. apply negb_true_iff, Z.eqb_neq. auto.
Qed.

(** Nothing changes any more once [p] is reached. *)
Lemma stay : forall fuel k cs cnt, (length cs < fuel)%nat -> LI cs cnt p ->
  (forall q, cell w h q -> num p q <> 0 -> ~ ugiven w h (minus (num p) q)) \/
  (exists c cs0, cs = c :: cs0 /\ small_class w h f min_count p c) ->
  generate_loop fuel o k f min_count sol cs cnt p = Ok p.
Proof.
  induction fuel as [|fuel IH]; intros k cs cnt Hl HL HC; [lia|].
  destruct cs as [|c cs0] eqn:Ecs; [reflexivity|]. rewrite <- Ecs in *.
  destruct (loop_step w h y f sol min_count o Hf Wsol Bsol Vsol Ho fuel k c cs0 cs cnt p Ecs HL)
    as [cs' [s1 [_ [Hl' [W1 [Ew1 [Eh1 [Hn1 HS]]]]]]]].
  destruct HL as [_ [_ [_ [Hcs _]]]].
  destruct (Hcs c) as [Hc Hz]; [rewrite Ecs; left; auto|].
  destruct HS as [[_ E]|[[Hm [HU _]]|[Hm [_ [E HL']]]]]; [auto| |].
  - exfalso. destruct HC as [HC|[c' [cs0' [Ec [_ [_ [t [Wt [Ewt [Eht [Hnt Hm']]]]]]]]]]]; [apply (HC c); auto|].
    rewrite Ecs in Ec. injection Ec as <- <-.
    assert (nfilled s1 <= nfilled t); [|lia].
    apply nfilled_le; auto. intros q Hq. rewrite Hn1, Hnt; auto.
  - rewrite E. apply IH; auto; [lia|]. left.
    destruct HC as [HC|[c' [cs0' [Ec [_ [_ [t [Wt [Ewt [Eht [Hnt Hm']]]]]]]]]]]; [auto|].
    exfalso. rewrite Ecs in Ec. injection Ec as <- <-.
    assert (nfilled s1 <= nfilled t); [|lia].
    apply nfilled_le; auto. intros q Hq. rewrite Hn1, Hnt; auto.
Qed.

(** Emptying the fields that are empty in [p] leads to [p]. *)
Lemma to_p : forall fuel k E R cnt s, (length (E ++ R) < fuel)%nat -> LI (E ++ R) cnt s ->
  (forall q, In q E -> num p q = 0) -> (forall q, In q R -> num p q <> 0) ->
  (forall q, cell w h q -> num p q = 0 -> In q E \/ num s q = 0) ->
  (forall q, cell w h q -> num p q <> 0 -> num s q = num p q) ->
  exists fuel' k', (length R < fuel')%nat /\ LI R (nfilled p) p /\
    generate_loop fuel o k f min_count sol (E ++ R) cnt s =
    generate_loop fuel' o k' f min_count sol R (nfilled p) p.
Proof.
  induction fuel as [|fuel IH]; intros k E R cnt s Hl HL HE HR He Hne; [lia|].
  pose proof HL as [HG [Hcnt [ND [Hcs [Hcl _]]]]].
  pose proof HG as [W [Ew [Eh [Hs [HU [Hmin [Hsym Hcand]]]]]]].
  pose proof Gp as [Wp [Ewp [Ehp [Hps [HUp [Hminp [Hsymp Hcandp]]]]]]].
  destruct E as [|c E0] eqn:EE.
  { assert (Es : s = p).
    { apply sudoku_ext; auto; try congruence.
      - intros q Fq. assert (Hq : cell w h q) by (unfold field in Fq; rewrite Ew, Eh in Fq; auto).
        destruct (Z.eq_dec (num p q) 0) as [Ez|Ez]; [|apply Hne; auto].
        destruct (He q Hq Ez) as [[]|E0]; congruence.
      - intros q Fq. rewrite Hcand by auto. rewrite Hcandp; auto.
        unfold field in *. rewrite Ewp, Ehp, <- Ew, <- Eh; auto. }
    subst s. cbn [app] in *. exists (S fuel), k. subst cnt. splits; auto. }
  rewrite <- EE in *.
  assert (Ecs : E ++ R = c :: (E0 ++ R)) by (rewrite EE; reflexivity).
  destruct (loop_step w h y f sol min_count o Hf Wsol Bsol Vsol Ho fuel k c (E0 ++ R) (E ++ R) cnt s Ecs HL)
    as [cs' [s1 [Ecs' [Hl' [W1 [Ew1 [Eh1 [Hn1 HS]]]]]]]].
  assert (Hc : cell w h c) by (apply Hcs; rewrite Ecs; left; auto).
  assert (Hcp : num p c = 0) by (apply HE; rewrite EE; left; auto).
  assert (Hclass : forall q, inclass c q = true -> cell w h q /\ num p q = 0).
  { intros q Hq. apply (inclass_iff w h y f Hf) in Hq. destruct (class_step_cell c q Hc Hq) as [H1 H2]. tauto. }
  assert (Hle : nfilled p <= nfilled s1).
  { apply nfilled_le; auto. intros q Hq Hz. rewrite Hn1 by auto. unfold LGenerate.minus.
    destruct (inclass c q) eqn:Ei; [destruct (Hclass q Ei); contradiction|]. rewrite Hne; auto. }
  assert (HUm : ugiven w h (minus (num s) c)).
  { eapply (ugiven_mono w h _ (num p)); [apply Vsol| | |].
    - intros q Hq. unfold LGenerate.minus. destruct (inclass c q); auto.
    - intros q Hq. destruct (Z.eq_dec (num p q) 0) as [Ez|Ez]; [auto|]. right.
      unfold LGenerate.minus. destruct (inclass c q) eqn:Ei; [destruct (Hclass q Ei); contradiction|]. rewrite Hne; auto.
    - pose proof (proj1 (ugiven_unique p) HUp) as HUp'. rewrite Ewp, Ehp in HUp'. auto. }
  destruct HS as [[Hm _]|[[Hm [_ [Eg HL']]]|[_ [Hn _]]]]; [lia| |contradiction].
  rewrite Eg. rewrite filter_app in Ecs'.
  replace (filter (fun q => negb (inclass c q)) R) with R in Ecs'.
  2: { symmetry. clear - HR Hclass. induction R as [|a R IH]; auto. cbn [filter].
       destruct (inclass c a) eqn:Ei.
       - exfalso. apply (HR a); [left; auto|]. apply Hclass; auto.
       - cbn [negb]. f_equal. apply IH. intros; apply HR; right; auto. }
  subst cs'. apply IH; auto.
  - lia.
  - intros q Hq. apply filter_In in Hq. apply HE; tauto.
  - intros q Hq Ez. rewrite Hn1 by auto. unfold LGenerate.minus. destruct (inclass c q) eqn:Ei; [auto|].
    destruct (He q Hq Ez) as [Hin|E1]; [|auto]. left. apply filter_In. rewrite Ei; auto.
  - intros q Hq Ez. rewrite Hn1 by auto. unfold LGenerate.minus.
    destruct (inclass c q) eqn:Ei; [destruct (Hclass q Ei); contradiction|]. auto.
Qed.
End Reach.

(** * The theorem *)
Lemma class_pattern : forall w h y (g : grid),
  (forall m p, In m (sym_maps (w * h) y) -> cell w h p -> (g p = 0 <-> g (m p) = 0)) <->
  (forall p q, cell w h p -> sym_class (w * h) y p q -> (g p = 0 <-> g q = 0)).
Proof.
  intros w h y g; split; intros H.
  - intros p q Hp Hq. induction Hq as [|q m Hq IH Hm]; [tauto|].
    rewrite IH. apply H; auto. eapply class_cell; eauto.
  - intros m p Hm Hp. apply H; auto. constructor; auto. constructor.
Qed.

Lemma emptied_iff : forall w h y f s p t, symmetry_func y = Ok f -> box_width s = w -> box_height s = h ->
  (emptied y s p t <-> wf t /\ box_width t = w /\ box_height t = h /\
     (forall q, cell w h q -> num t q = minus w h f (num s) p q)).
Proof.
  intros w h y f s p t Hf Ew Eh. unfold emptied, field, minus, box_size. rewrite Ew, Eh. split.
  - intros [W [B [H1 H2]]]. injection B as B1 B2. splits; auto. intros q Hq.
    destruct (inclass w h f p q) eqn:Ei.
    + apply H1; auto. apply (inclass_iff w h y f Hf); auto.
    + apply H2; auto. intros Hx. apply (inclass_iff w h y f Hf) in Hx. congruence.
  - intros [W [B1 [B2 H]]]. splits; auto; [congruence| |]; intros q Hq Hx; rewrite H by auto.
    + apply (inclass_iff w h y f Hf) in Hx. rewrite Hx; auto.
    + destruct (inclass w h f p q) eqn:Ei; auto. exfalso; apply Hx, (inclass_iff w h y f Hf); auto.
Qed.

Lemma count_nfilled : forall s, wf s -> count s = Ok (nfilled s).
Proof. intros s W. unfold count. rewrite glist_filled by auto. reflexivity. Qed.

Lemma emptied_exists : forall w h y f s p, symmetry_func y = Ok f -> wf s -> box_width s = w -> box_height s = h ->
  cell w h p -> exists t, emptied y s p t.
Proof.
  intros w h y f s p Hf W Ew Eh Hp.
  destruct (write_all (fun _ => Ok 0) (fun _ => 0) 0 (f w h (fst p) (snd p)) s 0 W)
    as [t [_ [Wt [Ewt [Eht [Hn _]]]]]]; auto.
  - intros q Hq. apply (sym_list y f w h _ _ q Hf) in Hq. unfold field. rewrite Ew, Eh.
    eapply class_cell; [|apply Hq]. rewrite <- surjective_pairing; auto.
  - exists t. apply (emptied_iff w h y f s p t Hf Ew Eh). splits; auto; try congruence.
    intros q Hq. rewrite Hn by (unfold field; rewrite Ew, Eh; auto). reflexivity.
Qed.

Lemma puzzle_iff : forall w h y f sol m s, symmetry_func y = Ok f -> box_size sol = (w, h) ->
  (puzzle_of sol m y s <->
   good w h y sol m s /\ ((forall q, cell w h q -> num s q <> 0 -> ~ ugiven w h (minus w h f (num s) q)) \/
                          exists c, small_class w h f m s c)).
Proof.
  intros w h y f sol m s Hf Bs. unfold puzzle_of, good, small_class. rewrite Bs. split.
  - intros [W [B [Hc [Hn [Hsym [HU [[n [En Hm]] Hd]]]]]]].
    unfold box_size in B; injection B as Ew Eh. unfold field in *. rewrite Ew, Eh in *.
    rewrite (count_nfilled s W) in En. injection En as <-.
    split; [splits; auto; apply (class_pattern w h y (num s)); auto|].
    destruct Hd as [Hd|[p [t [n [Hp [Hz [He [En Hlt]]]]]]]].
    + left. intros q Hq Hz HUg. destruct (emptied_exists w h y f s q Hf W Ew Eh Hq) as [t Ht].
      apply (Hd q t Hq Hz Ht). apply (emptied_iff w h y f s q t Hf Ew Eh) in Ht. destruct Ht as [Wt [Ewt [Eht Hnt]]].
      apply ugiven_unique. rewrite Ewt, Eht. eapply ugiven_ext; [|apply HUg]. intros x Hx. rewrite Hnt; auto.
    + right. exists p. split; [auto|]. split; [auto|]. exists t.
      apply (emptied_iff w h y f s p t Hf Ew Eh) in He. destruct He as [Wt [Ewt [Eht Hnt]]].
      rewrite (count_nfilled t Wt) in En. injection En as <-. splits; auto.
  - intros [[W [Ew [Eh [Hn [HU [Hm [Hsym Hc]]]]]]] Hd].
    unfold field, box_size in *. rewrite Ew, Eh in *.
    split; [auto|]. split; [auto|]. split; [auto|]. split; [auto|].
    split; [apply (class_pattern w h y (num s)); auto|]. split; [auto|].
    split; [exists (nfilled s); split; auto; apply count_nfilled; auto|].
    destruct Hd as [Hd|[c [Hcc [Hz [t [Wt [Ewt [Eht [Hnt Hlt]]]]]]]]].
    + left. intros p t Hp Hz He HUt. apply (Hd p Hp Hz).
      apply (emptied_iff w h y f s p t Hf Ew Eh) in He. destruct He as [Wt [Ewt [Eht Hnt]]].
      pose proof (proj1 (ugiven_unique t) HUt) as HU'. rewrite Ewt, Eht in HU'. eapply ugiven_ext; [|apply HU']. auto.
    + right. exists c, t, (nfilled t). split; [auto|]. split; [auto|].
      split; [apply (emptied_iff w h y f s c t Hf Ew Eh); auto|]. split; [apply count_nfilled; auto|auto].
Qed.

Lemma C98_proof : forall co ord m y w h sol s, 1 <= w -> 1 <= h -> create_admissible co ->
  (forall k p l, Permutation (ord k p l) l) ->
  m <= w ^ 2 * h ^ 2 -> y <> SymOther -> create_solution co (w, h) = Ok sol ->
  ((exists sh, (forall l, Permutation (sh l) l) /\
      generate {| go_create := co; go_shuffle := sh; go_ord := ord |} m y (w, h) = Ok s) <->
   puzzle_of sol m y s).
Proof.
  intros co ord m y w h sol s Hw Hh Hco Hord Hm Hy Esol.
  destruct (symmetry_func y) as [f|e] eqn:Ef; [|destruct y; inv Ef; congruence].
  assert (HB : box_size sol = (w, h)).
  { destruct Hco as [H1 H2]. destruct (C28_proof co w h Hw Hh H1 H2) as [sol' [E1' [_ [Bs _]]]]. congruence. }
  rewrite (puzzle_iff w h y f sol m s Ef HB). split.
  - intros [sh [Hsh E]]. set (o := {| go_create := co; go_shuffle := sh; go_ord := ord |}) in *.
    assert (Ha : generate_admissible o) by (split; [|split]; auto).
    destruct (generate_init o m y w h f sol Hw Hh Ha Hm Ef Esol) as [Ws [Bs [V [s0 [Ew [Eh [Hn [Eg [HL _]]]]]]]]].
    cbv zeta in *.
    edestruct (loop_ok' w h y f sol m o Ef Ws Bs V Hord) as [t [Et [Gt Mt]]]; [|apply HL|].
    { apply Nat.lt_succ_diag_r. }
    rewrite Eg in E. rewrite E in Et. injection Et as <-. split; [auto|].
    destruct Mt as [Mt|Mt]; [left; intros q Hq Hz; apply Mt; auto | right; auto].
  - intros [Gs Hd]. pose proof Gs as [W [Ew [Eh [Hs [HU [Hmin [Hsym Hc]]]]]]].
    set (cells := coords s).
    set (E := filter (fun q => num s q =? 0) cells). set (F := filter (fun q => negb (num s q =? 0)) cells).
    assert (PEF : Permutation (E ++ F) cells).
    { subst E F. clearbody cells. clear. induction cells as [|a l IH]; cbn [filter]; [reflexivity|].
      destruct (num s a =? 0); cbn [negb app]; [constructor; auto|].
      etransitivity; [symmetry; apply Permutation_middle|]. constructor; auto. }
    assert (HR : exists R, Permutation R F /\
      ((forall q, cell w h q -> num s q <> 0 -> ~ ugiven w h (minus w h f (num s) q)) \/
       exists c cs0, R = c :: cs0 /\ small_class w h f m s c)).
    { destruct Hd as [Hd|[c Hsm]]; [exists F; auto|]. pose proof Hsm as [Hcc [Hz _]].
      assert (Hin : In c F).
      { apply filter_In. split; [apply in_coords; unfold field; rewrite Ew, Eh; auto|].
        apply negb_true_iff, Z.eqb_neq; auto. }
      apply in_split in Hin. destruct Hin as [l1 [l2 EF]]. exists (c :: l1 ++ l2). split.
      - rewrite EF. apply Permutation_middle.
      - right; eauto. }
    destruct HR as [R [PR HR]].
    assert (PER : Permutation (E ++ R) cells) by (rewrite PR; auto).
    set (sh := fun l : list coord => if list_eq_dec coord_eq_dec l cells then E ++ R else l).
    exists sh. split.
    { intros l. unfold sh. destruct (list_eq_dec coord_eq_dec l cells) as [->|_]; auto. }
    set (o := {| go_create := co; go_shuffle := sh; go_ord := ord |}).
    assert (Ha : generate_admissible o).
    { split; [|split]; auto. intros l. cbn. unfold sh.
      destruct (list_eq_dec coord_eq_dec l cells) as [->|_]; auto. }
    destruct (generate_init o m y w h f sol Hw Hh Ha Hm Ef Esol) as [Ws [Bs [V [s0 [Ew0 [Eh0 [Hn0 [Eg [HL _]]]]]]]]].
    cbv zeta in *.
    assert (Ecs : go_shuffle o (coords s0) = E ++ R).
    { cbn. unfold sh, cells. destruct (list_eq_dec coord_eq_dec (coords s0) (coords s)) as [_|Hne]; auto.
      exfalso; apply Hne. unfold coords, indices. rewrite Ew, Eh, Ew0, Eh0. reflexivity. }
    rewrite Ecs in *. rewrite Eg.
    assert (HinR : forall q, In q R <-> cell w h q /\ num s q <> 0).
    { intros q. assert (HX : In q R <-> In q F) by (split; apply Permutation_in; [|symmetry]; auto).
      rewrite HX. unfold F. rewrite filter_In, negb_true_iff, Z.eqb_neq. unfold cells. rewrite in_coords.
      unfold field. rewrite Ew, Eh. tauto. }
    destruct (to_p w h y f sol m o Ef Ws Bs V Hord s Gs (S (length (E ++ R))) 0%nat E R (sudoku_len s0) s0)
      as [fuel' [k' [Hl [HL' E']]]]; auto.
    { intros q Hq. apply filter_In in Hq. apply Z.eqb_eq; tauto. }
    { intros q Hq. apply HinR; auto. }
    { intros q Hq Ez. left. apply filter_In. split; [|apply Z.eqb_eq; auto].
      apply in_coords. unfold field. rewrite Ew, Eh; auto. }
    { intros q Hq Ez. rewrite Hn0 by auto. destruct (Hs q Hq); [contradiction|auto]. }
    rewrite E'. eapply stay; eauto.
Qed.

Lemma nfilled_full : forall s w h, box_width s = w -> box_height s = h -> 1 <= w -> 1 <= h ->
  w ^ 2 * h ^ 2 <= nfilled s -> forall q, cell w h q -> num s q <> 0.
Proof.
  intros s w h Ew Eh Hw Hh Hn q Hq Ez.
  assert (Hin : In q (coords s)) by (apply in_coords; unfold field; rewrite Ew, Eh; auto).
  assert (Hlt : (length (q :: filter (fun p => negb (num s p =? 0)%Z) (coords s)) <= length (coords s))%nat).
  { apply NoDup_incl_length.
    - constructor; [|apply NoDup_filter, NoDup_coords]. rewrite filter_In, Ez. cbn. intros [_ Hx]; discriminate.
    - intros x [<-|Hx]; auto. apply filter_In in Hx; tauto. }
  cbn [length] in Hlt. unfold nfilled, py_len in Hn. rewrite length_coords, Ew, Eh in Hlt.
  assert (Z.of_nat (Z.to_nat (w * h) * Z.to_nat (w * h)) = w ^ 2 * h ^ 2); [|lia].
  rewrite !Z.pow_2_r, Nat2Z.inj_mul, !Z2Nat.id; nia.
Qed.

Lemma C98_full_proof : forall o y w h sol, 1 <= w -> 1 <= h -> generate_admissible o ->
  y <> SymOther -> create_solution (go_create o) (w, h) = Ok sol ->
  generate o (w ^ 2 * h ^ 2) y (w, h) = Ok sol.
Proof.
  intros o y w h sol Hw Hh Ha Hy Esol. pose proof Ha as [[H1 H2] [Hs3 Ho]].
  destruct (symmetry_func y) as [f|e] eqn:Ef; [|destruct y; inv Ef; congruence].
  destruct (C28_proof (go_create o) w h Hw Hh H1 H2) as [sol' [E1' [Wsol [_ [_ [_ Hcs]]]]]].
  rewrite Esol in E1'; injection E1' as <-.
  destruct (generate_init o (w ^ 2 * h ^ 2) y w h f sol Hw Hh Ha (Z.le_refl _) Ef Esol)
    as [Ws [Bs [V [s0 [Ew [Eh [Hn [Eg [HL _]]]]]]]]]. cbv zeta in *.
  edestruct (loop_ok' w h y f sol (w ^ 2 * h ^ 2) o Ef Ws Bs V Ho) as [t [Et [Gt Mt]]]; [|apply HL|].
  { apply Nat.lt_succ_diag_r. }
  rewrite Eg. etransitivity; [exact Et|]. f_equal.
  destruct Gt as [Wt [Ewt [Eht [Hst [_ [Hmin [_ Hct]]]]]]].
  unfold box_size in Bs; injection Bs as B1 B2.
  apply sudoku_ext; auto; try congruence.
  - intros q Fq. assert (Hq : cell w h q) by (unfold field in Fq; rewrite Ewt, Eht in Fq; auto).
    destruct (Hst q Hq) as [E0|E0]; auto. exfalso.
    apply (nfilled_full t w h Ewt Eht Hw Hh Hmin q Hq E0).
  - intros q Fq. rewrite Hct by auto. rewrite Hcs; auto. unfold field in *. rewrite B1, B2, <- Ewt, <- Eht; auto.
Qed.

Lemma C98_minimal_proof : forall co ord w h sol s, 1 <= w -> 1 <= h -> create_admissible co ->
  (forall k p l, Permutation (ord k p l) l) -> create_solution co (w, h) = Ok sol ->
  wf s -> box_size s = (w, h) -> (forall p, field s p -> cand s p = []) ->
  solution s (num sol) -> unique_solution s ->
  (forall p t, field s p -> num s p <> 0 -> setitem s (fst p) (snd p) 0 = Ok t -> ~ unique_solution t) ->
  exists sh, (forall l, Permutation (sh l) l) /\
    generate {| go_create := co; go_shuffle := sh; go_ord := ord |} 0 SymNone (w, h) = Ok s.
Proof.
  intros co ord w h sol s Hw Hh Hco Hord Esol W B Hc [_ Hext] HU Hmin.
  apply (C98_proof co ord 0 SymNone w h sol s); auto; [nia|discriminate|].
  assert (HB : box_size sol = (w, h)).
  { destruct Hco as [H1 H2]. destruct (C28_proof co w h Hw Hh H1 H2) as [sol' [E1' [_ [Bs _]]]]. congruence. }
  unfold puzzle_of. rewrite HB. split; [auto|]. split; [auto|]. split; [auto|]. split; [auto|].
  split; [intros m p []|]. split; [auto|].
  split; [exists (nfilled s); split; [apply count_nfilled; auto | unfold nfilled, py_len; lia]|].
  left. intros [r c] t Fp Hz [Wt [Bt [T1 T2]]] HUt.
  apply (Hmin (r, c) (pset s (r, c) 0) Fp Hz); [apply setitem_ok; auto|].
  apply ugiven_unique. pose proof (proj1 (ugiven_unique t) HUt) as HU'.
  unfold box_size in Bt, B; injection Bt as B1 B2. injection B as B3 B4.
  rewrite B1, B2 in HU'.
  change (ugiven (box_width s) (box_height s) (num (pset s (r, c) 0))). eapply ugiven_ext; [|apply HU'].
  intros q Fq. rewrite num_pset by auto. destruct (coord_eqb q (r, c)) eqn:Eq.
  - apply coord_eqb_eq in Eq. apply T1; auto. apply C32_none_proof; auto.
  - apply T2; auto. rewrite C32_none_proof. intros ->. rewrite coord_eqb_refl in Eq. discriminate.
Qed.
