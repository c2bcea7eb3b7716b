(** generate and generate_from_template (C29-C34). *)
From Verif Require Export LCreate SpecGen.

(** * Symmetry classes *)
Lemma sym_list : forall y f w h r c q, symmetry_func y = Ok f ->
  (In q (f w h r c) <-> sym_class (w * h) y (r, c) q).
Proof.
  intros y f w h r c q E. split.
  - assert (R := class_refl (w * h) y (r, c)).
    assert (ST := class_step (w * h) y (r, c)).
    destruct y; inv E; cbn [In]; intros H.
    + destruct H as [<-|[]]; auto.
    + set (m := fun p : coord => (snd p, w * h - 1 - fst p)).
      assert (S1 := ST _ m R (or_introl eq_refl)). assert (S2 := ST _ m S1 (or_introl eq_refl)).
      assert (S3 := ST _ m S2 (or_introl eq_refl)).
      unfold m in S1, S2, S3; cbn [fst snd] in S1, S2, S3.
      replace (w * h - 1 - (w * h - 1 - r)) with r in S3 by lia.
      destruct H as [<-|[<-|[<-|[<-|[]]]]]; auto.
    + set (m := fun p : coord => (w * h - 1 - fst p, w * h - 1 - snd p)).
      assert (S1 := ST _ m R (or_introl eq_refl)).
      destruct H as [<-|[<-|[]]]; auto.
    + set (m := fun p : coord => (w * h - 1 - fst p, snd p)).
      assert (S1 := ST _ m R (or_introl eq_refl)).
      destruct H as [<-|[<-|[]]]; auto.
    + set (m := fun p : coord => (fst p, w * h - 1 - snd p)).
      assert (S1 := ST _ m R (or_introl eq_refl)).
      destruct H as [<-|[<-|[]]]; auto.
    + set (m := fun p : coord => (w * h - 1 - fst p, snd p)).
      set (m' := fun p : coord => (fst p, w * h - 1 - snd p)).
      assert (S1 := ST _ m R (or_introl eq_refl)). assert (S2 := ST _ m' R (or_intror (or_introl eq_refl))).
      assert (S3 := ST _ m' S1 (or_intror (or_introl eq_refl))).
      destruct H as [<-|[<-|[<-|[<-|[]]]]]; auto.
  - induction 1 as [|q m H IH Hm].
    + destruct y; inv E; left; auto.
    + destruct y; inv E; cbn [sym_maps In] in Hm; cbn [In] in *;
      repeat match goal with
      | H : _ \/ _ |- _ => destruct H
      | H : False |- _ => destruct H
      end; subst; cbn [fst snd];
      repeat match goal with |- context [w * h - 1 - (w * h - 1 - ?x)] =>
        replace (w * h - 1 - (w * h - 1 - x)) with x by lia end; tauto.
Qed.

Lemma class_cell : forall w h y p q, cell w h p -> sym_class (w * h) y p q -> cell w h q.
Proof.
  intros w h y p q F H; induction H as [|q m H IH Hm]; auto.
  destruct IH as [H1 H2]. destruct y; cbn [sym_maps In] in Hm;
  repeat match goal with
      | H : _ \/ _ |- _ => destruct H
      | H : False |- _ => destruct H
  end; subst; split; cbn [fst snd]; lia.
Qed.

Lemma class_trans : forall n y p q r, sym_class n y p q -> sym_class n y q r -> sym_class n y p r.
Proof. intros n y p q r H1 H2; induction H2; auto. constructor; auto. Qed.

Lemma class_sym : forall n y p q, sym_class n y p q -> sym_class n y q p.
Proof.
  intros n y p q H; induction H as [|q m H IH Hm]; [constructor|].
  apply (class_trans n y _ q); auto. clear p H IH.
  assert (R := class_refl n y (m q)). assert (ST := class_step n y (m q)).
  destruct q as [a b].
  destruct y; cbn [sym_maps In] in Hm; repeat match goal with
      | H : _ \/ _ |- _ => destruct H
      | H : False |- _ => destruct H
  end; subst; cbn [fst snd] in *;
  try (pose proof (ST _ _ R (or_introl eq_refl)) as S1; cbn [fst snd] in S1;
       replace (n - 1 - (n - 1 - a)) with a in S1 by lia;
       replace (n - 1 - (n - 1 - b)) with b in S1 by lia; exact S1).
  - pose proof (ST _ _ R (or_introl eq_refl)) as S1; cbn [fst snd] in S1.
    pose proof (ST _ _ S1 (or_introl eq_refl)) as S2; cbn [fst snd] in S2.
    pose proof (ST _ _ S2 (or_introl eq_refl)) as S3; cbn [fst snd] in S3.
    replace (n - 1 - (n - 1 - a)) with a in S3 by lia.
    replace (n - 1 - (n - 1 - b)) with b in S3 by lia. exact S3.
  - pose proof (ST _ _ R (or_intror (or_introl eq_refl))) as S1; cbn [fst snd] in S1.
    replace (n - 1 - (n - 1 - b)) with b in S1 by lia. exact S1.
Qed.

(** * Uniqueness of partial grids *)
Definition agrees (w h : Z) (g f : grid) : Prop := forall p, cell w h p -> g p = 0 \/ g p = f p.
Definition ugiven (w h : Z) (g : grid) : Prop :=
  exists f, (valid_grid w h f /\ agrees w h g f) /\
    forall f', valid_grid w h f' /\ agrees w h g f' -> same_grid w h f' f.

Lemma ugiven_unique : forall s, unique_solution s <-> ugiven (box_width s) (box_height s) (num s).
Proof. intros s; reflexivity. Qed.

Lemma ugiven_mono : forall w h g g' sol, valid_grid w h sol -> agrees w h g sol ->
  (forall p, cell w h p -> g' p = 0 \/ g' p = g p) -> ugiven w h g' -> ugiven w h g.
Proof.
  intros w h g g' sol V A H [f [[Vf Af] Hf]].
  assert (Hag : forall f', agrees w h g f' -> agrees w h g' f').
  { intros f' A' p Hp. destruct (H p Hp) as [E|E]; auto. rewrite E; apply A'; auto. }
  exists sol; split; [split; auto|]. intros f' [V' A'] p Hp.
  rewrite (Hf f') by auto. symmetry; apply Hf; auto.
Qed.

Lemma ugiven_ext : forall w h g g', (forall p, cell w h p -> g p = g' p) -> ugiven w h g -> ugiven w h g'.
Proof.
  intros w h g g' H [f [[V A] Hf]].
  exists f; split; [split; auto|].
  - intros p Hp. rewrite <- H by auto. apply A; auto.
  - intros f' [V' A']. apply Hf; split; auto. intros p Hp. rewrite H by auto. apply A'; auto.
Qed.

(** Not unique although solvable: two different solutions. *)
Lemma two_solutions : forall s, wf s -> (exists f, solution s f) -> ~ unique_solution s ->
  exists f g p, solution s f /\ solution s g /\ field s p /\ f p <> g p.
Proof.
  intros s W [f Sf] Hu. destruct (C23_proof (fun _ l => l) s (fun _ _ => Permutation_refl _) W) as [_ [H1 [H2 H3]]].
  destruct (gyields (dlx (fun _ l => l) s) tt) as [|y [|z ys]].
  - destruct (H2 f Sf) as [? [[] _]].
  - exfalso; apply Hu. destruct (H1 y) as [Wy [By Sy]]; [left; auto|].
    exists (num y); split; auto. intros g Sg p Fp. destruct (H2 g Sg) as [y' [[<-|[]] Sh]].
    symmetry; apply Sh. unfold box_size in By; injection By as B1 B2. unfold field; rewrite B1, B2; auto.
  - inversion H3 as [|? ? HF _]; subst. rewrite Forall_forall in HF.
    destruct (HF z) as [p [Fp Hne]]; [left; auto|].
    exists (num y), (num z), p. splits; auto; apply H1; simpl; auto.
Qed.

(** * Loops of generate *)
Lemma list_remove_filter : forall (x : coord) l t, NoDup l -> list_remove coord_eqb x l = Ok t ->
  t = filter (fun q => negb (coord_eqb q x)) l.
Proof.
  intros x; induction l as [|a l IH]; intros t ND E; cbn [list_remove] in E; [discriminate|].
  inv ND. cbn [filter]. replace (coord_eqb a x) with (coord_eqb x a) by (apply eq_true_iff_eq; rewrite !coord_eqb_eq; split; congruence). destruct (coord_eqb x a) eqn:Ex.
  - injection E as <-. apply coord_eqb_eq in Ex; subst a. cbn [negb].
    assert (G : forall l', ~ In x l' -> filter (fun q => negb (coord_eqb q x)) l' = l').
    { induction l' as [|b l' IH']; intros Hn; auto. cbn [filter].
      destruct (coord_eqb b x) eqn:Eb; [apply coord_eqb_eq in Eb; subst; exfalso; apply Hn; left; auto|].
      cbn [negb]. f_equal. apply IH'. intros Hx; apply Hn; right; auto. }
    symmetry; apply G; auto.
  - destruct (list_remove coord_eqb x l) as [t'|] eqn:Et; cbn [rbind] in E; [|discriminate].
    injection E as <-. cbn [negb]. f_equal. apply IH; auto.
Qed.

Lemma remove_all : forall (l cs : list coord), NoDup l -> NoDup cs -> incl l cs ->
  exists cs', foldM (fun cs rc => list_remove coord_eqb rc cs) l cs = Ok cs' /\ NoDup cs' /\
    (forall q, In q cs' <-> In q cs /\ ~ In q l) /\
    cs' = filter (fun q => negb (existsb (coord_eqb q) l)) cs.
Proof.
  induction l as [|x l IH]; intros cs NDl ND Hi; cbn [foldM].
  - exists cs; splits; auto; [simpl; tauto|]. cbn [existsb negb].
    clear. induction cs as [|a cs IH]; auto. cbn [filter]. f_equal; auto.
  - inv NDl. destruct (list_remove_nodup x cs) as [t [E [NDt Ht]]]; auto; [apply Hi; left; auto|].
    rewrite E. cbn [rbind]. destruct (IH t) as [cs' [E' [ND' [H' Hf']]]]; auto.
    { intros q Hq. apply Ht. split; [apply Hi; right; auto|]. intros ->; contradiction. }
    exists cs'; splits; auto; [intros q; rewrite H', Ht; simpl; intuition congruence|].
    rewrite Hf', (list_remove_filter x cs t ND E). clear.
    induction cs as [|a cs IH]; auto. cbn [filter existsb].
    destruct (coord_eqb a x); cbn [negb orb]; auto. cbn [filter].
    destruct (existsb (coord_eqb a) l); cbn [negb]; auto. f_equal; auto.
Qed.

Lemma write_all : forall (val : coord -> res Z) (v : coord -> Z) (d : Z) (l : list coord) s cnt,
  wf s -> (forall q, In q l -> field s q) -> (forall q, In q l -> val q = Ok (v q)) ->
  exists s', foldM (fun '(s, count) rc =>
                      let* x := val rc in
                      let* s := setitem s (fst rc) (snd rc) x in
                      Ok (s, count + d)) l (s, cnt) = Ok (s', cnt + d * py_len l) /\
    wf s' /\ box_width s' = box_width s /\ box_height s' = box_height s /\
    (forall q, field s q -> num s' q = if existsb (coord_eqb q) l then v q else num s q) /\
    (forall q, cand s' q = cand s q).
Proof.
  intros val v d; induction l as [|[i j] l IH]; intros s cnt W Hl Hv; cbn [foldM].
  - exists s. cbn [py_len length]. replace (cnt + d * py_len (@nil coord)) with cnt by (unfold py_len; cbn; lia). splits; auto.
  - rewrite Hv by (left; auto). cbn [rbind fst snd].
    assert (F : field s (i, j)) by (apply Hl; left; auto).
    rewrite setitem_ok by auto. cbn [rbind].
    destruct (IH (pset s (i, j) (v (i, j))) (cnt + d)) as [s' [E [W' [Ew [Eh [Hn Hc]]]]]].
    { apply pset_wf; auto. }
    { intros q Hq. apply pset_field. apply Hl; right; auto. }
    { intros; apply Hv; right; auto. }
    exists s'. split; [etransitivity; [exact E|]; do 2 f_equal; unfold py_len; cbn [length]; lia|].
    splits; auto. intros q Fq. rewrite Hn by (apply pset_field; auto). cbn [existsb].
    rewrite num_pset by auto.
    destruct (existsb (coord_eqb q) l); [rewrite orb_true_r; auto|]. rewrite orb_false_r.
    destruct (coord_eqb q (i, j)) eqn:Eq; auto. apply coord_eqb_eq in Eq; subst; auto.
Qed.

Section Loop.
Variables (w h : Z) (y : symmetry) (f : Z -> Z -> Z -> Z -> list coord) (sol : sudoku) (min_count : Z).
Variable o : generate_oracle.
Hypothesis Hw : 1 <= w.
Hypothesis Hh : 1 <= h.
Hypothesis Hf : symmetry_func y = Ok f.
Hypothesis Wsol : wf sol.
Hypothesis Bsol : box_size sol = (w, h).
Hypothesis Vsol : valid_grid w h (num sol).
Hypothesis Ho : forall k p l, Permutation (go_ord o k p l) l.

Let N := w * h.
Definition inclass (p q : coord) : bool := existsb (coord_eqb q) (f w h (fst p) (snd p)).
Lemma inclass_iff : forall p q, inclass p q = true <-> sym_class N y p q.
Proof.
  intros [r c] q. unfold inclass, N. cbn [fst snd]. rewrite <- (sym_list y f w h r c q Hf).
  rewrite existsb_exists. split.
  - intros [x [Hx E]]. apply coord_eqb_eq in E; subst; auto.
  - intros H; exists q; split; auto. apply coord_eqb_refl.
Qed.

(** grid [g] without the class of [p] *)
Definition minus (g : grid) (p : coord) : grid := fun q => if inclass p q then 0 else g q.

Definition nfilled (s : sudoku) : Z := py_len (filter (fun p => negb (num s p =? 0)) (coords s)).

Definition good (s : sudoku) : Prop :=
  wf s /\ box_width s = w /\ box_height s = h /\
  (forall p, cell w h p -> num s p = 0 \/ num s p = num sol p) /\
  unique_solution s /\
  min_count <= nfilled s /\
  (forall p q, cell w h p -> sym_class N y p q -> (num s p = 0 <-> num s q = 0)) /\
  (forall p, field s p -> cand s p = []).

Definition minimal_outside (s : sudoku) (cs : list coord) : Prop :=
  forall p, cell w h p -> ~ In p cs -> num s p <> 0 -> ~ ugiven w h (minus (num s) p).

Definition LI (cs : list coord) (cnt : Z) (s : sudoku) : Prop :=
  good s /\ cnt = nfilled s /\ NoDup cs /\
  (forall p, In p cs -> cell w h p /\ num s p <> 0) /\
  (forall p q, In p cs -> sym_class N y p q -> In q cs) /\
  minimal_outside s cs.

Lemma sol_nz : forall p, cell w h p -> num sol p <> 0.
Proof. intros p Hp. destruct Vsol as [V _]. specialize (V p Hp). lia. Qed.

(** One iteration. *)
Lemma loop_step : forall fuel k c0 cs0 cs cnt s, cs = c0 :: cs0 -> LI cs cnt s ->
  exists cs' s1,
    cs' = filter (fun q => negb (inclass c0 q)) cs /\ (length cs' < length cs)%nat /\
    wf s1 /\ box_width s1 = w /\ box_height s1 = h /\
    (forall q, cell w h q -> num s1 q = minus (num s) c0 q) /\
    ((nfilled s1 < min_count /\ generate_loop (S fuel) o k f min_count sol cs cnt s = Ok s) \/
     (min_count <= nfilled s1 /\ ugiven w h (minus (num s) c0) /\
      generate_loop (S fuel) o k f min_count sol cs cnt s =
        generate_loop fuel o (S k) f min_count sol cs' (nfilled s1) s1 /\ LI cs' (nfilled s1) s1) \/
     (min_count <= nfilled s1 /\ ~ ugiven w h (minus (num s) c0) /\
      generate_loop (S fuel) o k f min_count sol cs cnt s =
        generate_loop fuel o (S k) f min_count sol cs' cnt s /\ LI cs' cnt s)).
Proof.
  intros fuel k c0 cs0 cs cnt s Ecs HL.
  assert (Hc0 : In c0 cs) by (rewrite Ecs; left; auto).
  destruct HL as [HG [Hcnt [ND [Hcs [Hcl HM]]]]]. pose proof HG as [W [Ew [Eh [Hs [HU [Hmin [Hsym Hcand]]]]]]].
  assert (Fc : forall q, field s q <-> cell w h q) by (intros; unfold field; rewrite Ew, Eh; tauto).
  assert (Fsol : forall q, field sol q <-> cell w h q).
  { intros. unfold box_size in Bsol; injection Bsol as B1 B2. unfold field; rewrite B1, B2; tauto. }
  replace (generate_loop (S fuel) o k f min_count sol cs cnt s) with
    (let step_coords := sof_list coord_cmp (f (box_width s) (box_height s) (fst c0) (snd c0)) in
          let* coords := foldM (fun coords rc => list_remove coord_eqb rc coords)
                               step_coords cs in
          if cnt - py_len step_coords <? min_count then Ok s
          else
            let* (s, count) := foldM (fun '(s, count) rc =>
                                        let* s := setitem s (fst rc) (snd rc) 0 in
                                        Ok (s, count - 1))
                                     step_coords (s, cnt) in
            let* u := is_unique (go_ord o k) s in
            let* (s, count) :=
              if negb u then
                foldM (fun '(s, count) rc =>
                         let* v := getitem sol (fst rc) (snd rc) in
                         let* s := setitem s (fst rc) (snd rc) v in
                         Ok (s, count + 1))
                      step_coords (s, count)
              else Ok (s, count) in
            generate_loop fuel o (S k) f min_count sol coords count s)
    by (rewrite Ecs; reflexivity).
  cbv zeta. rewrite Ew, Eh.
  set (st := sof_list coord_cmp (f w h (fst c0) (snd c0))).
  assert (Hst : forall q, In q st <-> sym_class N y c0 q).
  { intros q. unfold st. rewrite (In_sof_list _ coord_cmp_good). rewrite (sym_list y f w h _ _ q Hf).
    rewrite <- surjective_pairing. tauto. }
  assert (NDst : NoDup st) by (apply (sset_NoDup _ coord_cmp_good), (sof_list_sset _ coord_cmp_good)).
  assert (Ist : incl st cs) by (intros q Hq; apply (Hcl c0); auto; apply Hst; auto).
  destruct (remove_all st cs NDst ND Ist) as [cs' [E' [ND' [Hcs' Hfil]]]]. rewrite E'. cbn [rbind].
  assert (Cst : forall q, In q st -> cell w h q) by (intros q Hq; apply Hcs, Ist; auto).
  (* the filled fields without the class *)
  assert (Hcount : forall s1, (forall q, field s q -> num s1 q = if existsb (coord_eqb q) st then 0 else num s q) ->
     box_width s1 = w -> box_height s1 = h -> nfilled s = nfilled s1 + py_len st).
  { intros s1 Hn1 Ew1 Eh1. unfold nfilled, py_len. rewrite <- Nat2Z.inj_add. f_equal.
    rewrite Nat.add_comm, <- app_length. apply Permutation_length. apply NoDup_Permutation.
    - apply NoDup_filter, NoDup_coords.
    - apply NoDup_app_iff; splits; auto; [apply NoDup_filter, NoDup_coords|].
      intros q Hq Hq'. apply filter_In in Hq'. destruct Hq' as [_ Hq'].
      rewrite Hn1 in Hq' by (apply Fc; auto).
      rewrite (proj2 (existsb_exists _ _)) in Hq'; [discriminate|]. exists q; split; auto. apply coord_eqb_refl.
    - intros q. rewrite in_app_iff, !filter_In, !in_coords.
      assert (F1 : field s1 q <-> field s q) by (unfold field; rewrite Ew, Eh, Ew1, Eh1; tauto).
      rewrite F1. split.
      + intros [Fq Hq]. destruct (existsb (coord_eqb q) st) eqn:Ex.
        * left. apply existsb_exists in Ex. destruct Ex as [x [Hx Ex]]. apply coord_eqb_eq in Ex; subst; auto.
        * right; split; auto. rewrite Hn1, Ex; auto.
      + intros [Hq|[Fq Hq]].
        * split; [apply Fc; auto|]. apply negb_true_iff, Z.eqb_neq. apply Hcs; auto.
        * split; auto. rewrite Hn1 in Hq by auto. destruct (existsb _ st); auto. discriminate. }
  (* clearing *)
  destruct (write_all (fun _ => Ok 0) (fun _ => 0) (-1) st s cnt W) as [s1 [E1 [W1 [Ew1 [Eh1 [Hn1 Hc1]]]]]]; auto.
  { intros q Hq. apply Fc; auto. }
  rewrite Ew in Ew1. rewrite Eh in Eh1.
  pose proof (Hcount s1 Hn1 Ew1 Eh1) as Hnf.
  assert (Hn1' : forall q, cell w h q -> num s1 q = minus (num s) c0 q).
  { intros q Hq. rewrite Hn1 by (apply Fc; auto). unfold minus.
    replace (existsb (coord_eqb q) st) with (inclass c0 q); auto.
    apply eq_true_iff_eq. rewrite inclass_iff, <- Hst, existsb_exists. split.
    - intros Hi; exists q; split; auto. apply coord_eqb_refl.
    - intros [x [Hx Ex]]. apply coord_eqb_eq in Ex; subst; auto. }
  assert (Hib : forall q, existsb (coord_eqb q) st = inclass c0 q).
  { intros q. apply eq_true_iff_eq. rewrite inclass_iff, <- Hst, existsb_exists. split.
    - intros [x [Hx Ex]]. apply coord_eqb_eq in Ex; subst; auto.
    - intros Hi; exists q; split; auto. apply coord_eqb_refl. }
  assert (Hlen' : (length cs' < length cs)%nat).
  { assert (Hle : (length (c0 :: cs') <= length cs)%nat).
    { apply NoDup_incl_length.
      - constructor; auto. rewrite Hcs'. intros [_ Hx]. apply Hx. apply Hst. constructor.
      - intros q [<-|Hq]; auto. apply Hcs' in Hq; tauto. }
    cbn [length] in Hle. lia. }
  assert (Hfil' : cs' = filter (fun q => negb (inclass c0 q)) cs).
  { rewrite Hfil. apply filter_ext. intros q. f_equal. apply Hib. }
  destruct (cnt - py_len st <? min_count) eqn:Eb.
  { b2p. exists cs', s1. splits; auto. left; split; auto; lia. }
  b2p.
  match goal with |- context [foldM ?F st (s, cnt)] =>
    replace (foldM F st (s, cnt)) with (Ok (s1, cnt + -1 * py_len st)) by (symmetry; exact E1) end.
  cbn [rbind].
  destruct (C27_proof (go_ord o k) s1 (Ho k) W1) as [u [Eu Hu]]. rewrite Eu. cbn [rbind].
  assert (Hcl' : forall p q, In p cs' -> sym_class N y p q -> In q cs').
  { intros p q Hp Hpq. apply Hcs' in Hp. destruct Hp as [Hp Hnp]. apply Hcs'. split; [eapply Hcl; eauto|].
    intros Hq. apply Hnp. apply Hst. apply Hst in Hq. eapply class_trans; [apply Hq | apply class_sym; auto]. }
  assert (Asol : agrees w h (num s) (num sol)) by (intros p Hp; auto).
  destruct u; cbn [negb].
  - (* still unique: keep the change *)
    cbn [rbind]. exists cs', s1. splits; auto. right; left.
    assert (HUm : ugiven w h (minus (num s) c0)).
    { assert (Hu1 : ugiven (box_width s1) (box_height s1) (num s1)) by (apply ugiven_unique, Hu; auto). rewrite Ew1, Eh1 in Hu1.
      eapply ugiven_ext; [|apply Hu1]. auto. }
    split; [lia|]. split; [auto|].
    replace (cnt + -1 * py_len st) with (nfilled s1) by lia. split; [reflexivity|].
    unfold LI; splits; auto.
    + unfold good; splits; auto.
      * intros p Hp. rewrite Hn1' by auto. unfold minus. destruct (inclass c0 p); auto.
      * apply Hu; auto.
      * lia.
      * intros p q Hp Hpq. assert (Hq : cell w h q) by (eapply class_cell; eauto).
        rewrite !Hn1' by auto. unfold minus.
        replace (inclass c0 q) with (inclass c0 p); [destruct (inclass c0 p); [tauto | apply Hsym; auto]|].
        apply eq_true_iff_eq. rewrite !inclass_iff. split; intros Hx; eapply class_trans; eauto. apply class_sym; auto.
      * intros p Fp. rewrite Hc1. apply Hcand. apply Fc. unfold field in Fp. rewrite Ew1, Eh1 in Fp; auto.
    + intros p Hp. apply Hcs' in Hp. destruct Hp as [Hp Hnp]. destruct (Hcs p Hp) as [Hc Hz]. split; auto.
      rewrite Hn1' by auto. unfold minus. destruct (inclass c0 p) eqn:Ei; auto.
      apply inclass_iff in Ei. apply Hst in Ei; contradiction.
    + intros p Hp Hnp Hz HUg. rewrite Hn1' in Hz by auto. unfold minus in Hz.
      destruct (inclass c0 p) eqn:Ei; [congruence|].
      apply (HM p); auto.
      { intros Hin. apply Hnp, Hcs'. split; auto. intros Hx. apply Hst, inclass_iff in Hx. congruence. }
      eapply ugiven_mono; [apply Vsol | | |apply HUg].
      * intros q Hq. unfold minus. destruct (inclass p q); auto.
      * intros q Hq. unfold minus. destruct (inclass p q); auto. rewrite Hn1' by auto.
        unfold minus. destruct (inclass c0 q); auto.
  - (* not unique: revert *)
    destruct (write_all (fun rc => getitem sol (fst rc) (snd rc)) (num sol) 1 st s1 (cnt + -1 * py_len st) W1)
      as [s2 [E2 [W2 [Ew2 [Eh2 [Hn2 Hc2]]]]]].
    { intros q Hq. unfold field; rewrite Ew1, Eh1; auto. }
    { intros [a b] Hq. apply getitem_ok; auto. apply Fsol; auto. }
    assert (Es : s2 = s).
    { apply sudoku_ext; auto; try congruence.
      - intros q Fq. assert (Hq : cell w h q).
        { unfold field in Fq. rewrite Ew2, Eh2, Ew1, Eh1 in Fq; auto. }
        rewrite Hn2 by (unfold field; rewrite Ew1, Eh1; auto). rewrite Hn1 by (apply Fc; auto).
        destruct (existsb (coord_eqb q) st) eqn:Ex; auto.
        apply existsb_exists in Ex. destruct Ex as [x [Hx Ex]]. apply coord_eqb_eq in Ex; subst x.
        destruct (Hs q Hq) as [E0|E0]; auto. exfalso. apply (proj2 (Hcs q (Ist q Hx))); auto.
      }
    match goal with |- context [foldM ?F st (s1, ?c)] =>
      replace (foldM F st (s1, c)) with (Ok (s2, cnt + -1 * py_len st + 1 * py_len st)) by (symmetry; exact E2) end.
    cbn [rbind]. rewrite Es. replace (cnt + -1 * py_len st + 1 * py_len st) with cnt by lia.
    exists cs', s1. splits; auto. right; right.
    assert (HUm : ~ ugiven w h (minus (num s) c0)).
    { intros HUg. assert (Hx : false = true); [|discriminate]. apply Hu. apply ugiven_unique.
      rewrite Ew1, Eh1. eapply ugiven_ext; [|apply HUg]. intros q Hq. rewrite Hn1' by auto. auto. }
    split; [lia|]. split; [auto|]. split; [reflexivity|].
    unfold LI; splits; auto.
    + intros p Hp. apply Hcs' in Hp. apply Hcs; tauto.
    + intros p Hp Hnp Hz. destruct (in_dec coord_eq_dec p cs) as [Hin|Hin]; [|apply HM; auto].
      assert (Hp0 : sym_class N y c0 p).
      { apply Hst. destruct (in_dec coord_eq_dec p st) as [|Hx]; auto. exfalso; apply Hnp, Hcs'; auto. }
      intros HUg. assert (Hx : false = true); [|discriminate]. apply Hu. apply ugiven_unique.
      rewrite Ew1, Eh1. eapply ugiven_ext; [|apply HUg]. intros q Hq. rewrite Hn1' by auto. unfold minus.
      replace (inclass p q) with (inclass c0 q); auto.
      apply eq_true_iff_eq. rewrite !inclass_iff. split; intros Hx; eapply class_trans; eauto. apply class_sym; auto.
Qed.

(** The class that ends the loop: without it there are too few numbers. *)
Definition small_class (s : sudoku) (c : coord) : Prop :=
  cell w h c /\ num s c <> 0 /\
  exists t, wf t /\ box_width t = w /\ box_height t = h /\
    (forall q, cell w h q -> num t q = minus (num s) c q) /\ nfilled t < min_count.

Lemma loop_ok' : forall fuel k cs cnt s, (length cs < fuel)%nat -> LI cs cnt s ->
  exists t, generate_loop fuel o k f min_count sol cs cnt s = Ok t /\ good t /\
    (minimal_outside t [] \/ exists c, small_class t c).
Proof.
  induction fuel as [|fuel IH]; intros k cs cnt s Hlen HL; [lia|].
  destruct cs as [|c0 cs0] eqn:Ecs.
  { exists s. cbn. destruct HL as [HG [_ [_ [_ [_ HM]]]]]. splits; auto. }
  destruct (loop_step fuel k c0 cs0 cs cnt s Ecs) as [cs' [s1 [_ [Hl [W1 [Ew1 [Eh1 [Hn1 HC]]]]]]]]; [subst; auto|].
  rewrite <- Ecs in *. destruct HC as [[Hs E]|[[_ [_ [E HL']]]|[_ [_ [E HL']]]]].
  - exists s. destruct HL as [HG [_ [_ [Hcs _]]]]. splits; auto. right; exists c0.
    destruct (Hcs c0) as [Hc Hz]; [rewrite Ecs; left; auto|].
    split; [auto|]. split; [auto|]. exists s1; splits; auto.
  - rewrite E. apply IH; auto. lia.
  - rewrite E. apply IH; auto. lia.
Qed.

Lemma loop_ok : forall fuel k cs cnt s, (length cs < fuel)%nat -> LI cs cnt s ->
  exists t, generate_loop fuel o k f min_count sol cs cnt s = Ok t /\ good t /\
    (min_count <= 0 -> minimal_outside t []).
Proof.
  intros fuel k cs cnt s Hl HL. destruct (loop_ok' fuel k cs cnt s Hl HL) as [t [E [G H]]].
  exists t; splits; auto. intros Hm. destruct H as [H|[c [_ [_ [t' [_ [_ [_ [_ H]]]]]]]]]; auto.
  unfold nfilled, py_len in H. lia.
Qed.
End Loop.

(** * generate *)
Lemma generate_init : forall o min_count y w h f sol, 1 <= w -> 1 <= h -> generate_admissible o ->
  min_count <= w ^ 2 * h ^ 2 -> symmetry_func y = Ok f -> create_solution (go_create o) (w, h) = Ok sol ->
  wf sol /\ box_size sol = (w, h) /\ valid_grid w h (num sol) /\
  exists s, let cs := go_shuffle o (coords s) in
    box_width s = w /\ box_height s = h /\ (forall p, cell w h p -> num s p = num sol p) /\
    generate o min_count y (w, h) = generate_loop (S (length cs)) o 0 f min_count sol cs (sudoku_len s) s /\
    LI w h y f sol min_count cs (sudoku_len s) s /\ copy sol false = Ok s.
Proof.
  intros o m y w h f sol Hw Hh [[Hs1 Hs2] [Hs3 Ho]] Hm Ef E1. unfold generate. cbn [fst snd].
  replace (w ^ 2 * h ^ 2 <? m) with false by (symmetry; apply Z.ltb_ge; auto).
  destruct (C28_proof (go_create o) w h Hw Hh Hs1 Hs2) as [sol' [E1' [Ws [Bs [_ [V _]]]]]].
  rewrite E1 in E1'; injection E1' as <-. split; [auto|]. split; [auto|]. split; [auto|].
  destruct (copy_ok sol false Ws) as [s [E2 [W [Ew [Eh [Hn Hc]]]]]]. rewrite Ef, E1. cbn [rbind].
  rewrite E2. cbn [rbind]. cbv zeta.
  pose proof Bs as Bs'. unfold box_size in Bs'; injection Bs' as B1 B2. rewrite B1 in Ew. rewrite B2 in Eh.
  assert (Fs : forall q, field s q <-> cell w h q) by (intros; unfold field; rewrite Ew, Eh; tauto).
  assert (Fsol : forall q, field sol q <-> cell w h q) by (intros; unfold field; rewrite B1, B2; tauto).
  set (cs := go_shuffle o (coords s)). assert (Pc : Permutation cs (coords s)) by apply Hs3.
  assert (Hnz : forall p, cell w h p -> num s p <> 0).
  { intros p Hp. rewrite Hn by (apply Fsol; auto). eapply sol_nz; eauto. }
  assert (Hfull : nfilled s = w ^ 2 * h ^ 2).
  { unfold nfilled, py_len. replace (filter (fun p => negb (num s p =? 0)) (coords s)) with (coords s).
    - rewrite length_coords, Ew, Eh. rewrite !Z.pow_2_r, Nat2Z.inj_mul, !Z2Nat.id; nia.
    - assert (G : forall l, (forall p, In p l -> num s p <> 0) -> filter (fun p => negb (num s p =? 0)) l = l).
      { induction l as [|a l IH]; intros Hl; auto. cbn [filter].
        rewrite (proj2 (Z.eqb_neq _ _)) by (apply Hl; left; auto). cbn [negb]. f_equal. apply IH.
        intros; apply Hl; right; auto. }
      symmetry; apply G. intros p Hp. apply Hnz, Fs, in_coords; auto. }
  exists s. cbv zeta. fold cs. split; [auto|]. split; [auto|].
  split; [intros p Hp; apply Hn, Fsol; auto|]. split; [reflexivity|].
  split; [|auto].
  unfold LI; splits.
  - unfold good; splits; auto.
    + intros p Hp. right. apply Hn, Fsol; auto.
    + apply ugiven_unique. rewrite Ew, Eh. exists (num sol); split; [split; auto|].
      * intros p Hp. right. apply Hn, Fsol; auto.
      * intros f' [V' A'] p Hp. destruct (A' p Hp) as [E|E].
        -- exfalso; eapply Hnz; eauto.
        -- rewrite <- E. apply Hn, Fsol; auto.
    + lia.
    + intros p q Hp Hpq. assert (Hq : cell w h q) by (eapply class_cell; eauto).
        split; intros E; exfalso; [apply (Hnz p)|apply (Hnz q)]; auto.
    + intros p Fp. apply Hc. apply Fsol, Fs; auto.
  - unfold sudoku_len. rewrite Ew, Eh; auto.
  - eapply Permutation_NoDup; [symmetry; apply Pc | apply NoDup_coords].
  - intros p Hp. assert (Fp : cell w h p) by (apply Fs, in_coords; eapply Permutation_in; eauto). auto.
  - intros p q Hp Hpq. assert (Fp : cell w h p) by (apply Fs, in_coords; eapply Permutation_in; eauto).
      eapply Permutation_in; [symmetry; apply Pc|]. apply in_coords, Fs. eapply class_cell; eauto.
  - intros p Hp Hnp _. exfalso; apply Hnp. eapply Permutation_in; [symmetry; apply Pc|]. apply in_coords, Fs; auto.
Qed.

Lemma generate_ok : forall o min_count y w h, 1 <= w -> 1 <= h -> generate_admissible o ->
  min_count <= w ^ 2 * h ^ 2 -> y <> SymOther ->
  exists f sol t, symmetry_func y = Ok f /\ generate o min_count y (w, h) = Ok t /\
    valid_grid w h (num sol) /\
    good w h y sol min_count t /\ (min_count <= 0 -> minimal_outside w h f t []).
Proof.
  intros o m y w h Hw Hh Ha Hm Hy. pose proof Ha as [[Hs1 Hs2] [Hs3 Ho]].
  destruct (symmetry_func y) as [f|e] eqn:Ef; [|destruct y; inv Ef; congruence].
  destruct (C28_proof (go_create o) w h Hw Hh Hs1 Hs2) as [sol [E1 _]].
  destruct (generate_init o m y w h f sol Hw Hh Ha Hm Ef E1) as [Ws [Bs [V [s [Ew [Eh [Hn [E [HL _]]]]]]]]].
  edestruct (loop_ok w h y f sol m o Ef Ws Bs V Ho) as [t [Et [Gt Mt]]]; [|apply HL|].
  - apply Nat.lt_succ_diag_r.
  - exists f, sol, t; splits; auto. rewrite E. exact Et.
Qed.

(** * The properties *)
Lemma C29_proof : forall o min_count y w h, 1 <= w -> 1 <= h -> generate_admissible o ->
  min_count <= w ^ 2 * h ^ 2 -> y <> SymOther ->
  exists s, generate o min_count y (w, h) = Ok s /\ wf s /\ box_size s = (w, h) /\ unique_solution s /\
    in_range s /\ conflict_free s /\ (forall p, field s p -> cand s p = []).
Proof.
  intros o m y w h Hw Hh Ha Hm Hy.
  destruct (generate_ok o m y w h Hw Hh Ha Hm Hy) as [f [sol [t [_ [E [[V1 V2] [G _]]]]]]].
  destruct G as [W [Ew [Eh [Hs [HU [_ [_ Hc]]]]]]].
  exists t; splits; auto; [unfold box_size; congruence| |].
  - intros p Fp. unfold field in Fp. rewrite Ew, Eh in *. specialize (V1 p Fp).
    destruct (Hs p Fp) as [E0|E0]; rewrite E0; nia.
  - intros p q Fp Fq P Hp. unfold field in Fp, Fq. rewrite Ew, Eh in *.
    destruct (Hs p Fp) as [E0|E0]; [contradiction|]. destruct (Hs q Fq) as [E1|E1]; [congruence|].
    rewrite E0, E1. apply V2; auto.
Qed.

Lemma C30_proof : forall o min_count y w h, 1 <= w -> 1 <= h -> generate_admissible o ->
  min_count <= w ^ 2 * h ^ 2 -> y <> SymOther ->
  exists s n, generate o min_count y (w, h) = Ok s /\ count s = Ok n /\ min_count <= n.
Proof.
  intros o m y w h Hw Hh Ha Hm Hy.
  destruct (generate_ok o m y w h Hw Hh Ha Hm Hy) as [f [sol [t [_ [E [_ [G _]]]]]]].
  destruct G as [W [Ew [Eh [Hs [HU [Hmin _]]]]]].
  exists t, (nfilled t); splits; auto. unfold count. rewrite glist_filled by auto. reflexivity.
Qed.

Lemma C31_proof : forall o min_count y w h, 1 <= w -> 1 <= h -> generate_admissible o ->
  min_count <= w ^ 2 * h ^ 2 -> y <> SymOther ->
  exists s, generate o min_count y (w, h) = Ok s /\
    forall m p, In m (sym_maps (w * h) y) -> field s p -> field s (m p) /\ (num s p = 0 <-> num s (m p) = 0).
Proof.
  intros o m y w h Hw Hh Ha Hm Hy.
  destruct (generate_ok o m y w h Hw Hh Ha Hm Hy) as [f [sol [t [_ [E [_ [G _]]]]]]].
  destruct G as [W [Ew [Eh [Hs [HU [_ [Hsym _]]]]]]].
  exists t; splits; auto. intros g p Hg Fp. unfold field in *. rewrite Ew, Eh in *.
  assert (Hc : sym_class (w * h) y p (g p)) by (constructor; auto; constructor).
  split; [eapply class_cell; eauto|]. apply Hsym; auto.
Qed.

Lemma C32_proof : forall o min_count y w h, 1 <= w -> 1 <= h -> generate_admissible o ->
  min_count <= 0 -> y <> SymOther ->
  exists s, generate o min_count y (w, h) = Ok s /\
    forall p t, field s p -> num s p <> 0 -> wf t -> box_size t = box_size s ->
      (forall q, field s q -> sym_class (w * h) y p q -> num t q = 0) ->
      (forall q, field s q -> ~ sym_class (w * h) y p q -> num t q = num s q) ->
      exists f g q, solution t f /\ solution t g /\ field t q /\ f q <> g q.
Proof.
  intros o m y w h Hw Hh Ha Hm Hy.
  assert (Hm' : m <= w ^ 2 * h ^ 2) by nia.
  destruct (generate_ok o m y w h Hw Hh Ha Hm' Hy) as [f [sol [s [Ef [E [V [G M]]]]]]].
  destruct G as [W [Ew [Eh [Hs [HU [_ [Hsym _]]]]]]].
  exists s; splits; auto. intros p t Fp Hz Wt Bt T1 T2.
  unfold box_size in Bt; injection Bt as B1 B2.
  assert (Hcell : forall q, cell w h q -> num t q = 0 \/ num t q = num s q).
  { intros q Hq. assert (Fq : field s q) by (unfold field; rewrite Ew, Eh; auto).
    destruct (inclass w h f p q) eqn:Ei.
    - left. apply T1; auto. apply (inclass_iff w h y f Ef); auto.
    - right. apply T2; auto. intros Hx. apply (inclass_iff w h y f Ef) in Hx. congruence. }
  apply two_solutions; auto.
  - exists (num sol). unfold solution, extends, field. rewrite B1, B2, Ew, Eh. split; auto.
    intros q Hq. destruct (Hcell q Hq) as [E0|E0]; auto. rewrite E0; auto.
  - intros HUt. unfold field in Fp. rewrite Ew, Eh in Fp. apply (M Hm p Fp); auto.
    change (ugiven (box_width t) (box_height t) (num t)) in HUt. rewrite B1, B2, Ew, Eh in HUt.
    eapply ugiven_ext; [|apply HUt]. intros q Hq. unfold minus.
    assert (Fq : field s q) by (unfold field; rewrite Ew, Eh; auto).
    destruct (inclass w h f p q) eqn:Ei.
    + apply T1; auto. apply (inclass_iff w h y f Ef); auto.
    + apply T2; auto. intros Hx. apply (inclass_iff w h y f Ef) in Hx. congruence.
Qed.

Lemma C32_none_proof : forall n p q, sym_class n SymNone p q <-> q = p.
Proof.
  intros n p q; split; [induction 1 as [|q m H IH Hm]; auto; destruct Hm | intros ->; constructor].
Qed.

Lemma C33_proof : forall o min_count y w h, 1 <= w -> 1 <= h -> generate_admissible o ->
  (generate o min_count y (w, h) = Err ValueError <-> min_count > w ^ 2 * h ^ 2 \/ y = SymOther) /\
  (forall e, generate o min_count y (w, h) = Err e -> e = ValueError).
Proof.
  intros o m y w h Hw Hh Ha.
  assert (G : (m > w ^ 2 * h ^ 2 \/ y = SymOther) \/ (m <= w ^ 2 * h ^ 2 /\ y <> SymOther)).
  { destruct (Z_le_gt_dec m (w ^ 2 * h ^ 2)); [|auto]. destruct y; auto; right; split; auto; discriminate. }
  destruct G as [G|[G1 G2]].
  - assert (E : generate o m y (w, h) = Err ValueError).
    { unfold generate. cbn [fst snd]. destruct (w ^ 2 * h ^ 2 <? m) eqn:Eb; auto. b2p.
      destruct G as [G|G]; [lia|]. subst; reflexivity. }
    split; [tauto|]. intros e Ee; congruence.
  - destruct (C29_proof o m y w h Hw Hh Ha G1 G2) as [s [E _]]. rewrite E.
    split; [split; [discriminate|intros [?|?]; [lia|contradiction]]|]. discriminate.
Qed.

(** * generate_from_template *)
Lemma attempt_ok : forall o template t, wf template -> create_admissible (fst (o t)) ->
  exists sol s a, create_solution (fst (o t)) (box_size template) = Ok sol /\ copy sol false = Ok s /\
    foldM (fun s rc => let* v := getitem template (fst rc) (snd rc) in
                       if v =? 0 then setitem s (fst rc) (snd rc) 0 else Ok s)
          (coords template) s = Ok a /\ attempt o template t a.
Proof.
  intros o tp t W [H1 H2].
  destruct (C28_proof (fst (o t)) (box_width tp) (box_height tp) (wf_w _ W) (wf_h _ W) H1 H2)
    as [sol [E1 [Ws [Bs [_ [V _]]]]]].
  destruct (copy_ok sol false Ws) as [s [E2 [Wss [Ew [Eh [Hn Hc]]]]]].
  unfold box_size in Bs; injection Bs as B1 B2.
  assert (Ft : forall q, field sol q <-> field tp q) by (intros; unfold field; rewrite B1, B2; tauto).
  exists sol, s.
  match goal with |- context [foldM ?F ?l ?a] =>
    destruct (foldM_ind F (fun pre x => wf x /\ box_width x = box_width tp /\ box_height x = box_height tp /\
       (forall q, field tp q -> num x q = if existsb (coord_eqb q) pre && (num tp q =? 0) then 0 else num s q)) l a)
      as [a' [E [Wa [Ewa [Eha Hna]]]]] end.
  - splits; auto; congruence.
  - intros pre [i j] post x El [Wx [Ewx [Ehx Hx]]].
    assert (F : field tp (i, j)) by (apply in_coords; rewrite El; apply in_or_app; simpl; auto).
    assert (Fx : field x (i, j)) by (unfold field; rewrite Ewx, Ehx; auto).
    cbn [fst snd]. rewrite getitem_ok by auto. cbn [rbind].
    destruct (num tp (i, j) =? 0) eqn:E0.
    + rewrite setitem_ok by auto. eexists; split; [reflexivity|]. splits; auto; [apply pset_wf; auto|].
      intros q Fq. rewrite num_pset by (auto; unfold field; rewrite Ewx, Ehx; auto).
      rewrite existsb_app. cbn [existsb]. rewrite orb_false_r.
      destruct (coord_eqb q (i, j)) eqn:Eq.
      * apply coord_eqb_eq in Eq; subst. rewrite orb_true_r, E0; auto.
      * rewrite orb_false_r; auto.
    + eexists; split; [reflexivity|]. splits; auto. intros q Fq. rewrite existsb_app. cbn [existsb]. rewrite orb_false_r.
      destruct (coord_eqb q (i, j)) eqn:Eq.
      * apply coord_eqb_eq in Eq; subst. rewrite Hx, E0, !andb_false_r by auto; auto.
      * rewrite orb_false_r; auto.
  - exists a'. splits; auto. unfold attempt; splits; auto; [unfold box_size; congruence|].
    exists sol; splits; auto.
    + intros p Fp E0. rewrite Hna, existsb_coords, E0 by auto. auto.
    + intros p Fp E0. rewrite Hna, existsb_coords by auto. rewrite (proj2 (Z.eqb_neq _ _)) by auto. cbn [andb].
      apply Hn. apply Ft; auto.
Qed.

Definition failed (o : Z -> create_oracle * (list xrow -> list xrow -> list xrow))
    (template : sudoku) (t : Z) : Prop :=
  exists a, attempt o template t a /\ ~ unique_solution a.

Lemma template_ok : forall o template tries, wf template ->
  (forall t, create_admissible (fst (o t)) /\ (forall p l, Permutation (snd (o t) p l) l)) ->
  forall fuel t,
  (exists t' s, t <= t' /\ (t' < tries \/ tries < 0) /\ template_loop fuel o template tries t = Ok s /\
      attempt o template t' s /\ unique_solution s /\ forall i, t <= i < t' -> failed o template i) \/
  (0 <= tries /\ template_loop fuel o template tries t = Err RuntimeError /\
      forall i, t <= i < tries -> failed o template i) \/
  (template_loop fuel o template tries t = Err OutOfFuel /\ (tries < 0 \/ t + Z.of_nat fuel < tries) /\
      forall i, t <= i < t + Z.of_nat fuel -> failed o template i).
Proof.
  intros o tp tries W Ho fuel; induction fuel as [|fuel IH]; intros t; cbn [template_loop].
  - destruct ((t <? tries) || (tries <? 0)) eqn:Eb.
    + right; right. apply orb_true_iff in Eb. splits; auto; [destruct Eb; b2p; lia|]. intros i Hi; lia.
    + right; left. b2p. splits; auto. intros i Hi; lia.
  - destruct ((t <? tries) || (tries <? 0)) eqn:Eb.
    2:{ right; left. b2p. splits; auto. intros i Hi; lia. }
    destruct (Ho t) as [Ha Hp]. destruct (attempt_ok o tp t W Ha) as [sol [s [a [E1 [E2 [E3 HA]]]]]].
    rewrite E1. cbn [rbind]. rewrite E2. cbn [rbind].
    match goal with |- context [foldM ?F ?l s] =>
      replace (foldM F l s) with (Ok a) by (symmetry; exact E3) end. cbn [rbind].
    destruct (C27_proof (snd (o t)) a Hp) as [u [Eu Hu]]; [apply HA|]. rewrite Eu. cbn [rbind].
    apply orb_true_iff in Eb.
    assert (Hlt : t < tries \/ tries < 0) by (destruct Eb; b2p; auto).
    destruct u.
    + left. exists t, a. splits; auto; [lia|apply Hu; auto|intros; lia].
    + assert (HF : failed o tp t).
      { exists a; split; auto. intros HU. apply Hu in HU; discriminate. }
      destruct (IH (t + 1)) as [[t' [s' [H1 [H2 [H3 [H4 [H5 H6]]]]]]]|[[H1 [H2 H3]]|[H1 [H2 H3]]]].
      * left. exists t', s'. splits; auto; [lia|]. intros i Hi.
        destruct (Z.eq_dec i t) as [->|]; auto. apply H6; lia.
      * right; left. splits; auto. intros i Hi. destruct (Z.eq_dec i t) as [->|]; auto. apply H3; lia.
      * right; right. splits; auto; [lia|]. intros i Hi. destruct (Z.eq_dec i t) as [->|]; auto. apply H3; lia.
Qed.

Lemma C34_success_proof : forall fuel o template tries s, wf template ->
  (forall t, create_admissible (fst (o t)) /\ (forall p l, Permutation (snd (o t) p l) l)) ->
  generate_from_template fuel o template tries = Ok s ->
  wf s /\ box_size s = box_size template /\ unique_solution s /\
  (forall p, field template p -> (num s p = 0 <-> num template p = 0)) /\
  exists t, 0 <= t /\ (t < tries \/ tries < 0) /\ attempt o template t s /\
    forall i, 0 <= i < t -> exists a, attempt o template i a /\ ~ unique_solution a.
Proof.
  intros fuel o tp tries s W Ho E. unfold generate_from_template in E.
  destruct (template_ok o tp tries W Ho fuel 0) as [[t' [s' [H1 [H2 [H3 [H4 [H5 H6]]]]]]]|[[_ [H2 _]]|[H1 _]]];
    [|congruence|congruence].
  assert (s' = s) by congruence. subst s'. pose proof H4 as [Ws [Bs [sol [Es [A1 A2]]]]]. splits; auto.
  - intros p Fp. split; auto. intros E0. destruct (Z.eq_dec (num tp p) 0) as [|Hne]; auto.
    exfalso. rewrite A2 in E0 by auto.
    destruct (Ho t') as [[Ha1 Ha2] _].
    destruct (C28_proof (fst (o t')) (box_width tp) (box_height tp) (wf_w _ W) (wf_h _ W) Ha1 Ha2)
      as [sol' [E1 [_ [_ [_ [[V _] _]]]]]]. unfold box_size in Es. rewrite E1 in Es. inv Es.
    specialize (V p Fp). lia.
  - exists t'; splits; auto.
Qed.

Lemma C34_failure_proof : forall fuel o template tries, wf template -> 0 <= tries ->
  tries <= Z.of_nat fuel ->
  (forall t, create_admissible (fst (o t)) /\ (forall p l, Permutation (snd (o t) p l) l)) ->
  ((exists s, generate_from_template fuel o template tries = Ok s) \/
   generate_from_template fuel o template tries = Err RuntimeError) /\
  (generate_from_template fuel o template tries = Err RuntimeError <->
   forall t, 0 <= t < tries -> exists a, attempt o template t a /\ ~ unique_solution a).
Proof.
  intros fuel o tp tries W Ht Hf Ho. unfold generate_from_template.
  destruct (template_ok o tp tries W Ho fuel 0) as [[t' [s' [H1 [H2 [H3 [H4 [H5 H6]]]]]]]|[[_ [H2 H3]]|[H1 [H2 _]]]]; [| |lia].
  - split; [left; eauto|]. split; [congruence|]. intros H. exfalso.
    destruct H2 as [H2|H2]; [|lia]. destruct (H t') as [a [Aa Na]]; [lia|]. apply Na.
    destruct H4 as [Ws [Bs [sol [Es [A1 A2]]]]]. destruct Aa as [Wa [Ba [sol' [Es' [A1' A2']]]]].
    rewrite Es in Es'. inv Es'. apply ugiven_unique. change (ugiven (box_width s') (box_height s') (num s')) in H5.
    unfold box_size in Ba, Bs. injection Ba as Ba1 Ba2. injection Bs as Bs1 Bs2.
    rewrite Ba1, Ba2. rewrite Bs1, Bs2 in H5. eapply ugiven_ext; [|apply H5].
    intros p Hp. destruct (Z.eq_dec (num tp p) 0) as [E0|E0].
    + rewrite A1, A1'; auto.
    + rewrite A2, A2'; auto.
  - split; auto. split; auto.
Qed.

(** With a negative number of tries the loop goes on until an attempt succeeds. *)
Lemma C34_negative_proof : forall fuel o template tries, wf template -> tries < 0 ->
  (forall t, create_admissible (fst (o t)) /\ (forall p l, Permutation (snd (o t) p l) l)) ->
  (exists s, generate_from_template fuel o template tries = Ok s) \/
  (generate_from_template fuel o template tries = Err OutOfFuel /\
   forall t, 0 <= t < Z.of_nat fuel -> exists a, attempt o template t a /\ ~ unique_solution a).
Proof.
  intros fuel o tp tries W Ht Ho. unfold generate_from_template.
  destruct (template_ok o tp tries W Ho fuel 0) as [[t' [s' [H1 [H2 [H3 _]]]]]|[[H1 _]|[H1 [_ H3]]]]; [eauto|lia|].
  right; split; auto.
Qed.
