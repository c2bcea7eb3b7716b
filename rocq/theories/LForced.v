(** Lemmas for C123: sets of fields that are closed under naked and hidden singles of a solution, and a check, by computation, that
    the clues of every sudoku with this unique solution lead to all fields. *)
From Verif Require Export LUnique LCheck LLevel5.

Local Opaque MSudoku.surrounding_of.

Definition tog (w h : Z) (k : kind) (p q : coord) : Prop :=
  match k with KRow => same_row p q | KCol => same_col p q | KBox => same_box w h p q end.
Definition togb (w h : Z) (k : kind) (p q : coord) : bool :=
  match k with KRow => fst p =? fst q | KCol => snd p =? snd q | KBox => (fst p / h =? fst q / h) && (snd p / w =? snd q / w) end.
Lemma togb_ok : forall w h k p q, togb w h k p q = true <-> tog w h k p q.
Proof. intros w h [] p q; simpl; unfold same_row, same_col, same_box; rewrite ?andb_true_iff, ?Z.eqb_eq; tauto. Qed.
Lemma tog_peers : forall w h p q, peers w h p q <-> p <> q /\ exists k, tog w h k p q.
Proof.
  intros w h p q. unfold peers. split; intros [D H]; split; auto.
  - destruct H as [H|[H|H]]; [exists KRow|exists KCol|exists KBox]; auto.
  - destruct H as [[] H]; auto.
Qed.

(** [F] contains every field that is a naked or hidden single, given that the numbers in the fields of [F] are known. *)
Definition closed_set (w h : Z) (g : grid) (F : coord -> Prop) : Prop :=
  (forall p, cell w h p ->
     (forall v, 1 <= v <= w * h -> v <> g p -> exists q, cell w h q /\ F q /\ peers w h p q /\ g q = v) -> F p) /\
  (forall k p, cell w h p ->
     (forall q, cell w h q -> tog w h k p q -> q <> p -> F q \/ exists x, cell w h x /\ F x /\ peers w h q x /\ g x = g p) -> F p).
(** Clues [C] that determine the grid lead to all fields. *)
Definition forced (w h : Z) (g : grid) : Prop :=
  forall (C : list coord) (F : coord -> Prop), (forall p, In p C -> cell w h p /\ F p) -> closed_set w h g F ->
  (forall f, valid_grid w h f -> (forall p, In p C -> f p = g p) -> same_grid w h f g) ->
  forall p, cell w h p -> F p.

(** * Moving fields and renaming numbers *)
Lemma forced_move : forall w h w' h' fm fi nm ni b g g', w' * h' = w * h ->
  (forall p, cell w' h' p -> cell w h (fm p) /\ fi (fm p) = p) -> (forall p, cell w h p -> cell w' h' (fi p) /\ fm (fi p) = p) ->
  (forall v, 1 <= v <= w * h -> 1 <= nm v <= w * h /\ ni (nm v) = v) -> (forall v, 1 <= v <= w * h -> 1 <= ni v <= w * h /\ nm (ni v) = v) ->
  (forall k p q, cell w' h' p -> cell w' h' q -> (tog w' h' k p q <-> tog w h (turned b k) (fm p) (fm q))) ->
  valid_grid w h g -> (forall p, cell w' h' p -> g' p = nm (g (fm p))) -> forced w' h' g' -> forced w h g.
Proof.
  intros w h w' h' fm fi nm ni b g g' EN Hf Hi Hn Hm Ht V Hg H C F HC HF Hu.
  assert (Bk : forall k, turned b (turned b k) = k) by (intros []; destruct b; reflexivity).
  assert (Pe : forall p q, cell w' h' p -> cell w' h' q -> (peers w' h' p q <-> peers w h (fm p) (fm q))).
  { intros p q Cp Cq. rewrite !tog_peers. split; intros [D [k T]]; split.
    - intros E. apply D. rewrite <- (proj2 (Hf p Cp)), <- (proj2 (Hf q Cq)), E. reflexivity.
    - exists (turned b k). apply Ht; auto.
    - intros ->. auto.
    - exists (turned b k). apply Ht; auto. rewrite Bk. auto. }
  assert (Nj : forall a c, 1 <= a <= w * h -> 1 <= c <= w * h -> nm a = nm c -> a = c).
  { intros a c Ha Hc E. rewrite <- (proj2 (Hn a Ha)), <- (proj2 (Hn c Hc)), E. reflexivity. }
  pose proof (proj1 V) as V1.
  assert (All : forall p, cell w' h' p -> F (fm p)).
  { apply (H (map fi C) (fun p => F (fm p))).
    - intros p Hp. apply in_map_iff in Hp. destruct Hp as [q [<- Hq]]. destruct (HC q Hq) as [Cq Fq].
      destruct (Hi q Cq) as [X Y]. split; auto. rewrite Y; auto.
    - destruct HF as [F1 F2]. split.
      + intros p Cp Hv. destruct (Hf p Cp) as [Cf _]. apply F1; auto. intros v Rv Dv.
        destruct (Hv (nm v)) as [q [Cq [Fq [Pq Eq]]]].
        * rewrite EN. apply Hn; auto.
        * rewrite Hg by auto. intros E. apply Dv. apply Nj; auto.
        * exists (fm q). destruct (Hf q Cq) as [Cfq _]. split; auto. split; auto. split; [apply Pe; auto|].
          apply Nj; auto. rewrite <- Hg; auto.
      + intros k p Cp Hq. destruct (Hf p Cp) as [Cf _]. apply (F2 (turned b k)); auto. intros q Cq Tq Dq.
        destruct (Hi q Cq) as [Cx Ex]. destruct (Hq (fi q)) as [Fq|[x [Cx' [Fx [Px Gx]]]]]; auto.
        * apply Ht; auto. rewrite Ex. auto.
        * intros E. apply Dq. rewrite <- E. auto.
        * left. rewrite Ex in Fq. auto.
        * right. exists (fm x). destruct (Hf x Cx') as [Cfx _]. split; auto. split; auto. split.
          -- apply Pe in Px; auto. rewrite Ex in Px. auto.
          -- apply Nj; auto. rewrite <- !Hg by auto. auto.
    - intros f Vf Hc.
      assert (S1 : same_grid w h (fun p => ni (f (fi p))) g).
      { apply Hu.
        - split.
          + intros p Cp. destruct (Hi p Cp) as [Cx _]. apply Hm. rewrite <- EN. apply Vf; auto.
          + intros p q Cp Cq Pq E. destruct (Hi p Cp) as [Cx Ex]. destruct (Hi q Cq) as [Cy Ey].
            assert (Pxy : peers w' h' (fi p) (fi q)) by (apply Pe; auto; rewrite Ex, Ey; auto).
            apply (proj2 Vf _ _ Cx Cy Pxy). pose proof (proj1 Vf _ Cx) as R1. pose proof (proj1 Vf _ Cy) as R2. rewrite EN in *.
            rewrite <- (proj2 (Hm _ R1)), <- (proj2 (Hm _ R2)), E. reflexivity.
        - intros p Hp. destruct (HC p Hp) as [Cp _]. destruct (Hi p Cp) as [Cx Ex].
          rewrite (Hc (fi p)) by (apply in_map; auto). rewrite Hg by auto. rewrite Ex. apply Hn. auto. }
      intros p Cp. rewrite Hg by auto. destruct (Hf p Cp) as [Cf Ef]. rewrite <- (S1 (fm p) Cf). rewrite Ef.
      symmetry. apply Hm. rewrite <- EN. apply Vf; auto. }
  intros p Cp. destruct (Hi p Cp) as [Cx Ex]. rewrite <- Ex. auto.
Qed.

(** * Sets as lists of booleans *)
Section Check.
Variables (w h : Z) (g : grid).
Let cs := cells w h.

Definition mask (cs : list coord) (f : coord -> bool) : list bool := map f cs.
Fixpoint meets (a b : list bool) : bool :=
  match a, b with
  | x :: a', y :: b' => if x then (if y then true else meets a' b') else meets a' b'
  | _, _ => false
  end.
Fixpoint join (a b : list bool) : list bool :=
  match a, b with
  | x :: a', y :: b' => (if x then true else y) :: join a' b'
  | _, _ => []
  end.
Fixpoint full (a : list bool) : bool := match a with [] => true | x :: a' => if x then full a' else false end.
Fixpoint same (a b : list bool) : bool :=
  match a, b with
  | x :: a', y :: b' => if Bool.eqb x y then same a' b' else false
  | _, _ => true
  end.

Definition holds (P : coord -> Prop) (F : list bool) : Prop := Forall2 (fun p (b : bool) => b = true -> P p) cs F.

Lemma meets_mask : forall (P : coord -> Prop) l F f, Forall2 (fun p (b : bool) => b = true -> P p) l F -> meets F (mask l f) = true ->
  exists p, In p l /\ P p /\ f p = true.
Proof.
  intros P l F f H; induction H as [|p b l F Hb H IH]; simpl; intros M; [discriminate|].
  destruct b; [destruct (f p) eqn:E|].
  - exists p. auto.
  - destruct (IH M) as [q [X Y]]. exists q. auto.
  - destruct (IH M) as [q [X Y]]. exists q. auto.
Qed.
Lemma join_mask : forall (P : coord -> Prop) l F f, Forall2 (fun p (b : bool) => b = true -> P p) l F -> (forall p, In p l -> f p = true -> P p) ->
  Forall2 (fun p (b : bool) => b = true -> P p) l (join F (mask l f)).
Proof.
  intros P l F f H; induction H as [|p b l F Hb H IH]; simpl; intros M; constructor.
  - destruct b; auto.
  - apply IH. auto.
Qed.
Lemma full_all : forall (P : coord -> Prop) l F, Forall2 (fun p (b : bool) => b = true -> P p) l F -> full F = true -> forall p, In p l -> P p.
Proof.
  intros P l F H; induction H as [|p b l F Hb H IH]; simpl; intros M q Hq; [destruct Hq|].
  destruct b; [|discriminate]. destruct Hq as [<-|Hq]; auto.
Qed.
Lemma empty_holds : forall (P : coord -> Prop) l, Forall2 (fun p (b : bool) => b = true -> P p) l (mask l (fun _ => false)).
Proof. intros P l; induction l; simpl; constructor; auto. discriminate. Qed.

(** For every field: its mask and the rules by which it is found; a rule applies if all its masks are met. *)
Definition naked_rule (p : coord) : list (list bool) :=
  map (fun v => mask cs (fun q => if g q =? v then peersb w h p q else false)) (filter (fun v => negb (v =? g p)) (map (fun i => i + 1) (py_range (w * h)))).
Definition hidden_rule (p : coord) (k : kind) : list (list bool) :=
  map (fun q => mask cs (fun x => if coord_eqb x q then true else if g x =? g p then peersb w h q x else false))
    (filter (fun q => togb w h k p q && negb (coord_eqb q p)) cs).
Definition entry (p : coord) : list bool * list (list (list bool)) :=
  (mask cs (coord_eqb p), naked_rule p :: map (hidden_rule p) [KRow; KCol; KBox]).

Definition pass1 (F : list bool) (e : list bool * list (list (list bool))) : list bool :=
  if meets F (fst e) then F else if existsb (forallb (meets F)) (snd e) then join F (fst e) else F.
Fixpoint closure (n : nat) (es : list (list bool * list (list (list bool)))) (F : list bool) : list bool :=
  match n with
  | O => F
  | S n => let F' := fold_left pass1 es F in if same F F' then F' else closure n es F'
  end.
(** The clues contain one of the fields of every [u] in [us]; those in [E] are no clues. *)
Fixpoint check (n : nat) (es : list (list bool * list (list (list bool)))) (us : list (list bool * list (list bool))) (F E : list bool) : bool :=
  let F := closure 16 es F in
  if full F then true else
  match n with
  | O => false
  | S n =>
      match List.find (fun u => negb (meets F (fst u))) us with
      | None => false
      | Some u =>
          (fix branch (l : list (list bool)) (E : list bool) : bool :=
             match l with
             | [] => true
             | m :: l => if meets E m then branch l E else if check n es us (join F m) E then branch l (join E m) else false
             end) (snd u) E
      end
  end.

Variables (C : list coord) (P : coord -> Prop).
Hypothesis HC : forall p, In p C -> cell w h p /\ P p.
Hypothesis HP : closed_set w h g P.

Lemma pass1_holds : forall F p, cell w h p -> holds P F -> holds P (pass1 F (entry p)).
Proof.
  intros F p Cp H. unfold pass1. destruct (meets F (fst (entry p))); auto.
  destruct (existsb (forallb (meets F)) (snd (entry p))) eqn:E; auto.
  apply join_mask; auto. intros q _ Eq. apply coord_eqb_eq in Eq. subst q.
  apply existsb_exists in E. destruct E as [l [Hl El]]. rewrite forallb_forall in El.
  change (In l (naked_rule p :: map (hidden_rule p) [KRow; KCol; KBox])) in Hl. destruct Hl as [<-|Hl].
  - apply HP; auto. intros v Rv Dv.
    assert (M : meets F (mask cs (fun q => if g q =? v then peersb w h p q else false)) = true).
    { apply El. unfold naked_rule. apply (in_map (fun v => mask cs (fun q => if g q =? v then peersb w h p q else false))).
      apply filter_In. split; [|apply negb_true_iff, Z.eqb_neq; auto]. apply in_map_iff. exists (v - 1). rewrite in_py_range. lia. }
    destruct (meets_mask P cs F _ H M) as [q [Iq [Pq Q]]]. destruct (g q =? v) eqn:Ev; [|discriminate].
    exists q. split; [apply in_cells; auto|]. split; auto. split; [apply peersb_ok; auto|]. apply Z.eqb_eq; auto.
  - apply in_map_iff in Hl. destruct Hl as [k [<- _]]. apply (proj2 HP k); auto. intros q Cq Tq Dq.
    assert (M : meets F (mask cs (fun x => if coord_eqb x q then true else if g x =? g p then peersb w h q x else false)) = true).
    { apply El. unfold hidden_rule. apply (in_map (fun q => mask cs (fun x => if coord_eqb x q then true else if g x =? g p then peersb w h q x else false))).
      apply filter_In. split; [apply in_cells; auto|]. apply andb_true_iff. split; [apply togb_ok; auto|]. apply negb_true_iff, coord_eqb_neq; auto. }
    destruct (meets_mask P cs F _ H M) as [x [Ix [Px Q]]]. destruct (coord_eqb x q) eqn:Ex.
    + apply coord_eqb_eq in Ex. subst x. auto.
    + destruct (g x =? g p) eqn:Ev; [|discriminate]. right. exists x. split; [apply in_cells; auto|]. split; auto.
      split; [apply peersb_ok; auto|]. apply Z.eqb_eq; auto.
Qed.
Lemma fold_holds : forall l F, (forall p, In p l -> cell w h p) -> holds P F -> holds P (fold_left pass1 (map entry l) F).
Proof.
  induction l as [|p l IH]; intros F Hl H; simpl; auto. apply IH; [intros; apply Hl; right; auto|]. apply pass1_holds; auto. apply Hl; left; auto.
Qed.
Lemma closure_holds : forall n F, holds P F -> holds P (closure n (map entry cs) F).
Proof.
  induction n as [|n IH]; intros F H; auto. cbn [closure]. cbv zeta.
  assert (H' : holds P (fold_left pass1 (map entry cs) F)) by (apply fold_holds; auto; intros p Hp; apply in_cells; auto).
  destruct (same F (fold_left pass1 (map entry cs) F)); auto.
Qed.

Definition parts (l : list coord) : list bool * list (list bool) :=
  (mask cs (fun p => existsb (coord_eqb p) l), map (fun p => mask cs (coord_eqb p)) l).

Lemma check_holds : forall us, (forall u, In u us -> exists p, In p u /\ In p C) -> (forall u p, In u us -> In p u -> cell w h p) ->
  forall n F E, holds P F -> holds (fun p => ~ In p C) E -> check n (map entry cs) (map parts us) F E = true -> forall p, cell w h p -> P p.
Proof.
  intros us Hu Hcell n; induction n as [|n IH]; intros F E HF HE Ck; cbn [check] in Ck; cbv zeta in Ck;
    set (F' := closure 16 (map entry cs) F) in *; assert (HF' : holds P F') by (apply closure_holds; auto);
    destruct (full F') eqn:Fu; try (intros p Cp; apply (full_all P cs F' HF' Fu); apply in_cells; exact Cp); [discriminate|].
  destruct (List.find _ (map parts us)) as [u|] eqn:Ef; [|discriminate].
  apply find_some in Ef. destruct Ef as [Iu _]. apply in_map_iff in Iu. destruct Iu as [l [<- Il]].
  destruct (Hu l Il) as [p [Ip Icp]]. cbn [parts snd] in Ck. pose proof (fun x => Hcell l x Il) as Hcl. clear Il.
  revert E HE Ck Ip Hcl. induction l as [|p0 l IHl]; intros E HE Ck Ip Hcl; [destruct Ip|].
  cbn [map] in Ck. destruct (meets E (mask cs (coord_eqb p0))) eqn:M.
  - apply (IHl E); auto; [|intros; apply Hcl; right; auto]. destruct Ip as [<-|Ip]; auto. exfalso.
    destruct (meets_mask _ cs E _ HE M) as [q [_ [X Y]]]. apply coord_eqb_eq in Y. subst q. auto.
  - destruct (check n (map entry cs) (map parts us) (join F' (mask cs (coord_eqb p0))) E) eqn:Ck1; [|discriminate].
    destruct (in_dec coord_eq_dec p0 C) as [I0|N0].
    + apply (IH (join F' (mask cs (coord_eqb p0))) E); auto. apply join_mask; auto.
      intros q _ Y. apply coord_eqb_eq in Y. subst q. apply HC; auto.
    + apply (IHl (join E (mask cs (coord_eqb p0)))); auto.
      * apply join_mask; auto. intros q _ Y. apply coord_eqb_eq in Y. subst q. auto.
      * destruct Ip as [<-|Ip]; auto. tauto.
      * intros; apply Hcl; right; auto.
Qed.
End Check.

(** Other solutions [hs] suffice to show that the grid is forced. *)
Definition differs (w h : Z) (g f : grid) : list coord := filter (fun p => negb (f p =? g p)) (cells w h).
Definition forcedb (n : nat) (w h : Z) (g : grid) (hs : list grid) : bool :=
  forallb (fun f => valid_gridb w h f && negb (Nat.eqb (length (differs w h g f)) 0)) hs &&
  check n (map (entry w h g) (cells w h)) (map (parts w h) (map (differs w h g) hs))
    (mask (cells w h) (fun _ => false)) (mask (cells w h) (fun _ => false)).
Lemma forcedb_ok : forall n w h g hs, forcedb n w h g hs = true -> forced w h g.
Proof.
  intros n w h g hs H C F HC HF Hu. unfold forcedb in H. apply andb_prop in H. destruct H as [Hh Hk]. rewrite forallb_forall in Hh.
  apply (check_holds w h g C F HC HF (map (differs w h g) hs)) with (n := n) (F := mask (cells w h) (fun _ => false)) (E := mask (cells w h) (fun _ => false)); auto.
  - intros u Iu. apply in_map_iff in Iu. destruct Iu as [f [<- If]]. specialize (Hh f If). apply andb_prop in Hh. destruct Hh as [Vf Lf].
    apply valid_gridb_ok in Vf. apply negb_true_iff, Nat.eqb_neq in Lf.
    destruct (Exists_dec (fun p => In p (differs w h g f)) C) as [X|X]; [intros p; apply in_dec, coord_eq_dec| |].
    + apply Exists_exists in X. destruct X as [p [A B]]. eauto.
    + exfalso. assert (S1 : same_grid w h f g).
      { apply Hu; auto. intros p Hp. destruct (Z.eq_dec (f p) (g p)) as [|D]; auto. exfalso. apply X. apply Exists_exists. exists p. split; auto.
        apply filter_In. split; [apply in_cells; apply HC; auto|]. apply negb_true_iff, Z.eqb_neq; auto. }
      apply Lf. destruct (differs w h g f) as [|p l] eqn:Ed; auto. exfalso.
      assert (Ip : In p (differs w h g f)) by (rewrite Ed; left; auto). apply filter_In in Ip. destruct Ip as [I1 I2].
      apply negb_true_iff, Z.eqb_neq in I2. apply I2, S1. apply in_cells; auto.
  - intros u p Iu Ip. apply in_map_iff in Iu. destruct Iu as [f [<- If]]. apply filter_In in Ip. apply in_cells. tauto.
  - apply empty_holds.
  - apply empty_holds.
Qed.
