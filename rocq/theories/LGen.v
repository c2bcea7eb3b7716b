(** Lemmas about PyGen. *)
From Verif Require Export LBase PyGen.

Lemma gyields_gbind : forall {I A R R'} (g : gen I A R) (f : R -> gen I A R') i,
  gyields (gbind g f) i =
  gyields g i ++ match gresult g i with Ok r => gyields (f r) i | Err _ => [] end.
Proof.
  intros I A R R' g f i; induction g as [r|a k IH|e]; simpl; auto.
  f_equal; auto.
Qed.

Lemma gresult_gbind : forall {I A R R'} (g : gen I A R) (f : R -> gen I A R') i,
  gresult (gbind g f) i = rbind (gresult g i) (fun r => gresult (f r) i).
Proof.
  intros I A R R' g f i; induction g as [r|a k IH|e]; simpl; auto.
Qed.

Lemma gyields_lift : forall {I A R} (m : res R) (i : I), gyields (@lift I A R m) i = [].
Proof. intros; destruct m; auto. Qed.
Lemma gresult_lift : forall {I A R} (m : res R) (i : I), gresult (@lift I A R m) i = m.
Proof. intros; destruct m; auto. Qed.

Lemma gbind_lift_ok : forall {I A R R'} (m : res R) r (f : R -> gen I A R'),
  m = Ok r -> gbind (lift m) f = f r.
Proof. intros; subst; reflexivity. Qed.

Lemma gbind_lift_err : forall {I A R R'} (m : res R) e (f : R -> gen I A R'),
  m = Err e -> gbind (lift m) f = Raise e.
Proof. intros; subst; reflexivity. Qed.

(** A loop whose body, without interference, ends normally and has a known
    list of yields. *)
Lemma gfor_yields : forall {I A S B} (f : S -> B -> gen I A S) (i : I)
    (ys : B -> list A) (st : S) l,
  (forall x, In x l -> gresult (f st x) i = Ok st /\ gyields (f st x) i = ys x) ->
  gresult (gfor f l st) i = Ok st /\ gyields (gfor f l st) i = flat_map ys l.
Proof.
  intros I A S B f i ys st l; induction l as [|x l IH]; intros H; simpl; auto.
  destruct (H x) as [H1 H2]; [left; auto|].
  rewrite gresult_gbind, gyields_gbind, H1, H2; simpl.
  destruct IH as [IH1 IH2]; [intros; apply H; right; auto|].
  rewrite IH1, IH2; auto.
Qed.

(** Closed generators: [gnext] in terms of [gyields] and [gresult]. *)
Lemma gnext_spec : forall {A R} (g : gen unit A R),
  match gyields g tt with
  | [] => gnext g = match gresult g tt with Ok _ => Err StopIteration | Err e => Err e end
  | a :: l => exists g', gnext g = Ok (a, g') /\ gyields g' tt = l /\
                         gresult g' tt = gresult g tt
  end.
Proof.
  intros A R g; destruct g as [r|a k|e]; simpl; auto.
  exists (k tt); auto.
Qed.

(** [for x in inner: ... yield f(x)] *)
Lemma gforgen_map : forall {A B R S} (body : (unit * S) -> B -> gen unit A (unit * S))
    (inner : gen unit B R) (f : B -> A) (P : B -> Prop) (Q : S -> Prop) s r,
  (forall st b, Q (snd st) -> P b ->
     exists st', gresult (body st b) tt = Ok st' /\ Q (snd st') /\
     gyields (body st b) tt = [f b]) ->
  Q s ->
  (forall b, In b (gyields inner tt) -> P b) ->
  gresult inner tt = Ok r ->
  gyields (gforgen body inner (tt, s)) tt = map f (gyields inner tt) /\
  exists s', gresult (gforgen body inner (tt, s)) tt = Ok s' /\ Q (snd s').
Proof.
  intros A B R S body inner f P Q s r Hb HQ HP Hr.
  assert (Hu : forall u : unit, u = tt) by (destruct u; auto).
  revert s HQ. induction inner as [r'|b k IH|e]; intros s HQ; simpl in *.
  - split; auto. exists (tt, s); auto.
  - destruct (Hb (tt, s) b) as [st' [H1 [H2 H3]]]; auto.
    rewrite gyields_gbind, gresult_gbind, H1, H3; simpl.
    destruct st' as [u s']; simpl in *. rewrite (Hu u).
    destruct (IH tt) with (s := s') as [E1 E2]; auto.
    rewrite E1. split; auto.
  - discriminate.
Qed.

(** The same with a relation between inner and outer values. *)
Lemma gforgen_rel : forall {A B R S} (body : (unit * S) -> B -> gen unit A (unit * S))
    (inner : gen unit B R) (F : B -> A -> Prop) (P : B -> Prop) (Q : S -> Prop) s r,
  (forall st b, Q (snd st) -> P b ->
     exists st' a, gresult (body st b) tt = Ok st' /\ Q (snd st') /\
     gyields (body st b) tt = [a] /\ F b a) ->
  Q s ->
  (forall b, In b (gyields inner tt) -> P b) ->
  gresult inner tt = Ok r ->
  Forall2 F (gyields inner tt) (gyields (gforgen body inner (tt, s)) tt) /\
  exists s', gresult (gforgen body inner (tt, s)) tt = Ok s' /\ Q (snd s').
Proof.
  intros A B R S body inner F P Q s r Hb HQ HP Hr.
  assert (Hu : forall u : unit, u = tt) by (destruct u; auto).
  revert s HQ. induction inner as [r'|b k IH|e]; intros s HQ; simpl in *.
  - split; auto. exists (tt, s); auto.
  - destruct (Hb (tt, s) b) as [st' [a [H1 [H2 [H3 H4]]]]]; auto.
    rewrite gyields_gbind, gresult_gbind, H1, H3; simpl.
    destruct st' as [u s']; simpl in *. rewrite (Hu u).
    destruct (IH tt) with (s := s') as [E1 E2]; auto.
  - discriminate.
Qed.
