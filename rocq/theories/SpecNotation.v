(** Spec of the rncn / bnpn notation. *)
From Verif Require Export Spec PyStr.

(** One of r, c, b, p. *)
Definition letter (c : Z) : Prop := c = 114 \/ c = 99 \/ c = 98 \/ c = 112.
Definition digit (c : Z) : Prop := 48 <= c <= 57.

(** Separators: the group separator is not empty; no letters, no digits. *)
Definition separators_ok (sep nsep : pystr) : Prop :=
  sep <> [] /\ forall c, In c sep \/ In c nsep -> ~ letter c /\ ~ digit c.

(** The separator between numbers: none is needed if all numbers have one digit,
    otherwise the default is a comma. *)
Definition number_separator (nsep : pystr) (n : Z) : pystr :=
  match nsep with
  | [] => if n <=? 9 then [] else [44]
  | _ => nsep
  end.

(** A group like r12c3b4p5: letters with lists of (one-based) numbers; its text. *)
Definition group : Type := list (Z * list Z).
Definition group_text (nsep : pystr) (g : group) : pystr :=
  concat (map (fun x => fst x :: join nsep (map str_of_int (snd x))) g).

(** Different letters, each with at least one number ([ns] is the number separator in
    effect; without one every number has one digit). *)
Definition group_shape (ns : pystr) (g : group) : Prop :=
  g <> [] /\ NoDup (map fst g) /\
  forall q l, In (q, l) g -> letter q /\ l <> [] /\
    forall k, In k l -> 0 <= k /\ (ns = [] -> k <= 9).
(** All numbers are between 1 and n. *)
Definition group_range (n : Z) (g : group) : Prop :=
  forall q l k, In (q, l) g -> In k l -> 1 <= k <= n.

(** Field [p] lies in row / column / box / part number [k] (one-based). *)
Definition lies (w h q k : Z) (p : coord) : Prop :=
  (q = 114 -> fst p = k - 1) /\
  (q = 99 -> snd p = k - 1) /\
  (q = 98 -> (fst p / h) * h + snd p / w = k - 1) /\
  (q = 112 -> (fst p mod h) * w + snd p mod w = k - 1).

(** The fields described by a group. *)
Definition in_group (w h : Z) (g : group) (p : coord) : Prop :=
  cell w h p /\ forall q l, In (q, l) g -> exists k, In k l /\ lies w h q k p.

(** [sub] occurs in [s]. *)
Definition occurs (sub s : pystr) : Prop := exists a b, s = a ++ sub ++ b.

(** Strictly increasing in row-major order. *)
Definition sorted_coords (l : list coord) : Prop := StronglySorted lex_lt l.

(** [es] is the list of entries (K, V) written as groups: it is the list of all pairs
    (k, v) in [ps], with the k having the same v joined.  Everything is in increasing
    order, no k is in two entries, no two entries have the same V. *)
Definition entries (ps : list (Z * Z)) (es : list (list Z * list Z)) : Prop :=
  (forall k v, In (k, v) ps <-> exists e, In e es /\ In k (fst e) /\ In v (snd e)) /\
  (forall e, In e es -> fst e <> [] /\ snd e <> [] /\
     StronglySorted Z.lt (fst e) /\ StronglySorted Z.lt (snd e)) /\
  NoDup (concat (map fst es)) /\ NoDup (map snd es) /\
  StronglySorted (fun a b => hd 0 (fst a) < hd 0 (fst b)) es.

(** One-based row and column; one-based box and place in the box. *)
Definition row_col (p : coord) : Z * Z := (fst p + 1, snd p + 1).
Definition box_part (w h : Z) (p : coord) : Z * Z :=
  ((fst p / h) * h + snd p / w + 1, (fst p mod h) * w + snd p mod w + 1).

(** The text of entries, with the letters [q1] and [q2]. *)
Definition entries_text (q1 q2 : Z) (sep nsep : pystr) (es : list (list Z * list Z)) : pystr :=
  join sep (map (fun e => group_text nsep [(q1, fst e); (q2, snd e)]) es).
