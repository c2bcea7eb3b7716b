(** Specification of how the texts of notation.py are read: which texts name which fields, which action a line is. *)
From Verif Require Export SpecNotation MNotation.

(** The value of a string of decimal digits *)
Definition value_of (t : pystr) : Z := fold_left (fun n c => 10 * n + (c - 48)) t 0.
Definition digits (t : pystr) : Prop := t <> [] /\ forall c, In c t -> digit c.

(** The numbers [ks] are written in [t], with [ns] between them; without a separator every digit is a number, and there
    may be none at all. *)
Definition written (ns t : pystr) (ks : list Z) : Prop :=
  exists ps, t = join ns ps /\ ks = map value_of ps /\
    (forall x, In x ps -> digits x /\ (ns = [] -> length x = 1%nat)) /\ (ns <> [] -> ps <> []).

(** The group [g] consists of the sections [ss], each a letter and the numbers that follow it. *)
Definition sections (ns g : pystr) (ss : group) : Prop :=
  ss <> [] /\ (forall q l, In (q, l) ss -> letter q) /\
  exists ts, g = concat ts /\ Forall2 (fun t s => exists u, t = fst s :: u /\ written ns u (snd s)) ts ss.
(** No section but the last one is without numbers, and a letter occurs again only directly after itself (and
    therefore not a third time). *)
Definition well_formed (ns g : pystr) (ss : group) : Prop :=
  sections ns g ss /\
  (forall a q b, ss = a ++ (q, []) :: b -> b = []) /\
  (forall a q l b m c, ss = a ++ (q, l) :: b ++ (q, m) :: c -> b = []).

(** The numbers that count for a letter: those of its last section *)
Definition counts (ss : group) (q : Z) (l : list Z) : Prop :=
  l <> [] /\ exists a c, ss = a ++ (q, l) :: c /\ ~ In q (map fst c).
(** They are between 1 and n. *)
Definition counts_range (n : Z) (ss : group) : Prop := forall q l k, counts ss q l -> In k l -> 1 <= k <= n.
(** The fields described *)
Definition described (w h : Z) (ss : group) (p : coord) : Prop :=
  cell w h p /\ forall q l, counts ss q l -> exists k, In k l /\ lies w h q k p.

(** A group that is accepted; a group that has no numbers that count *)
Definition accepted (ns : pystr) (n : Z) (g : pystr) (ss : group) : Prop :=
  well_formed ns g ss /\ counts_range n ss /\ exists q l, counts ss q l.
Definition numberless (ns g : pystr) : Prop :=
  ns = [] /\ exists q, letter q /\ (g = [q] \/ exists ds, digits ds /\ g = q :: ds ++ [q]).

(** [c] is the decimal digit [d] of some script. *)
Definition digit_of (c d : Z) : Prop := exists z, In z DECIMAL_ZEROS /\ 0 <= d <= 9 /\ c = z + d.
(** A separator that cannot be part of a number *)
Definition plain_separator (ns : pystr) : Prop :=
  forall c, In c ns -> is_space c = false /\ c <> 43 /\ c <> 45 /\ c <> 95 /\ forall d, ~ digit_of c d.

(** [s'] is [s] without the string.whitespace in it. *)
Definition without_run (s s' : pystr) : Prop :=
  exists ps, s = join WHITESPACE ps /\ s' = concat ps /\ ps <> [] /\ forall x, In x ps -> ~ occurs WHITESPACE x.
Definition has_blank (t : pystr) : Prop := exists c, In c WHITESPACE /\ In c t.
Definition cleaned (sep ns s s' : pystr) : Prop :=
  (has_blank sep \/ has_blank ns) /\ s' = s \/ ~ has_blank sep /\ ~ has_blank ns /\ without_run s s'.

(** [s] is cut at every separator that is followed by a letter. *)
Definition cut_at (sep s : pystr) (gs : list pystr) : Prop :=
  s = join sep gs /\ gs <> [] /\
  (forall g, In g (tl gs) -> exists q t, g = q :: t /\ letter q) /\
  (forall g q, In g gs -> letter q -> ~ occurs (sep ++ [q]) g).
(** The groups of the text [s] *)
Definition groups_of (sep ns s : pystr) (gs : list pystr) : Prop := exists s', cleaned sep ns s s' /\ cut_at sep s' gs.

(** The integer [n] as a text: blanks, sign, digits with single underscores between them, blanks *)
Definition int_blank (c : Z) : Prop := is_space c = true /\ ~ 28 <= c <= 31.
Definition number_of (ds : list Z) : Z := fold_left (fun n d => 10 * n + d) ds 0.
Definition int_text (t : pystr) (n : Z) : Prop :=
  exists a sgn ps b ds, t = a ++ sgn ++ join [95] ps ++ b /\
    (forall c, In c (a ++ b) -> int_blank c) /\ (sgn = [] \/ sgn = [43] \/ sgn = [45]) /\
    ps <> [] /\ (forall x, In x ps -> x <> []) /\ Forall2 digit_of (concat ps) ds /\
    n = (if match sgn with [45] => true | _ => false end then - number_of ds else number_of ds).

(** [s] without the blanks around it *)
Definition trimmed (s t : pystr) : Prop :=
  exists a b, s = a ++ t ++ b /\ (forall c, In c (a ++ b) -> is_space c = true) /\
    (forall c u, t = c :: u -> is_space c = false) /\ (forall c u, t = u ++ [c] -> is_space c = false).
(** [t] is [l], [m], [r], and this is the first occurrence of [m] in [t]. *)
Definition first_cut (m t l r : pystr) : Prop :=
  t = l ++ m ++ r /\ forall a b, l ++ m = a ++ m ++ b -> b = [].

(** What stands for the fields and what for the rest *)
Inductive action_parts : pystr -> pystr -> (list coord -> action) -> Prop :=
| parts_remove : forall s t l r ds, trimmed s t -> (forall u, t <> 45 :: u) -> first_cut (lit "<>") t l r ->
    Forall2 digit_of r ds ->
    action_parts s l (fun cs => RemoveCandidates cs (map AInt ds))
| parts_set : forall s t l r n, trimmed s t -> (forall u, t <> 45 :: u) -> ~ occurs (lit "<>") t -> first_cut (lit "=") t l r ->
    int_text r n -> action_parts s l (fun cs => SetNumber cs (AInt n)).

(** The text [s] names the fields [l]. *)
Definition names_fields (sep ns : pystr) (w h : Z) (s : pystr) (l : list coord) : Prop :=
  exists gs fs, groups_of sep ns s gs /\ Forall2 (accepted ns (w * h)) gs fs /\ sorted_coords l /\
    forall p, In p l <-> exists f, In f fs /\ described w h f p.
(** The first group of [s] that is not accepted has no numbers that count. *)
Definition numberless_text (sep ns : pystr) (n : Z) (s : pystr) : Prop :=
  exists a fs g b, groups_of sep ns s (a ++ g :: b) /\ Forall2 (accepted ns n) a fs /\ numberless ns g.
(** An action with such a text for the fields (with a minus sign the fields come after the first blank) *)
Definition numberless_action (ns : pystr) (n : Z) (s : pystr) : Prop :=
  exists x, numberless_text (lit ",") ns n x /\
    ((exists mk, action_parts s x mk) \/ exists t u l, trimmed s t /\ t = 45 :: u /\ first_cut (lit " ") t l x).
