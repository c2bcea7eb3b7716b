(** Specification of how Sudoku.decode reads a text. *)
From Verif Require Export SpecCodec SpecDecode.

(** [u] is [s] without the blanks around it; each blank that has no other meaning is replaced by [ns]. *)
Definition blank_item (special : pystr) (c : Z) : Prop := blank c /\ ~ In c special.
Definition cleaned_text (e ns ss cs s u : pystr) : Prop :=
  exists t xs, trimmed s t /\ u = concat xs /\
    Forall2 (fun c x => (blank_item (e ++ ss ++ cs ++ ns) c -> x = ns) /\ (~ blank_item (e ++ ss ++ cs ++ ns) c -> x = [c])) t xs.
(** The parts before and after the first [ss], if there is one *)
Definition two_parts (ss u a b : pystr) : Prop := first_cut ss u a b \/ ~ occurs ss u /\ a = u /\ b = [].
(** The pieces between the separators [m], from left to right *)
Inductive pieces (m : pystr) : pystr -> list pystr -> Prop :=
| pieces_last : forall t, ~ occurs m t -> pieces m t [t]
| pieces_more : forall t l r ps, first_cut m t l r -> pieces m r ps -> pieces m t (l :: ps).
(** The items of a text: the characters if there is no separator *)
Definition items_of (ns a : pystr) (l : list pystr) : Prop :=
  (ns = [] /\ l = map (fun c => [c]) a) \/ (ns <> [] /\ pieces ns a l).
(** The number an item stands for ([e] stands for 0 if it is empty or a single character of Latin-1) *)
Definition is_empty_item (e it : pystr) : Prop := it = e /\ (e = [] \/ exists c, e = [c] /\ c < 256).
Definition item_value (e it : pystr) (v : Z) : Prop :=
  (is_empty_item e it /\ v = 0) \/ (~ is_empty_item e it /\ int_text it v).
(** The candidates of a field *)
Definition item_cands (ns it : pystr) (vs : list Z) : Prop :=
  exists t l, trimmed it t /\ items_of ns t l /\ Forall2 int_text l vs.
(** The box size for [n] fields *)
Definition auto_size (n w h : Z) : Prop :=
  exists k, 0 <= k /\ k * k = n /\
    ((w = h /\ 0 <= w /\ w * w = k) \/ (~ square k /\ least_divisor w k /\ w < k /\ w * h = k)).

(** The text [s] stands for the sudoku [t]. *)
Definition stands_for (s e ns ss cs : pystr) (size : option (Z * Z)) (t : sudoku) : Prop :=
  ss <> [] /\ wf t /\
  exists u a b l vs, cleaned_text e ns ss cs s u /\ two_parts ss u a b /\ items_of ns a l /\
    let w := box_width t in let h := box_height t in let n := w * h in
    (match size with Some z => z = (w, h) | None => auto_size (Z.of_nat (length l)) w h end) /\
    Forall2 (item_value e) (firstn (Z.to_nat (n * n)) l) vs /\
    (forall i j, field t (i, j) -> num t (i, j) = nth (Z.to_nat (i * n + j)) vs 0) /\
    ((b = [] /\ forall p, field t p -> cand t p = []) \/
     (b <> [] /\ cs <> [] /\ exists l2 ls, pieces cs b l2 /\ Forall2 (item_cands ns) (firstn (Z.to_nat (n * n)) l2) ls /\
        forall i j, field t (i, j) -> forall v, In v (cand t (i, j)) <-> In v (nth (Z.to_nat (i * n + j)) ls []))).
(** The text [s] has neither fields nor candidates, and no size is given. *)
Definition stands_for_nothing (s e ns ss cs : pystr) (size : option (Z * Z)) (t : sudoku) : Prop :=
  ss <> [] /\ size = None /\ ns = [] /\ t = new_sudoku (0, 0) /\
  exists u, cleaned_text e ns ss cs s u /\ two_parts ss u [] [].
(** The text [s] has candidates for a first field, but no fields, and no size is given. *)
Definition only_candidates (s e ns ss cs : pystr) (size : option (Z * Z)) : Prop :=
  ss <> [] /\ size = None /\ ns = [] /\ cs <> [] /\
  exists u b it l vs, cleaned_text e ns ss cs s u /\ two_parts ss u [] b /\ b <> [] /\ pieces cs b (it :: l) /\ item_cands ns it vs.
(** If a size is given, it is one of a sudoku. *)
Definition size_given_ok (size : option (Z * Z)) : Prop := match size with Some (w, h) => 1 <= w /\ 1 <= h | None => True end.
