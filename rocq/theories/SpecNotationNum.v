(** Spec of the notation with widths and heights that may be floats. *)
From Verif Require Export SpecNotation.

(** The text of entries with numbers written like 1.0 *)
Definition float_text (n : Z) : pystr := str_of_int n ++ [46; 48].
Definition float_entries_text (q1 q2 : Z) (sep nsep : pystr) (es : list (list Z * list Z)) : pystr :=
  join sep (map (fun e => q1 :: join nsep (map float_text (fst e)) ++ q2 :: join nsep (map float_text (snd e))) es).
