(** Specification of the settings of the game. *)
From Verif Require Export SpecGame.

(** The alphabetical order of names *)
Definition before (a b : pystr) : Prop :=
  (exists c t, b = a ++ c :: t) \/ exists p x y t u, a = p ++ x :: t /\ b = p ++ y :: u /\ x < y.
(** The entries of the settings, by name *)
Definition by_name (cfg l : settings) : Prop := Permutation cfg l /\ StronglySorted (fun a b => before (fst a) (fst b)) l.
(** The line shown for a pair: the first number in a column of at least 20 characters, then the second *)
Definition pair_line (name : pystr) (a b : Z) : pystr :=
  let t := name ++ lit " = " ++ str_of_int a in
  t ++ repeat 32 (20 - length t) ++ lit " # " ++ str_of_int b ++ [10].

(** Two settings with the same entry *)
Definition same_entry (cfg cfg' : settings) (name : pystr) : Prop := forall v, In (name, v) cfg <-> In (name, v) cfg'.
Definition used_names : list pystr := [lit "autocandidates"; lit "autoremove"; lit "autoset"].

(** The game with other settings *)
Definition with_settings (cfg : settings) (g : game) : game :=
  mkGame cfg (gm_hints g) (gm_hinted g) (gm_sudokus g) (gm_index g) (gm_solution g) (gm_out g) (gm_calls g).
Definition map_game {A} (f : game -> game) (o : game * A) : game * A := (f (fst o), snd o).
