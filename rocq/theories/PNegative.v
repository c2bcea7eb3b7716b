(** Property C115: box sizes that are not positive.  Statements use only the model functions and the
    specification files; the proofs are in the L*.v files. *)
From Verif Require Import LNegative.
From Verif Require Import SpecHelp LShell6 LShellFull.
From Verif Require Import PBrute PDlx PGenerate PHelp.

(** C115: create_solution raises IndexError whenever the width or the height of a box is not positive, whatever the random decisions. *)
Theorem C115_create : forall o w h, w <= 0 \/ h <= 0 -> create_solution o (w, h) = Err IndexError.
Proof. exact neg_create. Qed.
Print Assumptions C115_create.

(** C115: so does generate, after its own checks of min_count and symmetry. *)
Theorem C115_generate : forall o min_count y w h, w <= 0 \/ h <= 0 ->
  generate o min_count y (w, h) =
    if (w * h) * (w * h) <? min_count then Err ValueError
    else match y with SymOther => Err ValueError | _ => Err IndexError end.
Proof. exact neg_generate. Qed.
Print Assumptions C115_generate.

(** C115: and generate_from_template, unless it is to try it 0 times. *)
Theorem C115_template : forall fuel o template tries, box_width template <= 0 \/ box_height template <= 0 ->
  generate_from_template (S fuel) o template tries = if tries =? 0 then Err RuntimeError else Err IndexError.
Proof. exact neg_template. Qed.
Print Assumptions C115_template.

(** C115: with two negative numbers there are fields, but no boxes: box_of is empty or raises ValueError, and the surrounding of a field is its row and its column. *)
Theorem C115_boxes : forall s r c, box_width s < 0 -> box_height s < 0 ->
  box_of s r c true = Ok [] /\ box_of s r c false = Err ValueError /\
  surrounding_of s r c false = Ok (row_of s r c false ++ column_of s r c false).
Proof.
  intros s r c Hw Hh. unfold box_of, surrounding_of. rewrite (range_neg (box_height s)) by lia.
  split; [reflexivity|]. split; [reflexivity|].
  rewrite (proj1 (rel_quad (box_width s) (box_height s) Hh s _ r c (conj eq_refl (conj eq_refl eq_refl)))).
  rewrite app_nil_r. reflexivity.
Qed.
Print Assumptions C115_boxes.

(** C115: find_conflicts reports equal numbers in a row or a column; is_solved is true for complete grids without them. *)
Theorem C115_conflicts : forall s cs, sudoku_ok s -> box_width s < 0 -> box_height s < 0 -> (forall p, In p cs -> field s p) ->
  exists l, glist (find_conflicts s cs) s = Ok l /\
    (forall p q v, In (p, q, v) l <->
       (cs = [] \/ In p cs) /\ field s p /\ field s q /\ line_peers p q /\ v <> 0 /\ num s p = v /\ num s q = v) /\
    (NoDup cs -> NoDup l).
Proof.
  intros s cs K Hw Hh F. set (w := box_width s) in *. set (h := box_height s) in *.
  assert (R : rel w h s (redim 1 (w * h) s)) by (unfold rel; auto). set (t := redim 1 (w * h) s) in *.
  pose proof (rel_wf w h Hw Hh s t R K) as W. rewrite (rel_conflicts w h Hh s t cs R).
  destruct (C16_proof t cs W) as [l [E [X Y]]].
  { intros p I. apply (rel_field w h s t); auto. }
  exists l. split; [exact E|]. split; [|exact Y]. intros p q v. rewrite (X p q v), <- !(rel_field w h s t _ R), <- !(rel_num w h s t _ R).
  pose proof (rel_peers w h s t p q R) as P. tauto.
Qed.
Print Assumptions C115_conflicts.

Theorem C115_solved : forall s, sudoku_ok s -> box_width s < 0 -> box_height s < 0 ->
  exists b, is_solved s = Ok b /\ (b = true <-> complete s /\ lines_differ s).
Proof.
  intros s K Hw Hh. set (w := box_width s) in *. set (h := box_height s) in *.
  assert (R : rel w h s (redim 1 (w * h) s)) by (unfold rel; auto). set (t := redim 1 (w * h) s) in *.
  pose proof (rel_wf w h Hw Hh s t R K) as W. rewrite (rel_solved w h Hh s t R).
  destruct (C17_general_proof t W) as [b [E X]]. exists b. split; auto.
  rewrite (rel_complete w h s t R), (rel_differ w h s t R). exact X.
Qed.
Print Assumptions C115_solved.

(** C115: bruteforce ends normally and yields exactly the Latin squares that complete the sudoku, each once. *)
Theorem C115_bruteforce : forall ord s, (forall t l, Permutation (ord t l) l) -> sudoku_ok s -> box_width s < 0 -> box_height s < 0 ->
  gresult (bruteforce ord s) tt = Ok tt /\ lists_exactly s (latin_completion s) (gyields (bruteforce ord s) tt).
Proof. exact neg_brute. Qed.
Print Assumptions C115_bruteforce.

(** C115: init_candidates does not raise, whatever the box size. *)
Theorem C115_init : forall s b, sudoku_ok s -> exists t, init_candidates s b = Ok t.
Proof. exact init_any. Qed.
Print Assumptions C115_init.

(** C115: dlx raises KeyError on every such sudoku with more than one field, and with it is_unique. *)
Theorem C115_dlx : forall ord s, sudoku_ok s -> box_width s < 0 -> box_height s < 0 -> 1 < box_width s * box_height s ->
  dlx ord s = Raise KeyError /\ is_unique ord s = Err KeyError.
Proof.
  intros ord s K Hw Hh N. split; [apply neg_dlx; auto|]. unfold is_unique. rewrite neg_dlx by auto. reflexivity.
Qed.
Print Assumptions C115_dlx.

(** C115: hence dlx and bruteforce need not agree on an object made by Sudoku(). *)
Theorem C115_agree_refuted : exists s, s = new_sudoku (-1, -2) /\ sudoku_ok s /\
  forall ord ord', (forall t l, Permutation (ord' t l) l) ->
    gresult (dlx ord s) tt = Err KeyError /\ gresult (bruteforce ord' s) tt = Ok tt /\ gyields (bruteforce ord' s) tt <> [].
Proof.
  exists (new_sudoku (-1, -2)). split; [reflexivity|].
  assert (K : sudoku_ok (new_sudoku (-1, -2))).
  { unfold sudoku_ok. cbn. repeat split; auto.
    - intros row [<- | [<- | []]]; reflexivity.
    - intros row [<- | [<- | []]]; reflexivity.
    - intros row c [<- | [<- | []]] [<- | [<- | []]]; constructor. }
  split; [exact K|]. intros ord ord' O.
  split; [rewrite (neg_dlx ord _ K); [reflexivity|reflexivity|reflexivity|reflexivity]|].
  pose proof (C115_bruteforce ord' _ O K eq_refl eq_refl) as [E L]. split; [exact E|].
  destruct L as [_ [L _]]. destruct (L (fun p => (fst p + snd p) mod 2 + 1)) as [y [I _]].
  - split.
    + intros [r c] [[Fr Fr'] [Fc Fc']]. cbn [new_sudoku box_width box_height fst snd] in *.
      assert (X : (r = 0 \/ r = 1) /\ (c = 0 \/ c = 1)) by lia. destruct X as [[-> | ->] [-> | ->]]; vm_compute; split; try congruence; intuition congruence.
    + intros [r c] [r' c'] [[Fr Fr'] [Fc Fc']] [[Gr Gr'] [Gc Gc']] [N P]. cbn [new_sudoku box_width box_height fst snd] in *.
      assert (X : (r = 0 \/ r = 1) /\ (c = 0 \/ c = 1) /\ (r' = 0 \/ r' = 1) /\ (c' = 0 \/ c' = 1)) by lia.
      unfold same_row, same_col in P. cbn [fst snd] in P.
      destruct X as [[-> | ->] [[-> | ->] [[-> | ->] [-> | ->]]]]; vm_compute; intuition congruence.
  - intros E0. rewrite E0 in I. exact I.
Qed.
Print Assumptions C115_agree_refuted.

(** C115: in the shell such a box size makes generate report IndexError, if min_count and symmetry are fine; the current sudoku stays. *)
Theorem C115_shell_generate : forall docs C O st line c m m' y b w h y', sh_loop_n st = None ->
  parse (full_world docs C O) (strip line) = Ok c -> calls c (lit "generate") [m; y; b] -> int_value m m' ->
  box_size_value b w h -> w <= 0 \/ h <= 0 -> In (y, y') symmetry_names -> m' <= (w * h) * (w * h) ->
  execute_part 2 (full_world docs C O) st line = error (next_call st) (MExn IndexError).
Proof.
  intros docs C O st line c m m' y b w h y' L P K Hi Hb H Hy Hm.
  destruct (symmetry_value _ _ Hy) as [Sy Ny].
  rewrite (full_call docs C O 1 st line c _ _ _ L P K eq_refl eq_refl).
  rewrite (call_by_fun docs C O _ st (lit "generate") [] _ _ eq_refl eq_refl (generate_fun docs C (sh_calls st) m m' y b w h y' Hi Hb Sy)).
  rewrite (neg_generate _ _ _ _ _ H). destruct (Z.ltb_spec (w * h * (w * h)) m') as [X|X]; [lia|].
  destruct y'; try reflexivity. contradiction.
Qed.
Print Assumptions C115_shell_generate.

(** C115: in the shell solve replaces a sudoku of negative box width and height by a Latin square that completes it, or reports StopIteration if there is none. *)
Theorem C115_shell_solve : forall docs C O, world_ok O -> chance_ok C ->
  forall st line c s, reachable (full_world docs C O) st -> sh_loop_n st = None -> parse (full_world docs C O) (strip line) = Ok c ->
  calls c (lit "solve") [] -> current st = Some s -> box_width s < 0 -> box_height s < 0 ->
  (exists u st', execute_part 2 (full_world docs C O) st line = done st' /\ replaced st st' u /\ sudoku_ok u /\ box_size u = box_size s /\
     latin_completion s (num u)) \/
  ((forall f, ~ latin_completion s f) /\ execute_part 2 (full_world docs C O) st line = error (next_call st) (MExn StopIteration)).
Proof.
  intros docs C O HO HC st line c s R L P K Es Hw Hh. pose proof (inv_reachable _ (full_world_ok docs C O HO HC) st R) as I.
  assert (Hs : sudoku_ok s). { destruct (current_some st I) as [s' [E' H']]. rewrite Es in E'. injection E' as <-. auto. }
  rewrite (full_call docs C O 1 st line c _ _ _ L P K eq_refl eq_refl).
  rewrite (call_by_sudoku docs C O _ st (lit "solve") [lit "shell"; lit "sudoku"] [] s _ eq_refl eq_refl Es eq_refl).
  pose proof HC as [_ [_ Hb]].
  destruct (neg_brute (ch_brute C (sh_calls st)) s (Hb _) Hs Hw Hh) as [_ [En1 [En2 _]]].
  destruct (solve_result C HC (sh_calls st) s Hs) as [[u [Eu Hu]]|[Eu Hu]]; rewrite Eu; cbn [fresh_result].
  - left. destruct (replaced_ok st s u I Es) as [st' [E' R']]. exists u, st'. rewrite E'. destruct (En1 u Hu) as [A1 [A2 A3]]. auto.
  - right. split; [|reflexivity]. intros f Hf. destruct (En2 f Hf) as [y [Hy _]]. rewrite Hu in Hy. destruct Hy.
Qed.
Print Assumptions C115_shell_solve.

(** Such a session. *)
Example C115_shell_ex :
  (let st := help_after [lit "new (-1,-2)"; lit "set 0 1 2"; lit "solve"; lit "generate 4 box_size=(-1,-2)"] in
   help_numbers st = Some [[1; 2]; [2; 1]] /\ sh_err st = [MExn IndexError]) /\
  (let st := help_after [lit "new (-1,-2)"; lit "set 0 1 2"; lit "set 1 1 2"; lit "solve"] in
   help_numbers st = Some [[0; 2]; [0; 2]] /\ sh_err st = [MExn StopIteration]).
Proof. cbv zeta. vm_compute. auto. Qed.

(** Such calls: a 2x2 sudoku with box size (-1, -2), one with a number, a template. *)
Example C115_ex :
  sudoku_len (new_sudoku (-1, -2)) = 4 /\ coords (new_sudoku (-1, -2)) = [(0, 0); (0, 1); (1, 0); (1, 1)] /\
  (exists t, setitem (new_sudoku (-1, -2)) 0 1 2 = Ok t /\ sudoku_ok t /\
     map s_numbers (gyields (bruteforce rev_order t) tt) = [[[1; 2]; [2; 1]]] /\ is_solved t = Ok false /\
     glist (find_conflicts t []) t = Ok []) /\
  map s_numbers (gyields (bruteforce rev_order (new_sudoku (-1, -2))) tt) = [[[2; 1]; [1; 2]]; [[1; 2]; [2; 1]]] /\
  generate go_ex 0 SymNone (0, 3) = Err IndexError /\ generate go_ex 1 SymNone (0, 3) = Err ValueError /\
  generate go_ex 81 SymMirrorX (-3, -3) = Err IndexError /\ generate go_ex 5 SymOther (-3, -3) = Err ValueError /\
  create_solution co_ex (2, -1) = Err IndexError.
Proof.
  split; [reflexivity|]. split; [reflexivity|]. split.
  - eexists. split; [vm_compute; reflexivity|]. split; [|vm_compute; auto].
    unfold sudoku_ok. cbn. repeat split; auto.
    + intros row [<- | [<- | []]]; reflexivity.
    + intros row [<- | [<- | []]]; reflexivity.
    + intros row c [<- | [<- | []]] [<- | [<- | []]]; constructor.
  - split; [vm_compute; reflexivity|]. split; [vm_compute; reflexivity|]. split; [vm_compute; reflexivity|].
    split; [vm_compute; reflexivity|]. split; vm_compute; reflexivity.
Qed.
