(** Property C102: the text of a sudoku.  Statements use only the model functions and the
    specification files; the proofs are in the L*.v files. *)
From Verif Require Import LView2 LCheck.

(** C102: view returns exactly the text described in SpecView.v, for every sudoku and all arguments; the width of the fields is determined by field_width. *)
Theorem C102_view : forall s include_candidates number_sep prefix align_right, wf s ->
  (exists m, field_width s include_candidates prefix m) /\
  forall m, field_width s include_candidates prefix m ->
  view s include_candidates number_sep prefix align_right = Ok (sudoku_text s include_candidates prefix align_right m).
Proof.
  intros s inc sep prefix right W. destruct (view_exact s inc prefix right W sep) as [m [F E]]. split; [exists m; exact F|].
  intros m' F'. replace m' with m; auto. destruct F as [A [B C]], F' as [A' [B' C']].
  assert (m <= m').
  { destruct A as [[n [Hn ->]]|[I [p [Hp ->]]]]; auto. }
  assert (m' <= m).
  { destruct A' as [[n [Hn ->]]|[I [p [Hp ->]]]]; auto. }
  lia.
Qed.
Print Assumptions C102_view.

(** C102: str is the same without candidates. *)
Theorem C102_str : forall s m, wf s -> field_width s false [] m -> sudoku_str s = Ok (sudoku_text s false [] true m).
Proof.
  intros s m W F. unfold sudoku_str.
  assert (F' : field_width s false (lit "*") m).
  { destruct F as [[A|[A _]] [B _]]; [|discriminate A]. split; [left; exact A|]. split; [exact B|discriminate]. }
  pose proof (proj2 (C102_view s false None (lit "*") true W) m F') as X. exact X.
Qed.
Print Assumptions C102_str.

(** Boxes of width 1 and height 2 with candidates, and boxes of height 1 *)
Example C102_ex :
  view (pcset (new_sudoku (1, 2)) (0, 0) [1; 2]) true None (lit "*") true = Ok (join [10] [lit "*12 |   *"; lit "  * |   *"]) /\
  view (of_rows 2 1 [[1; 0]; [2; 1]]) false None (lit "*") false = Ok (join [10] [lit "1  "; lit "----+----"; lit "2 1"]) /\
  sudoku_text (of_rows 2 1 [[1; 0]; [2; 1]]) false (lit "*") false 1 = join [10] [lit "1  "; lit "----+----"; lit "2 1"] /\
  field_width (pcset (new_sudoku (1, 2)) (0, 0) [1; 2]) true (lit "*") 3.
Proof.
  split; [vm_compute; reflexivity|]. split; [vm_compute; reflexivity|]. split; [vm_compute; reflexivity|]. split; [|split].
  - right. split; auto. exists (0, 0). split; [split; cbn; lia|vm_compute; reflexivity].
  - intros n Hn. change (box_width _ * box_height _) with 2 in Hn. assert (n = 1 \/ n = 2) as [-> | ->] by lia; vm_compute; discriminate.
  - intros _ [r c] [Hr Hc]. cbn in Hr, Hc. assert (r = 0 \/ r = 1) as [-> | ->] by lia; assert (c = 0 \/ c = 1) as [-> | ->] by lia; vm_compute; discriminate.
Qed.
