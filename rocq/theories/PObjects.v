(** C133: sudokus with arbitrary objects in the fields. *)
From Verif Require Import LObjects2 LCheck.
From Verif Require PDlx.

(** C133: a field is empty iff its object is false; count is the number of the others. *)
Theorem C133_fields : forall O s, wf s -> exists e f n, glist (empty_o O s) s = Ok e /\ glist (filled_o O s) s = Ok f /\
  NoDup e /\ NoDup f /\
  (forall p, In p e <-> field s p /\ truth O (num s p) = false) /\ (forall p, In p f <-> field s p /\ truth O (num s p) = true) /\
  count_o O s = Ok n /\ n = Z.of_nat (length f) /\ n + Z.of_nat (length e) = (box_width s * box_height s) ^ 2.
Proof. exact C133_fields_proof. Qed.
Print Assumptions C133_fields.

(** C133: diff yields the fields whose objects are != ; == is True iff there are none. *)
Theorem C133_diff : forall O s t, wf s -> wf t -> box_size t = box_size s -> exists d b,
  glist (diff_o O s t) s = Ok d /\ NoDup d /\ (forall p, In p d <-> field s p /\ one O (num s p) (num t p) = true) /\
  sudoku_eq_o O s t = Ok b /\ (b = true <-> d = []).
Proof. exact C133_diff_proof. Qed.
Print Assumptions C133_diff.

(** C133: for sudokus of any sizes == is True iff the other one has all the fields and no objects are != . *)
Theorem C133_sizes : forall O s t, wf s -> wf t -> exists b, sudoku_eq_o O s t = Ok b /\
  (b = true <-> forall p, field s p -> field t p /\ one O (num s p) (num t p) = false).
Proof. exact C133_sizes_proof. Qed.
Print Assumptions C133_sizes.

(** C133: a copy has the same objects; it equals the sudoku iff no object is != itself. *)
Theorem C133_copy : forall O s cands, wf s -> exists t, copy s cands = Ok t /\ (forall p, field s p -> num t p = num s p) /\
  exists b, sudoku_eq_o O s t = Ok b /\ (b = true <-> forall p, field s p -> one O (num s p) (num s p) = false).
Proof. exact C133_copy_proof. Qed.
Print Assumptions C133_copy.

(** C133: find_conflicts yields the pairs of peers with equal true objects. *)
Theorem C133_conflicts : forall O s cs, wf s -> (forall p, In p cs -> field s p) ->
  exists l, glist (find_conflicts_o O s cs) s = Ok l /\
    (forall p q v, In (p, q, v) l <->
       (cs = [] \/ In p cs) /\ field s p /\ field s q /\
       peers (box_width s) (box_height s) p q /\ num s p = v /\ truth O v = true /\ oeq O (num s q) v = true).
Proof. exact C133_conflicts_proof. Qed.
Print Assumptions C133_conflicts.

(** C133: with a sudoku of ints that stands for it, a sudoku has the same conflicts, and is solved iff that one is. *)
Theorem C133_ints : forall O s t cs, stands O s t -> (forall p, In p cs -> field s p) ->
  (exists l l', glist (find_conflicts_o O s cs) s = Ok l /\ glist (find_conflicts t cs) t = Ok l' /\ map fst l = map fst l') /\
  is_solved_o O s = is_solved t.
Proof. intros O s t cs H Hc. split; [apply C133_conflicts_ints_proof; auto|apply C133_solved_proof; auto]. Qed.
Print Assumptions C133_ints.

(** C133: the candidates are the object itself, or the candidates in the sudoku of ints. *)
Theorem C133_candidates : forall O s t r c l, stands O s t -> field s (r, c) -> calc_candidates t r c = Ok l ->
  calc_candidates_o O s r c = Ok (if truth O (num s (r, c)) then inl (num s (r, c)) else inr l).
Proof. exact C133_candidates_proof. Qed.
Print Assumptions C133_candidates.

(** C133: dlx yields one sudoku per solution of the sudoku of ints: the true objects stay, the others become ints. *)
Theorem C133_dlx : forall O ord s t, (forall p l, Permutation (ord p l) l) -> stands O s t ->
  gresult (dlx_o O ord s) tt = Ok tt /\
  exists zs, enumerates t (solution t) zs /\ Forall2 (fills_in O s) (gyields (dlx_o O ord s) tt) zs.
Proof.
  intros O ord s t Ho H. destruct (C133_dlx_proof O ord s t Ho H) as [Hr HF]. split; auto. exists (gyields (dlx ord t) tt).
  split; auto. apply (C23_proof ord t Ho). apply H.
Qed.
Print Assumptions C133_dlx.

(** C133: is_unique decides whether the sudoku of ints has exactly one solution. *)
Theorem C133_unique : forall O ord s t, (forall p l, Permutation (ord p l) l) -> stands O s t ->
  exists b, is_unique_o O ord s = Ok b /\ (b = true <-> unique_solution t).
Proof.
  intros O ord s t Ho H. rewrite (C133_unique_proof O ord s t Ho H). apply C27_proof; auto. apply H.
Qed.
Print Assumptions C133_unique.

(** C133: if the first true object is not hashable, dlx and is_unique raise TypeError. *)
Theorem C133_unhashable : forall O ord s l1 p l2, wf s -> coords s = l1 ++ p :: l2 ->
  (forall q, In q l1 -> truth O (num s q) = false) -> truth O (num s p) = true -> okey O (num s p) = Err TypeError ->
  gyields (dlx_o O ord s) tt = [] /\ gresult (dlx_o O ord s) tt = Err TypeError /\ is_unique_o O ord s = Err TypeError.
Proof. exact C133_unhashable_proof. Qed.
Print Assumptions C133_unhashable.

(** C133: bruteforce yields one sudoku per completion of the sudoku of ints: the true objects stay. *)
Theorem C133_bruteforce : forall O ord s t, (forall l, Permutation (ord l) l) ->
  (forall n, truth O (oint O n) = negb (n =? 0)) -> stands O s t ->
  gresult (bruteforce_o O ord s) tt = Ok tt /\
  exists zs, enumerates t (completion t) zs /\ Forall2 (fills_in O s) (gyields (bruteforce_o O ord s) tt) zs.
Proof.
  intros O ord s t Ho Hi H. destruct (C133_bruteforce_proof O ord s t Ho Hi H) as [Hr HF]. split; auto.
  exists (gyields (bruteforce (fun _ => ord) t) tt). split; auto. apply (C19_proof (fun _ => ord) t (fun _ => Ho)). apply H.
Qed.
Print Assumptions C133_bruteforce.

(** C133: without conflicts, bruteforce raises TypeError if any true object is not hashable. *)
Theorem C133_bruteforce_unhashable : forall O ord s p, wf s ->
  (forall q r, field s q -> field s r -> peers (box_width s) (box_height s) q r -> truth O (num s q) = true ->
     oeq O (num s r) (num s q) = false) ->
  (forall q e, field s q -> okey O (num s q) = Err e -> e = TypeError) ->
  field s p -> truth O (num s p) = true -> okey O (num s p) = Err TypeError ->
  gyields (bruteforce_o O ord s) tt = [] /\ gresult (bruteforce_o O ord s) tt = Err TypeError.
Proof. exact C133_bruteforce_unhashable_proof. Qed.
Print Assumptions C133_bruteforce_unhashable.

(** Some objects: 0..4 the ints, 11 the float 1.0, 20 the string "a", 30 a NaN, 40 a list, 50 the empty string. *)
Definition objs : objects :=
  {| truth := fun x => negb ((x =? 0) || (x =? 50));
     oeq := fun x y => if (x =? 30) || (y =? 30) then false
                       else (if x =? 11 then 1 else x) =? (if y =? 11 then 1 else y);
     one := fun x y => if (x =? 30) || (y =? 30) then true
                       else negb ((if x =? 11 then 1 else x) =? (if y =? 11 then 1 else y));
     okey := fun x => if x =? 40 then Err TypeError else if x =? 11 then Ok (Some 1)
                      else if x <? 10 then Ok (Some x) else Ok None;
     oint := fun n => n |}.

(** ex4m with 1.0 for one 1 and "" for one 0 *)
Definition mixed4 : sudoku := of_rows 2 2
  [[11; 50; 0; 0];
   [0; 0; 0; 2];
   [0; 1; 0; 0];
   [0; 0; 0; 0]].
(** with "a" *)
Definition word4 : sudoku := of_rows 2 2
  [[11; 50; 0; 0];
   [0; 0; 0; 2];
   [0; 1; 0; 0];
   [0; 0; 0; 20]].
Definition word4i : sudoku := of_rows 2 2
  [[1; 0; 0; 0];
   [0; 0; 0; 2];
   [0; 1; 0; 0];
   [0; 0; 0; -1]].
Definition nan4 : sudoku := of_rows 2 2
  [[30; 0; 0; 0];
   [0; 0; 0; 0];
   [0; 0; 0; 0];
   [0; 0; 0; 0]].
Definition list4 : sudoku := of_rows 2 2
  [[0; 50; 40; 0];
   [0; 0; 0; 0];
   [0; 0; 0; 0];
   [0; 0; 0; 0]].

Lemma stands_check : forall O s t, wf s -> wf t -> box_size t = box_size s ->
  forallb (fun p => Bool.eqb (truth O (num s p)) (negb (num t p =? 0))) (coords s) = true ->
  forallb (fun p => negb (truth O (num s p)) ||
    forallb (fun q => Bool.eqb (oeq O (num s q) (num s p)) (num t q =? num t p)) (coords s)) (coords s) = true ->
  forallb (fun p => match okey O (num s p) with
                    | Ok (Some n) => n =? num t p
                    | Ok None => negb ((1 <=? num t p) && (num t p <=? box_width s * box_height s))
                    | Err _ => false
                    end) (coords s) = true -> stands O s t.
Proof.
  intros O s t W Wt B H1 H2 H3. rewrite forallb_forall in H1, H2, H3.
  split; auto. split; auto. split; auto. split; [|split].
  - intros p Fp. apply eqb_prop. apply H1. apply in_coords; auto.
  - intros p q Fp Fq Tp. specialize (H2 p). rewrite in_coords, Tp in H2. specialize (H2 Fp). cbn [negb orb] in H2.
    rewrite forallb_forall in H2. apply eqb_prop. apply H2. apply in_coords; auto.
  - intros p Fp. specialize (H3 p). rewrite in_coords in H3. specialize (H3 Fp).
    destruct (okey O (num s p)) as [[n|]|e]; try discriminate.
    + left. apply Z.eqb_eq in H3. rewrite H3; auto.
    + right. split; auto. apply negb_true_iff, andb_false_iff in H3. intros [X Y].
      destruct H3 as [H3|H3]; apply Z.leb_gt in H3; lia.
Qed.

Example C133_ex_stands : stands objs mixed4 ex4m /\ stands objs word4 word4i.
Proof.
  split; apply stands_check; try (apply wfb_ok); vm_compute; reflexivity.
Qed.
(** two conflicts of 1.0 with 1 if they are peers; six solutions as for ex4m, the 1.0 stays; none with the string *)
Example C133_ex_dlx : length (gyields (dlx_o objs PDlx.some_order mixed4) tt) = 6%nat /\
  map (fun y => num y (0, 0)) (gyields (dlx_o objs PDlx.some_order mixed4) tt) = [11; 11; 11; 11; 11; 11] /\
  gyields (dlx_o objs PDlx.some_order word4) tt = [] /\ is_unique_o objs PDlx.some_order word4 = Ok false.
Proof. repeat split; vm_compute; reflexivity. Qed.
Example C133_ex_fields : count_o objs mixed4 = Ok 3 /\ calc_candidates_o objs mixed4 0 0 = Ok (inl 11) /\
  calc_candidates_o objs mixed4 0 1 = Ok (inr [2; 3; 4]) /\ sudoku_eq_o objs mixed4 mixed4 = Ok true.
Proof. repeat split; vm_compute; reflexivity. Qed.
Example C133_ex_conflict : glist (find_conflicts_o objs (of_rows 1 2 [[11; 1]; [0; 20]]) [(0, 0)]) (of_rows 1 2 [[11; 1]; [0; 20]]) =
  Ok [((0, 0), (0, 1), 11)].
Proof. vm_compute; reflexivity. Qed.
Example C133_ex_nan : wf nan4 /\ sudoku_eq_o objs nan4 nan4 = Ok false /\ one objs (num nan4 (0, 0)) (num nan4 (0, 0)) = true.
Proof. repeat split; try (apply wfb_ok); vm_compute; reflexivity. Qed.
Example C133_ex_list : wf list4 /\ coords list4 = [(0, 0); (0, 1)] ++ (0, 2) :: skipn 3 (coords list4) /\
  truth objs (num list4 (0, 2)) = true /\ okey objs (num list4 (0, 2)) = Err TypeError.
Proof. split; [apply wfb_ok; vm_compute; reflexivity|]. repeat split; vm_compute; reflexivity. Qed.

(** bruteforce keeps the 1.0 and (unlike dlx) the string: the completions of word4 *)
Example C133_ex_bruteforce : length (gyields (bruteforce_o objs (@rev Z) mixed4) tt) = 6%nat /\
  map (fun y => (num y (0, 0), num y (3, 3))) (gyields (bruteforce_o objs (@rev Z) word4) tt) = repeat (11, 20) 6 /\
  gresult (bruteforce_o objs (@rev Z) list4) tt = Err TypeError.
Proof. repeat split; vm_compute; reflexivity. Qed.
