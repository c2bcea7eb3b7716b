(** Python strings: lists of code points.  The classification of characters
    ([is_space], [decimal]) is that of Unicode 14, which CPython 3.11 has.
    No proofs here. *)
From Coq Require Import Ascii.
From Coq Require String.
Export String.StringSyntax.
From Verif Require Export PyBase.

Definition pystr : Type := list Z.

(** String literals. *)
Definition lit (s : String.string) : pystr :=
  map (fun c => Z.of_nat (nat_of_ascii c)) (String.list_ascii_of_string s).
Arguments lit s%string_scope.

(** Equality of strings. *)
Fixpoint str_eqb (a b : pystr) : bool :=
  match a, b with
  | [], [] => true
  | x :: a, y :: b => (x =? y) && str_eqb a b
  | _, _ => false
  end.

(** [c in s] for a character [c] *)
Definition char_in (c : Z) (s : pystr) : bool := existsb (Z.eqb c) s.

(** [str.isspace] for one character *)
Definition is_space (c : Z) : bool :=
  ((9 <=? c) && (c <=? 13)) || ((28 <=? c) && (c <=? 32)) || (c =? 133) || (c =? 160) ||
  (c =? 5760) || ((8192 <=? c) && (c <=? 8202)) || (c =? 8232) || (c =? 8233) || (c =? 8239) || (c =? 8287) || (c =? 12288).

(** [string.whitespace]: blank, tab, newline, return, vertical tab, form feed *)
Definition WHITESPACE : pystr := [32; 9; 10; 13; 11; 12].

(** [string.digits] *)
Definition is_digit (c : Z) : bool := (48 <=? c) && (c <=? 57).

(** The decimal digits (category Nd): in each of 66 scripts ten code points in a row, beginning with these *)
Definition DECIMAL_ZEROS : list Z :=
  [48; 1632; 1776; 1984; 2406; 2534; 2662; 2790; 2918; 3046; 3174; 3302; 3430; 3558; 3664; 3792; 3872; 4160; 4240; 6112; 6160;
   6470; 6608; 6784; 6800; 6992; 7088; 7232; 7248; 42528; 43216; 43264; 43472; 43504; 43600; 44016; 65296; 66720; 68912; 69734;
   69872; 69942; 70096; 70384; 70736; 70864; 71248; 71360; 71472; 71904; 72016; 72784; 73040; 73120; 92768; 92864; 93008;
   120782; 120792; 120802; 120812; 120822; 123200; 123632; 125264; 130032].
(** The value of a decimal digit ([unicodedata.decimal]) *)
Definition decimal (c : Z) : option Z :=
  match List.find (fun z => (z <=? c) && (c <=? z + 9)) DECIMAL_ZEROS with
  | Some z => Some (c - z)
  | None => None
  end.

Fixpoint drop_while (f : Z -> bool) (s : pystr) : pystr :=
  match s with
  | [] => []
  | c :: t => if f c then drop_while f t else s
  end.
Definition strip_by (f : Z -> bool) (s : pystr) : pystr :=
  rev (drop_while f (rev (drop_while f s))).
(** [s.strip()] *)
Definition strip (s : pystr) : pystr := strip_by is_space s.

(** [s.replace(c, by)] for a single character [c] *)
Definition replace_char (c : Z) (by_ s : pystr) : pystr :=
  flat_map (fun x => if x =? c then by_ else [x]) s.

(** [s.startswith(p)] *)
Fixpoint starts_with (p s : pystr) : bool :=
  match p, s with
  | [], _ => true
  | x :: p, y :: s => (x =? y) && starts_with p s
  | _, [] => false
  end.

(** [sep.join(l)] *)
Fixpoint join (sep : pystr) (l : list pystr) : pystr :=
  match l with
  | [] => []
  | [x] => x
  | x :: t => x ++ sep ++ join sep t
  end.

Definition cons_head (c : Z) (l : list pystr) : list pystr :=
  match l with
  | [] => [[c]]
  | x :: t => (c :: x) :: t
  end.

(** The pieces of [s] between the occurrences of the non-empty string [sep],
    from left to right, not overlapping; [skip] characters are still part of
    the last occurrence. *)
Fixpoint split_go (sep s : pystr) (skip : nat) : list pystr :=
  match s with
  | [] => [[]]
  | c :: t =>
      match skip with
      | S k => split_go sep t k
      | O => if starts_with sep s then [] :: split_go sep t (length sep - 1)
             else cons_head c (split_go sep t 0)
      end
  end.

(** [s.split(sep)]: ValueError for an empty separator *)
Definition split (sep s : pystr) : res (list pystr) :=
  match sep with
  | [] => Err ValueError
  | _ => Ok (split_go sep s 0)
  end.

(** The parts before and after the first occurrence of [sep]; None if there is none. *)
Fixpoint cut (sep s : pystr) : option (pystr * pystr) :=
  if starts_with sep s then Some ([], skipn (length sep) s)
  else match s with
       | [] => None
       | c :: t => match cut sep t with
                   | Some (a, b) => Some (c :: a, b)
                   | None => None
                   end
       end.

(** [sub in s] *)
Definition str_in (sub s : pystr) : bool :=
  match cut sub s with Some _ => true | None => false end.

(** [s.replace(old, new)] for a non-empty [old] *)
Definition replace (old new s : pystr) : pystr := join new (split_go old s 0).

(** [str(n)] for an int.  The fuel suffices because the binary logarithm
    decreases.  (CPython refuses more than 4300 digits; not modelled.) *)
Fixpoint digits_of (fuel : nat) (n : Z) : pystr :=
  match fuel with
  | O => []
  | S f => if n <? 10 then [48 + n] else digits_of f (n / 10) ++ [48 + n mod 10]
  end.
Definition str_of_nat (n : Z) : pystr := digits_of (S (Z.to_nat (Z.log2 n))) n.
Definition str_of_int (n : Z) : pystr :=
  if n <? 0 then 45 :: str_of_nat (- n) else str_of_nat n.

(** [int(s)] for a string: surrounding whitespace, a sign, decimal digits (of any
    script) with single underscores between them; ValueError otherwise.  Characters
    28-31 are not whitespace for int(), but they are for [str.strip]. *)
Fixpoint digits_val (l : pystr) (acc : Z) (after_digit : bool) : option Z :=
  match l with
  | [] => if after_digit then Some acc else None
  | c :: t =>
      match decimal c with
      | Some d => digits_val t (10 * acc + d) true
      | None => if (c =? 95) && after_digit then digits_val t acc false else None
      end
  end.
Definition int_space (c : Z) : bool := is_space c && negb ((28 <=? c) && (c <=? 31)).
Definition int_of_str (s : pystr) : res Z :=
  let t := strip_by int_space s in
  let r := match t with
           | 45 :: u => match digits_val u 0 false with Some n => Some (- n) | None => None end
           | 43 :: u => digits_val u 0 false
           | _ => digits_val t 0 false
           end in
  match r with
  | Some n => Ok n
  | None => Err ValueError
  end.

(** [s.rjust(n)], [s.ljust(n)] *)
Definition rjust (n : Z) (s : pystr) : pystr := repeat 32 (Z.to_nat (n - py_len s)) ++ s.
Definition ljust (n : Z) (s : pystr) : pystr := s ++ repeat 32 (Z.to_nat (n - py_len s)).

(** [c * n] for a one-character string *)
Definition str_mul (c : Z) (n : Z) : pystr := repeat c (Z.to_nat n).
