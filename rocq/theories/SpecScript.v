(** Specification: texts that differ only in the script of their digits. *)
From Verif Require Export SpecDecode.

(** [c] and [c'] are the same decimal digit, perhaps of different scripts. *)
Definition same_digit (c c' : Z) : Prop := exists d, digit_of c d /\ digit_of c' d.
(** [t'] is [t] with some digits written in other scripts. *)
Definition transliterated (t t' : pystr) : Prop := Forall2 (fun c c' => c = c' \/ same_digit c c') t t'.
(** The text has no digits of any script. *)
Definition no_digits (t : pystr) : Prop := forall c d, In c t -> ~ digit_of c d.
(** The text consists of characters that str.strip() removes. *)
Definition only_blanks (t : pystr) : Prop := forall c, In c t -> is_space c = true.
