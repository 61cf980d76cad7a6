(** Specification vocabulary for messages of errors.  Definitions only. *)
From Coq Require Export Ascii DecimalString.
From Verif Require Export Base LexM.
Import List.

(** The decimal digits of a number *)
Definition decimal (n : nat) : text := list_ascii_of_string (NilZero.string_of_uint (Nat.to_uint n)).

(** The text occurs in the message. *)
Definition says (m t : text) : Prop := exists a b, m = a ++ t ++ b.

(** The text occurs in the message before the other one. *)
Definition says_both (m t u : text) : Prop := exists a b c, m = a ++ t ++ b ++ u ++ c.

(** Tuples as Python prints them *)
Fixpoint listed (l : list text) : text :=
  match l with [] => [] | x :: l' => x ++ match l' with [] => [] | _ :: _ => list_ascii_of_string ", " ++ listed l' end end.
Definition python_tuple (l : list text) : text :=
  list_ascii_of_string "(" ++ listed l ++ list_ascii_of_string (if List.length l =? 1 then ",)" else ")").

(** Integers as Python prints them *)
Definition integer (z : Z) : text := list_ascii_of_string (NilZero.string_of_int (Z.to_int z)).
