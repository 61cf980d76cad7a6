(** Specification vocabulary for the report of delete_results.  Definitions only. *)
From Verif Require Export SpecMessage.
Import List.

(** The text that reports [k] deleted results *)
Definition reported (k : nat) : text :=
  list_ascii_of_string "Deleted " ++ decimal k ++ list_ascii_of_string " tensor(s) named 'Result'.".
