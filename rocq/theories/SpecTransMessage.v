(** Specification vocabulary for messages about missing rules.  Definitions only. *)
From Verif Require Export SpecMessage SpecMissing.
Import List.
Local Open Scope nat_scope.

(** The text that tells that there are no rules from [a] to [b] *)
Definition no_rules_text (a b : string) : text :=
  list_ascii_of_string "The transformation is invalid." ++ [ascii_of_nat 10] ++
  list_ascii_of_string "No coordinate transformation rule exists between " ++ list_ascii_of_string a ++
  list_ascii_of_string " and " ++ list_ascii_of_string b ++ list_ascii_of_string ".".

(** A name without blanks *)
Definition one_word (a : string) : Prop := ~ In " "%char (list_ascii_of_string a).
