(** C219: what exports announce and what imports need. *)
From Coq Require Import Ascii.
From Verif Require Import Alg Arr Spec TensorM WorldM SpecWorld LexM ParseM InterpM SpecParse ExportM SpecExport Inst Ex ExWorld ExExport Witness2_Export_P SpecAnnounce Announce_P Witness_Announce_P.
Import List.
Local Open Scope string_scope.
Local Open Scope list_scope.
Local Open Scope nat_scope.

Section Announce.
Context {A : AlgOps} {O : PyOps} {C : CodeOps}.

(** Every export tells the version: that of an object as its last entry, that of a session as its
    first one. *)
Theorem C219_export_tells_version t (w : world) s w' : export_to_string t w = (Ok s, w') ->
  exists o middle, obj_of w t = Some o /\ s = chars "<|" ++ [dquote] ++ chars (o_name o) ++ [dquote] ++ chars "-><|" ++ middle ++ chars ",""OGReVersion""->""PyOGRe v1.0.0""|>|>".
Proof. exact (export_version t w s w'). Qed.
Theorem C219_export_all_tells_version (w : world) s w' : export_all_to_string w = (Ok s, w') ->
  exists rest, s = chars "<|""Options""-><|""OGReVersion""->""PyOGRe v1.0.0""|>," ++ rest ++ chars "|>".
Proof. exact (export_all_version w s w'). Qed.
(** A text that is imported is an association in which every object has all it needs. *)
Theorem C219_imported_texts_are_complete n s (w : world) : (exists i w', import_from_string n s w = (Ok i, w')) \/ (exists r w', import_all_from_string n s w = (Ok r, w')) ->
  exists l, parse_str n s = Ok (VD l) /\ forall name tensor, In (name, tensor) l -> name <> VS (chars "Options") -> complete tensor.
Proof. exact (imports_complete n s w). Qed.
(** Otherwise import_from_string raises KeyError and the session is as before. *)
Theorem C219_role_missing n s d (w : world) : first_object n s d -> (forall v, ~ In (VS (chars "Role"), v) d) -> import_from_string n s w = (Err EKeyError, w).
Proof. exact (role_missing n s d w). Qed.
Theorem C219_role_unknown n s d1 d2 role (w : world) : first_object n s (d1 ++ (VS (chars "Role"), VS (chars role)) :: d2) -> (forall v, ~ In (VS (chars "Role"), v) d1) ->
  ~ In role role_names -> import_from_string n s w = (Err EKeyError, w).
Proof. exact (role_unknown n s d1 d2 role w). Qed.
Theorem C219_entry_missing n s d1 d2 role key (w : world) : let d := d1 ++ (VS (chars "Role"), VS (chars role)) :: d2 in
  first_object n s d -> (forall v, ~ In (VS (chars "Role"), v) d1) -> In role role_names ->
  In key ["DefaultCoords"; "DefaultIndices"; "Components"] -> (forall v, ~ In (VS (chars key), v) d) -> import_from_string n s w = (Err EKeyError, w).
Proof. exact (entry_missing n s d1 d2 role key w). Qed.
End Announce.
Print Assumptions C219_export_tells_version.
Print Assumptions C219_export_all_tells_version.
Print Assumptions C219_imported_texts_are_complete.
Print Assumptions C219_role_missing.
Print Assumptions C219_role_unknown.
Print Assumptions C219_entry_missing.

(** A vector and a session that are exported, a vector that is imported, and three texts without what
    an import needs. *)
Example ex_C219_exports : (exists s w', export_to_string 3 ex_full_w = (Ok s, w')) /\ (exists s w', export_all_to_string ex_full_w = (Ok s, w')).
Proof. exact (conj vector_exported all_exported). Qed.
Example ex_C219_import : exists i w', import_from_string 400 bare_text ex_full_w = (Ok i, w').
Proof. exact vector_imported. Qed.
Example ex_C219_no_role : exists d, @first_object PolyPy 400 no_role_text d /\ forall v, ~ In (VS (chars "Role"), v) d.
Proof. exact no_role. Qed.
Example ex_C219_odd_role : exists d1 d2, @first_object PolyPy 400 odd_role_text (d1 ++ (VS (chars "Role"), VS (chars "Spinor")) :: d2) /\ (forall v, ~ In (VS (chars "Role"), v) d1) /\ ~ In "Spinor" role_names.
Proof. exact odd_role. Qed.
Example ex_C219_no_components : exists d1 d2, let d := d1 ++ (VS (chars "Role"), VS (chars "Tensor")) :: d2 in
  @first_object PolyPy 400 no_components_text d /\ (forall v, ~ In (VS (chars "Role"), v) d1) /\ In "Tensor" role_names /\ (forall v, ~ In (VS (chars "Components"), v) d).
Proof. exact no_components. Qed.
