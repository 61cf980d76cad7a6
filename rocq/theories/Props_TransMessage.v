(** Properties of the messages about missing rules.  Theorems only; proofs in TransMessage_P.v. *)
From Verif Require Import Base LexM Alg Arr Inst WorldM SpecWorld SpecMessage SpecMissing TransMessageM SpecTransMessage TransMessage_P ExWorld Witness_TransMessage_P.
Import List.
Local Open Scope nat_scope.

(** C217: the message of a TransformationError about missing rules tells which systems it is about.
    It has their names, which need not be different: *)
Theorem C217_systems_told_refuted : exists (w : @world PolyOps) t c c1 c2 m w1 w2, reachable w /\ lives_in w t c /\ c1 <> c2 /\
  change_default_coords t c1 w = (Err ETransformation, w1) /\ change_default_coords t c2 w = (Err ETransformation, w2) /\
  refused_coords t c1 w = Some m /\ refused_coords t c2 w = Some m.
Proof. exact twins_witness. Qed.
Print Assumptions C217_systems_told_refuted.

Section TransMessage.
Context {A : AlgOps}.
Variables (w : world) (c c' : oid) (so co : obj).
Hypothesis Hs : obj_of w c = Some so.
Hypothesis Hc : obj_of w c' = Some co.

(** Jacobians: the message has the system that lacks the rules first and the other one second; there
    is a message exactly when the error is raised. *)
Theorem C217_jacobians m : refused_jacobians c c' w = Some m ->
  w_check_jacobians c c' w = (Err ETransformation, w) /\ ~ has_rules w c c' /\ m = no_rules_text (o_name so) (o_name co).
Proof. exact (jacobians_told w c c' so co Hs Hc m). Qed.
Theorem C217_jacobians_only w' : w_check_jacobians c c' w = (Err ETransformation, w') -> exists m, refused_jacobians c c' w = Some m.
Proof. exact (jacobians_silent w c c' so co Hs Hc w'). Qed.

(** The same for a change of the default coordinates [c] of [t], which asks for rules even when the
    components are there. *)
Theorem C217_change_of_coordinates t m : cls_of w c' = Some CCoordinates -> lives_in w t c -> refused_coords t c' w = Some m ->
  change_default_coords t c' w = (Err ETransformation, w) /\ ~ has_rules w c c' /\ m = no_rules_text (o_name so) (o_name co).
Proof. exact (coords_told w c c' so co Hs Hc t m). Qed.
Theorem C217_change_without_rules t : cls_of w c' = Some CCoordinates -> lives_in w t c -> c <> c' -> ~ has_rules w c c' ->
  exists m, refused_coords t c' w = Some m.
Proof. exact (coords_told_missing w c c' so co Hs Hc t). Qed.
End TransMessage.
Print Assumptions C217_jacobians.
Print Assumptions C217_jacobians_only.
Print Assumptions C217_change_of_coordinates.
Print Assumptions C217_change_without_rules.

(** The text tells both names when the first one has no blanks, *)
Theorem C217_names_told a b a' b' : one_word a -> one_word a' -> no_rules_text a b = no_rules_text a' b' -> a = a' /\ b = b'.
Proof. exact (text_tells a b a' b'). Qed.
Print Assumptions C217_names_told.
(** but not for all names. *)
Theorem C217_names_told_refuted : exists a b a' b', no_rules_text a b = no_rules_text a' b' /\ a <> a' /\ b <> b'.
Proof. exact names_not_told. Qed.
Print Assumptions C217_names_told_refuted.

Example C217_hypotheses_met : exists so co, obj_of ex_twins_w 0 = Some so /\ obj_of ex_twins_w 1 = Some co /\ cls_of ex_twins_w 1 = Some CCoordinates /\ lives_in ex_twins_w 3 0 /\
  ~ has_rules ex_twins_w 0 1 /\ (exists m, refused_coords 3 1 ex_twins_w = Some m) /\ (exists m, refused_jacobians 0 1 ex_twins_w = Some m) /\
  o_name so = "XY"%string /\ o_name co = "UV"%string.
Proof. exact twins_hyps. Qed.
Example C217_words : one_word "XY" /\ one_word "UV".
Proof. exact words_met. Qed.
