(** C213: changes of the defaults of tensors; C214: default components. *)
From Coq Require Import QArith Qcanon.
From Verif Require Import Alg Arr Spec TensorM WorldM SpecWorld SpecPrefer Inst ExWorld Prefer_P Home_P Witness_Prefer_P.
Local Open Scope nat_scope.

(** C213 is false as stated: a tensor whose default coordinates were changed has its old components
    still, and cannot go back if there are no rules for the way back. *)
Theorem C213_way_back_refuted : exists (w : @world PolyOps) t o c c' a w1, reachable w /\ at_home w t o c /\ cls_of w t = Some CTensor /\ cls_of w c' = Some CCoordinates /\
  get_components t (Some c') None w = (Ok a, w1) /\ change_default_coords t c' w = (Err ETransformation, w).
Proof. exact away_witness. Qed.
Print Assumptions C213_way_back_refuted.

Section Prefer.
Context {A : AlgOps}.
Variables (w : world) (t : oid) (o : obj) (c : oid).
Hypothesis Hty : typed w.
Hypothesis Hh : at_home w t o c.

(** Changing the default indices is asking for the components and nothing else but the new default. *)
Theorem C213_indices_changed i a w1 : get_components t None (Some i) w = (Ok a, w1) ->
  exists w', change_default_indices t i w = (Ok tt, w') /\ other_defaults w1 w' t c i /\ get_components t None None w' = (Ok a, w').
Proof. exact (indices_ok w t o c i a w1 Hty Hh). Qed.
Theorem C213_indices_refused i e w1 : cls_of w t <> Some CMetric -> get_components t None (Some i) w = (Err e, w1) ->
  change_default_indices t i w = (Err e, w1).
Proof. exact (indices_err w t o c i e w1 Hty Hh). Qed.

(** So is changing the default coordinates, if there are rules. *)
Theorem C213_coordinates_changed c' a w1 : cls_of w c' = Some CCoordinates -> c <> c' -> has_rules w c c' ->
  get_components t (Some c') None w = (Ok a, w1) ->
  exists w', change_default_coords t c' w = (Ok tt, w') /\ other_defaults w1 w' t c' (o_indices o) /\ get_components t None None w' = (Ok a, w').
Proof. exact (coords_ok w t o c c' a w1 Hty Hh). Qed.
Theorem C213_coordinates_refused c' e w1 : cls_of w t <> Some CMetric -> valid_cfg (o_indices o) -> cls_of w c' = Some CCoordinates -> c <> c' -> has_rules w c c' ->
  get_components t (Some c') None w = (Err e, w1) -> change_default_coords t c' w = (Err e, w1).
Proof. exact (coords_err w t o c c' e w1 Hty Hh). Qed.

(** Without rules it is refused, whatever components there are; the present coordinates need none. *)
Theorem C213_no_rules c' oc' : obj_of w c <> None -> cls_of w c' = Some CCoordinates -> obj_of w c' = Some oc' -> c <> c' -> ~ has_rules w c c' ->
  change_default_coords t c' w = (Err ETransformation, w).
Proof. exact (coords_refused w t o c c' oc' Hh). Qed.
Theorem C213_same_coordinates : change_default_coords t c w = (Ok tt, w).
Proof. exact (coords_same w t o c Hty Hh). Qed.
End Prefer.
Print Assumptions C213_indices_changed.
Print Assumptions C213_indices_refused.
Print Assumptions C213_coordinates_changed.
Print Assumptions C213_coordinates_refused.
Print Assumptions C213_no_rules.
Print Assumptions C213_same_coordinates.

(** A vector and its metric; rules for one way only; indices that are accepted and refused. *)
Example ex_C213_tensors : exists o o' oc oc', typed ex_w /\ at_home ex_w 3 o 0 /\ at_home ex_w 2 o' 0 /\ cls_of ex_w 3 = Some CTensor /\ cls_of ex_w 2 = Some CMetric /\
  cls_of ex_w 1 = Some CCoordinates /\ obj_of ex_w 0 = Some oc /\ obj_of ex_w 1 = Some oc' /\ has_rules ex_w 0 1 /\ ~ has_rules ex_away_w 1 0 /\ valid_cfg (o_indices o) /\ o_indices o = [1]%Z /\
  (exists a w1, get_components 3 None (Some [-1]%Z) ex_w = (Ok a, w1)) /\ (exists e w1, get_components 3 None (Some [-1; 1]%Z) ex_w = (Err e, w1)) /\
  (exists a w1, get_components 2 None (Some [1; -1]%Z) ex_w = (Ok a, w1)) /\
  (exists a w1, get_components 3 (Some 1) None ex_w = (Ok a, w1)).
Proof. exact prefer_hyps. Qed.
(** Rules with a Jacobian that has no inverse. *)
Example ex_C213_singular : exists o, typed ex_bad_w /\ at_home ex_bad_w 3 o 0 /\ cls_of ex_bad_w 3 <> Some CMetric /\ valid_cfg (o_indices o) /\ cls_of ex_bad_w 1 = Some CCoordinates /\ has_rules ex_bad_w 0 1 /\
  exists e w1, get_components 3 (Some 1) None ex_bad_w = (Err e, w1).
Proof. exact bad_hyps. Qed.

(** C214 is false for metrics: a request that fails leaves some components behind, with which a
    change of coordinates is satisfied. *)
Theorem C214_metric_refuted : exists (w : @world PolyOps) m o w1, reachable w /\ In m (insts w) /\ obj_of w m = Some o /\ cls_of w m = Some CMetric /\
  get_components m None None w = (Err EKeyError, w1).
Proof. exact lost_witness. Qed.
Print Assumptions C214_metric_refuted.
(** The default components of every other tensor are there at any time, and reading them changes
    nothing. *)
Theorem C214_default_components {A : AlgOps} w t o : reachable w -> obj_of w t = Some o -> cls_of w t <> Some CCoordinates -> cls_of w t <> Some CMetric ->
  exists c a, at_home w t o c /\ valid_cfg (o_indices o) /\ get_components t None None w = (Ok a, w).
Proof. exact (tensor_home w t o). Qed.
Print Assumptions C214_default_components.

(** The vector that was moved to u, v. *)
Example ex_C214_vector : exists o, reachable ex_away_w /\ obj_of ex_away_w 3 = Some o /\ cls_of ex_away_w 3 <> Some CCoordinates /\ cls_of ex_away_w 3 <> Some CMetric.
Proof. exact away_tensor. Qed.
