(** C215: requests that fail with TransformationError. *)
From Coq Require Import QArith Qcanon.
From Verif Require Import Alg Arr Spec TensorM WorldM SpecWorld SpecMissing Inst ExWorld Missing_P Witness_Prefer_P Witness_Missing_P.
Local Open Scope nat_scope.

(** C215 is false as stated: the vector has default coordinates with rules for the requested ones,
    and is found there with its default indices; with other indices it is refused, even in its own
    coordinates, as the metric cannot follow. *)
Theorem C215_own_rules_refuted : exists (w : @world PolyOps) t c c' i w1 w2 w3 a, reachable w /\ cls_of w t = Some CTensor /\ lives_in w t c /\ has_rules w c c' /\
  get_components t (Some c') (Some i) w = (Err ETransformation, w1) /\ change_default_indices t i w = (Err ETransformation, w2) /\
  get_components t (Some c') None w = (Ok a, w3).
Proof. exact mixed_witness. Qed.
Print Assumptions C215_own_rules_refuted.

Section Missing.
Context {A : AlgOps}.
Variables (w : world) (t c : oid).
Hypothesis Hty : typed w.

(** A request that fails with TransformationError lacks one of three sets of rules. *)
Theorem C215_request i w' : get_components t (Some c) i w = (Err ETransformation, w') -> missing w t c.
Proof. exact (request_missing w t c i w' Hty). Qed.
Theorem C215_metric_request i w' : cls_of w t = Some CMetric -> get_components t (Some c) i w = (Err ETransformation, w') -> missing_own w t c.
Proof. exact (metric_request_missing w t c i w' Hty). Qed.
Theorem C215_change_of_coordinates w' : change_default_coords t c w = (Err ETransformation, w') -> missing w t c.
Proof. exact (coords_missing w t c w' Hty). Qed.
Theorem C215_change_of_indices i w' : change_default_indices t i w = (Err ETransformation, w') -> exists c0, lives_in w t c0 /\ missing_metric w t c0.
Proof. exact (indices_missing w t i w' Hty). Qed.
(** Components that are found were there before, or there are rules for them. *)
Theorem C215_found i a w' : get_components t (Some c) i w = (Ok a, w') -> stored_in w t c \/ exists c0, lives_in w t c0 /\ has_rules w c0 c.
Proof. exact (request_found w t c i a w' Hty). Qed.
End Missing.
Print Assumptions C215_request.
Print Assumptions C215_metric_request.
Print Assumptions C215_change_of_coordinates.
Print Assumptions C215_change_of_indices.
Print Assumptions C215_found.

(** A vector moved to coordinates without a way back; a metric in x, y without rules; a vector of
    that metric in u, v. *)
Example ex_C215_requests : typed ex_away_w /\ cls_of ex_away_w 3 = Some CTensor /\ typed ex_mixed_w /\ cls_of ex_mixed_w 2 = Some CMetric /\
  (exists w', change_default_coords 3 0 ex_away_w = (Err ETransformation, w')) /\ (exists w', get_components 2 (Some 1) None ex_mixed_w = (Err ETransformation, w')) /\
  (exists w', change_default_coords 2 1 ex_mixed_w = (Err ETransformation, w')) /\
  (exists w', get_components 3 (Some 0) (Some [-1]%Z) ex_mixed_w = (Err ETransformation, w')) /\ (exists w', change_default_indices 3 [-1]%Z ex_mixed_w = (Err ETransformation, w')).
Proof. exact missing_hyps. Qed.
(** The vector of u, v, found in x, y. *)
Example ex_C215_found : typed ex_mixed_w /\ exists a w', get_components 3 (Some 0) None ex_mixed_w = (Ok a, w').
Proof. exact found_hyps. Qed.
