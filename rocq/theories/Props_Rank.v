(** C218: the rank of objects. *)
From Coq Require Import QArith Qcanon.
From Verif Require Import Alg Arr Spec TensorM WorldM SpecWorld Inst Ex ExWorld SpecRank Rank_P Stored_P Witness_Rank_P.
Local Open Scope nat_scope.

(** C218 is false for metrics that were refused when they were registered already. *)
Theorem C218_metric_of_rank_one_refuted : exists (w : @world PolyOps) name comps coords symbol w' m o, reachable w /\ new_metric name comps coords VNone symbol w = (Err ETypeError, w') /\
  reachable w' /\ In m (insts w') /\ cls_of w' m = Some CMetric /\ obj_of w' m = Some o /\ o_rank o = 1.
Proof. exact line_witness. Qed.
Print Assumptions C218_metric_of_rank_one_refuted.

Section Rank.
Context {A : AlgOps}.

(** The rank is the number of default indices at any time. *)
Theorem C218_rank_counts_indices w i o : reachable w -> obj_of w i = Some o -> o_rank o = length (o_indices o) /\ Forall (fun z => z = 1 \/ z = -1)%Z (o_indices o).
Proof. exact (fun R H => counted w i o R H). Qed.
(** It is the same for as long as the object exists. *)
Theorem C218_rank_constant w w' i o o' : reachable w -> later w w' -> obj_of w i = Some o -> obj_of w' i = Some o' -> o_rank o' = o_rank o.
Proof. exact (rank_constant w w' i o o'). Qed.
(** Coordinates have rank 1, metrics that are accepted have rank 2. *)
Theorem C218_coordinates w i o : reachable w -> obj_of w i = Some o -> cls_of w i = Some CCoordinates -> o_rank o = 1.
Proof. exact (fun R H => proj2 (reachable_ranked w i o R H)). Qed.
Theorem C218_accepted_metric name comps coords indices symbol w m w' : new_metric name comps coords indices symbol w = (Ok m, w') -> exists o, obj_of w' m = Some o /\ o_rank o = 2.
Proof. exact (metric_rank name comps coords indices symbol w m w'). Qed.
(** Every stored configuration of another object has that many indices. *)
Theorem C218_stored_configurations w t o c d i a : reachable w -> obj_of w t = Some o -> cls_of w t <> Some CCoordinates -> cls_of w t <> Some CMetric ->
  In (c, d) (o_comps o) -> In (i, a) d -> length i = o_rank o.
Proof. exact (stored_ranked w t o c d i a). Qed.
End Rank.
Print Assumptions C218_rank_counts_indices.
Print Assumptions C218_rank_constant.
Print Assumptions C218_coordinates.
Print Assumptions C218_accepted_metric.
Print Assumptions C218_stored_configurations.

(** A vector whose default indices and coordinates were changed; coordinates; a metric. *)
Example ex_C218_vector : exists o o', reachable ex_w /\ later ex_w ex_turned_w /\ obj_of ex_w 3 = Some o /\ obj_of ex_turned_w 3 = Some o' /\ o_indices o = [1]%Z /\ o_indices o' = [-1]%Z /\ o_coords o' = Some 1.
Proof. exact turned_hyps. Qed.
Example ex_C218_coordinates : exists o, reachable ex_w /\ obj_of ex_w 0 = Some o /\ cls_of ex_w 0 = Some CCoordinates.
Proof. exact coordinates_there. Qed.
Example ex_C218_metric : exists m w', new_metric (ex_str "h") (VArr ex_g) (VObj 0) (VTuple [-1; -1]%Z) (ex_str "h") ex_w = (Ok m, w').
Proof. exact metric_made. Qed.
(** The vector has components in both systems and in two configurations in the first one. *)
Example ex_C218_stored : exists o d a, reachable ex_turned_w /\ obj_of ex_turned_w 3 = Some o /\ cls_of ex_turned_w 3 <> Some CCoordinates /\ cls_of ex_turned_w 3 <> Some CMetric /\
  map fst (o_comps o) = [0; 1] /\ In (0, d) (o_comps o) /\ map fst d = [[1]; [-1]]%Z /\ In ([-1]%Z, a) d.
Proof. exact turned_stored. Qed.
