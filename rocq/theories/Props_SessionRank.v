(** C214 and C218 in sessions of all public calls. *)
From Verif Require Import Alg Arr Spec TensorM WorldM SpecWorld CalcM CurvM GeodM LineM InfoM SpecInfo CurveM ShowM Base LexM ParseM InterpM ExportM Inst Ex ExWorld ExExport InstCurve
  SpecSession SpecPrefer Session8_P Witness_Session_P Witness_SessionRank_P.
Import List.
Local Open Scope nat_scope.

Section Sessions.
Context {A : AlgOps} {O : PyOps} {C : CodeOps} {N : NumSubs A}.

(** The default components of tensors are there, and reading them changes nothing. *)
Theorem C214_default_components_in_sessions w kept t o : session w kept -> obj_of w t = Some o -> cls_of w t <> Some CCoordinates -> cls_of w t <> Some CMetric ->
  exists c a, at_home w t o c /\ valid_cfg (o_indices o) /\ get_components t None None w = (Ok a, w).
Proof. exact (session_home w kept t o). Qed.
(** The rank is the number of default indices, and that of coordinates is 1. *)
Theorem C218_rank_in_sessions w kept i o : session w kept -> obj_of w i = Some o ->
  (o_rank o = length (o_indices o) /\ Forall (fun z => z = 1 \/ z = -1)%Z (o_indices o)) /\ (cls_of w i = Some CCoordinates -> o_rank o = 1).
Proof. exact (session_ranked w kept i o). Qed.
(** Every stored configuration has that many indices. *)
Theorem C218_stored_in_sessions w kept t o c d i a : session w kept -> obj_of w t = Some o -> cls_of w t <> Some CCoordinates -> cls_of w t <> Some CMetric ->
  In (c, d) (o_comps o) -> In (i, a) d -> length i = o_rank o.
Proof. exact (session_stored w kept t o c d i a). Qed.
End Sessions.
Print Assumptions C214_default_components_in_sessions.
Print Assumptions C218_rank_in_sessions.
Print Assumptions C218_stored_in_sessions.

(** A Riemann tensor that a session calculated; a vector with two configurations in the first system. *)
Example ex_C214_C218_riemann : exists o, session (fst ex_after) (snd ex_after) /\ obj_of (fst ex_after) 28 = Some o /\ cls_of (fst ex_after) 28 <> Some CCoordinates /\
  cls_of (fst ex_after) 28 <> Some CMetric /\ o_rank o = 4.
Proof. exact riemann_there. Qed.
Example ex_C218_vector_stored : exists o d a, session (fst ex_after) (snd ex_after) /\ obj_of (fst ex_after) 3 = Some o /\ cls_of (fst ex_after) 3 <> Some CCoordinates /\ cls_of (fst ex_after) 3 <> Some CMetric /\
  map fst (o_comps o) = [0; 1] /\ In (0, d) (o_comps o) /\ map fst d = [[1]; [-1]]%Z /\ In ([-1]%Z, a) d.
Proof. exact vector_stored. Qed.
