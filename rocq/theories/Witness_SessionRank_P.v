(** Ranks and default components in a concrete session of public calls. *)
From Coq Require Import QArith.
From Verif Require Import Alg Arr Arr_P Spec TensorM WorldM SpecWorld CalcM CurvM GeodM LineM InfoM CurveM ShowM Base LexM ParseM InterpM ExportM Inst Ex ExWorld ExExport InstCurve Witness_World_P Session_P SpecSession Session8_P
  Witness_Session_P Witness_Prefer_P Witness_Rank_P.
Import List.
Local Open Scope nat_scope.

(** The Riemann tensor that was calculated. *)
Lemma riemann_there : exists o, session (fst ex_after) (snd ex_after) /\ obj_of (fst ex_after) 28 = Some o /\ cls_of (fst ex_after) 28 <> Some CCoordinates /\ cls_of (fst ex_after) 28 <> Some CMetric /\ o_rank o = 4.
Proof.
  assert (H : rankb (fst ex_after) 28 4 = true) by vmtrue. unfold rankb in H. assert (K : cls_of (fst ex_after) 28 = Some CTensor) by (apply clsb_spec; vmtrue).
  destruct (obj_of (fst ex_after) 28) as [o|] eqn:Ho; [|discriminate H]. apply Nat.eqb_eq in H. exists o. split; [apply ex_after_session|]. split; [reflexivity|].
  rewrite K. split; [discriminate|]. split; [discriminate|exact H].
Qed.
(** The vector, with components in both systems. *)
Lemma vector_stored : exists o d a, session (fst ex_after) (snd ex_after) /\ obj_of (fst ex_after) 3 = Some o /\ cls_of (fst ex_after) 3 <> Some CCoordinates /\ cls_of (fst ex_after) 3 <> Some CMetric /\
  map fst (o_comps o) = [0; 1] /\ In (0, d) (o_comps o) /\ map fst d = [[1]; [-1]]%Z /\ In ([-1]%Z, a) d.
Proof.
  destruct (storedb_spec (fst ex_after)) as (o & d & a & Ho & H); [vmtrue|]. assert (K : cls_of (fst ex_after) 3 = Some CTensor) by (apply clsb_spec; vmtrue).
  exists o, d, a. split; [apply ex_after_session|]. split; [exact Ho|]. rewrite K. split; [discriminate|]. split; [discriminate|exact H].
Qed.
