(** Properties of products of scalars and tensors.  Theorems only; proofs in ScalarMul_P.v. *)
From Verif Require Import Base Alg Alg_P Arr Arr_P Spec WorldM SpecWorld CalcM SpecCalc SpecScalar Inst ScalarMul_P Witness_Scalar_P Witness_Product_P.
Import List.
Local Open Scope nat_scope.

(** C209: a tensor can be multiplied by each scalar that has components in its coordinates, from
    either side.  False for tensors that are scalars: [y] has components in the coordinates of [x],
    but x * y and y * x both raise TransformationError, because both operands are transformed. *)
Theorem C209_scalar_times_scalar_refuted : exists (w : @world PolyOps) x y t1 t2 o1 o2 c1 k w1 w2 w3, reachable w /\
  labelled w x t1 o1 /\ labelled w y t2 o2 /\ cls_of w t1 = Some CTensor /\ cls_of w t2 = Some CTensor /\ scalar_object o1 /\ scalar_object o2 /\
  o_metric o1 = o_metric o2 /\ o_coords o1 = Some c1 /\ get_components t2 (Some c1) None w = (Ok (@mkArr PolyOps [] [k]), w1) /\
  calc_mul x (OCalc y) w = (Err ETransformation, w2) /\ calc_mul y (OCalc x) w = (Err ETransformation, w3).
Proof. exact product_witness. Qed.
Print Assumptions C209_scalar_times_scalar_refuted.

Section C209.
Context {A : AlgOps} {L : AlgLaws A} {D : DiffLaws A}.
Variables (w : world) (x y : calc) (t1 t2 : oid) (o1 o2 : obj) (m c : oid) (n : nat) (a : arr).
Hypothesis Hty : typed w.
Hypothesis Hx : labelled w x t1 o1.
Hypothesis Hy : labelled w y t2 o2.
Hypothesis K1 : cls_of w t1 = Some CTensor.
Hypothesis K2 : cls_of w t2 <> Some CCoordinates.
Hypothesis S1 : scalar_object o1.
Hypothesis R2 : 0 < o_rank o2.
Hypothesis M2 : o_metric o2 = Some m.
Hypothesis Hc : coordinate_system w c n.
Hypothesis Hs : stored_default o2 c a.
Hypothesis Ha : cubic n a.
Hypothesis Hr : rank a = o_rank o2.

(** The product of the scalar [x] and the tensor [y] of higher rank is labelled as [y], has the
    metric, coordinates and configuration of [y], whatever the metric of [x], and its components
    are those of [y] times what get_components gives for the scalar in these coordinates. *)
Theorem C209_product_value k w1 : get_components t1 (Some c) None w = (Ok (mkArr [] [k]), w1) ->
  exists z w' b, calc_mul x (OCalc y) w = (Ok z, w') /\ result_is w' z (c_syms y) m c (o_indices o2) b /\ cubic n b /\
    forall idx, inb (shape a) idx = true -> aget b idx = (k * aget a idx)%K.
Proof. exact (scalar_mul_value w x y t1 t2 o1 o2 m c n a Hty Hx Hy K1 K2 S1 R2 M2 Hc Hs Ha Hr k w1). Qed.

(** It does not depend on the order of the factors. *)
Theorem C209_either_order : calc_mul y (OCalc x) w = calc_mul x (OCalc y) w.
Proof. exact (scalar_mul_order w x y t1 t2 o1 o2 m c a Hty Hx Hy K1 K2 S1 R2 M2 Hs Hr). Qed.

(** It is refused exactly as the components of the scalar are. *)
Theorem C209_product_refused e w1 : get_components t1 (Some c) None w = (Err e, w1) -> calc_mul x (OCalc y) w = (Err e, w1).
Proof. exact (scalar_mul_error w x y t1 t2 o1 o2 m c a Hty Hx Hy K1 K2 S1 R2 M2 Hs Hr e w1). Qed.

(** x @ y in contrast is refused if the metrics differ. *)
Theorem C209_contraction_refused : o_metric o1 <> o_metric o2 -> matmul x y w = (Err EValueError, w) /\ matmul y x w = (Err EValueError, w).
Proof. exact (scalar_matmul_refused w x y t1 t2 o1 o2 Hx Hy). Qed.
End C209.
Print Assumptions C209_product_value.
Print Assumptions C209_either_order.
Print Assumptions C209_product_refused.
Print Assumptions C209_contraction_refused.

(** A scalar made in u, v and two vectors made in p, q, the second one with another metric. *)
Example ex_C209 : exists o1 o2 o3 a b k w1,
  typed ex_product_w /\ labelled ex_product_w ex_U 7 o1 /\ labelled ex_product_w ex_V 9 o2 /\ labelled ex_product_w ex_W 11 o3 /\
  cls_of ex_product_w 7 = Some CTensor /\ cls_of ex_product_w 9 <> Some CCoordinates /\ cls_of ex_product_w 11 <> Some CCoordinates /\
  scalar_object o1 /\ 0 < o_rank o2 /\ 0 < o_rank o3 /\ o_metric o2 = Some 2 /\ o_metric o3 = Some 10 /\ o_metric o1 <> o_metric o3 /\
  coordinate_system ex_product_w 4 2 /\ stored_default o2 4 a /\ stored_default o3 4 b /\ cubic 2 a /\ cubic 2 b /\ rank a = o_rank o2 /\ rank b = o_rank o3 /\
  get_components 7 (Some 4) None ex_product_w = (Ok (@mkArr PolyOps [] [k]), w1).
Proof. exact ex_product_hyps. Qed.
