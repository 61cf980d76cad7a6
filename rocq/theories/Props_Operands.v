(** Operands and arguments that are refused: C199 (operators) and C200 (arguments of the computing
    methods); what a product of tensors in different coordinates is (C41). *)
From Coq Require Import Permutation.
From Verif Require Import Alg Arr Spec TensorM WorldM SpecWorld CalcM SpecCalc SpecScalar CurvM GeodM LineM Operands_P Mixed_P Inst InstSph ExWorld Witness_Calc_P Witness_Scalar_P Witness_Default_P Witness_Operands_P.
Local Open Scope nat_scope.

Section Operands.
Context {A : AlgOps}.

(** C199.  A derivative has one symbol or none. *)
Theorem C199_symbols_of_derivatives (l : list string) (w : world) :
  (length l <= 1 ->
     PartialD l w = (Ok (mkCalc None l RPartial), w) /\ CovariantD l w = (Ok (mkCalc None l RCovariant), w)) /\
  (1 < length l -> PartialD l w = (Err EValueError, w) /\ CovariantD l w = (Err EValueError, w)).
Proof. exact (derivative_exact l w). Qed.

(** A derivative can only stand on one side of @, with a tensor on the other one. *)
Theorem C199_derivatives_as_operands x y k (w : world) z : c_role x <> RTensor ->
  calc_neg x w = (Err EValueError, w) /\ calc_rsub x z w = (Err EValueError, w) /\
  calc_mul x z w = (Err EValueError, w) /\ calc_div x k w = (Err EValueError, w) /\
  calc_sub x (OCalc y) w = (Err EValueError, w) /\ calc_sub y (OCalc x) w = (Err EValueError, w) /\
  (c_role y <> RTensor -> forall letters, matmul_with letters x y w = (Err EValueError, w)).
Proof. exact (derivative_operand x y k w z). Qed.
Theorem C199_tensor_times_derivative x y (w : world) :
  c_role x = RTensor -> c_tensor y = None -> calc_mul x (OCalc y) w = (Err EAttributeError, w).
Proof. exact (mul_derivative x y w). Qed.

(** Subtraction *)
Theorem C199_subtracting_other_things x (w : world) y :
  calc_sub x OZero w = (Ok x, w) /\ ((exists k, y = OScalar k) \/ y = OOther -> calc_sub x y w = (Err ETypeError, w)).
Proof. exact (sub_operand x w y). Qed.
Theorem C199_subtracting_mismatches x y t1 t2 o1 o2 w :
  c_role x = RTensor -> c_role y = RTensor -> c_tensor x = Some t1 -> c_tensor y = Some t2 ->
  obj_of w t1 = Some o1 -> obj_of w t2 = Some o2 ->
  o_rank o1 <> o_rank o2 \/ (c_syms x <> [] /\ c_syms y <> [] /\ ~ Permutation (c_syms x) (c_syms y)) ->
  calc_sub x (OCalc y) w = (Err EValueError, w).
Proof. exact (sub_mismatch x y t1 t2 o1 o2 w). Qed.

(** Multiplication *)
Theorem C199_multiplying_other_things x (w : world) : c_role x = RTensor -> calc_mul x OOther w = (Err ETypeError, w).
Proof. exact (fun H => proj1 (mul_operand x w H)). Qed.
Theorem C199_multiplying_tensors x y t1 t2 o1 o2 (w : world) :
  c_role x = RTensor -> c_tensor x = Some t1 -> c_tensor y = Some t2 ->
  obj_of w t1 = Some o1 -> obj_of w t2 = Some o2 -> 0 < o_rank o1 -> 0 < o_rank o2 ->
  calc_mul x (OCalc y) w = (Err EValueError, w).
Proof. exact (mul_tensors x y t1 t2 o1 o2 w). Qed.
Theorem C199_zero_times {L : AlgLaws A} {D : DiffLaws A} w x t o m c n a :
  typed w -> labelled w x t o -> stored_default o c a -> o_metric o = Some m ->
  coordinate_system w c n -> cubic n a -> rank a = o_rank o ->
  exists z w' b, calc_mul x OZero w = (Ok z, w') /\ result_is w' z (c_syms x) m c (o_indices o) b /\ cubic n b /\
  forall f, (forall s, In s (c_syms x) -> f s < n) -> keq (aget b (map f (c_syms x))) k0.
Proof. exact (zero_times w x t o m c n a). Qed.

(** Products of tensors with different metrics *)
Theorem C199_contracting_different_metrics x y t1 t2 o1 o2 (w : world) letters :
  c_role x = RTensor -> c_role y = RTensor -> c_tensor x = Some t1 -> c_tensor y = Some t2 ->
  obj_of w t1 = Some o1 -> obj_of w t2 = Some o2 -> o_metric o1 <> o_metric o2 ->
  matmul_with letters x y w = (Err EValueError, w).
Proof. exact (matmul_metrics x y t1 t2 o1 o2 w letters). Qed.

(** C200.  What is not a metric has no curvature and no geodesics. *)
Theorem C200_metric_argument (w : world) m coords p : cls_of w m <> Some CMetric ->
  Forall (fun f : M oid => f w = (Err ETypeError, w))
    [calc_christoffel m; calc_riemann m; calc_ricci m; calc_ricci_scalar m; calc_einstein m; calc_weyl m;
     calc_lagrangian m coords; calc_geodesic_lagrangian_with p m coords; calc_geodesic_christoffel m coords;
     calc_geodesic_time m coords].
Proof. exact (metric_argument w m coords p). Qed.
(** An argument for coordinates must be coordinates, whatever the object is asked for. *)
Theorem C200_coords_argument (w : world) m c p : cls_of w c <> Some CCoordinates ->
  Forall (fun f : M oid => f w = (Err ETypeError, w))
    [calc_lagrangian m (Some c); calc_geodesic_lagrangian_with p m (Some c); calc_geodesic_christoffel m (Some c);
     calc_geodesic_time m (Some c)] /\
  line_element m (Some c) w = (Err ETypeError, w) /\ volume_element m (Some c) w = (Err ETypeError, w) /\
  change_default_coords m c w = (Err ETypeError, w) /\
  forall rules, add_coord_transformation m (VObj c) rules w = (Err ETransformation, w).
Proof. exact (coords_argument w m c p). Qed.
Theorem C200_coords_argument_of_get_components (w : world) t o c i :
  obj_of w t = Some o -> cls_of w c <> Some CCoordinates -> get_components t (Some c) i w = (Err ETypeError, w).
Proof. exact (coords_argument_components w t o c i). Qed.

(** C41, what is computed when the default coordinates of the factors differ: the components of
    each factor in its own coordinates are multiplied, and the result is labelled with the
    coordinates of the left factor. *)
Theorem C41_product_in_different_coordinates {L : AlgLaws A} w x y t1 o1 t2 o2 m c c' n i2 a1 w1 a2 w2 :
  typed w -> labelled w x t1 o1 -> labelled w y t2 o2 -> 1 <= n ->
  o_metric o1 = Some m -> o_metric o2 = Some m -> o_coords o1 = Some c -> o_coords o2 = Some c' -> coordinate_system w c n ->
  0 < o_rank o1 -> 0 < o_rank o2 ->
  opposite (c_syms x) (o_indices o1) (c_syms y) (o_indices o2) i2 ->
  get_components t1 (Some c) (Some (o_indices o1)) w = (Ok a1, w1) ->
  get_components t2 (Some c') (Some i2) w1 = (Ok a2, w2) ->
  cubic n a1 -> rank a1 = o_rank o1 -> cubic n a2 -> rank a2 = o_rank o2 ->
  let s1 := c_syms x in let s2 := c_syms y in let free := without s1 s2 ++ without s2 s1 in
  exists z w' a, matmul x y w = (Ok z, w') /\
    result_is w' z free m c (indices_without s1 (o_indices o1) s2 ++ indices_without s2 (o_indices o2) s1) a /\ cubic n a /\
    forall f, (forall s, In s free -> f s < n) ->
      keq (aget a (map f free))
          (lsum (tuples n (length (common s1 s2))) (fun ks =>
             kmul (aget a1 (map (assign (common s1 s2) ks f) s1)) (aget a2 (map (assign (common s1 s2) ks f) s2)))).
Proof. exact (mixed_values w x y t1 o1 t2 o2 m c c' n i2 a1 w1 a2 w2). Qed.
End Operands.
Print Assumptions C41_product_in_different_coordinates.
Print Assumptions C199_symbols_of_derivatives.
Print Assumptions C199_derivatives_as_operands.
Print Assumptions C199_tensor_times_derivative.
Print Assumptions C199_subtracting_other_things.
Print Assumptions C199_subtracting_mismatches.
Print Assumptions C199_multiplying_other_things.
Print Assumptions C199_multiplying_tensors.
Print Assumptions C199_zero_times.
Print Assumptions C199_contracting_different_metrics.
Print Assumptions C200_metric_argument.
Print Assumptions C200_coords_argument.
Print Assumptions C200_coords_argument_of_get_components.

(** Two tensors of rank 4 with different metrics; neither is a metric nor coordinates. *)
Example ex_C199_operands : exists o1 o2, @obj_of SphOps def_w 3 = Some o1 /\ obj_of def_w 4 = Some o2 /\ o_metric o1 <> o_metric o2 /\
  0 < o_rank o1 /\ 0 < o_rank o2 /\ cls_of def_w 3 <> Some CMetric /\ cls_of def_w 3 <> Some CCoordinates.
Proof. exact def_two_tensors. Qed.
Example ex_C199_mismatch :
  ~ Permutation (c_syms ex_C) ["a"; "c"]%string /\ c_role (mkCalc None ["a"]%string RPartial) <> RTensor.
Proof. exact ex_mismatch. Qed.
Example ex_C199_zero :
  typed ex_calc_w /\ coordinate_system ex_calc_w 0 2 /\
  (exists o a, labelled ex_calc_w ex_C 8 o /\ stored_default o 0 a /\ o_metric o = Some 2 /\ cubic 2 a /\ rank a = o_rank o /\ ~ made_elsewhere o 0).
Proof. exact (proj2 (proj2 (proj2 ex_neg_hyps))). Qed.
Example ex_C200_arguments : exists o1 o2, @obj_of SphOps def_w 3 = Some o1 /\ obj_of def_w 4 = Some o2 /\ o_metric o1 <> o_metric o2 /\
  0 < o_rank o1 /\ 0 < o_rank o2 /\ cls_of def_w 3 <> Some CMetric /\ cls_of def_w 3 <> Some CCoordinates.
Proof. exact def_two_tensors. Qed.
Example ex_C41_different_coordinates :
  typed ex_calc_w /\
  exists o1 o2 a1 w1 a2 w2,
    labelled ex_calc_w ex_V 3 o1 /\ labelled ex_calc_w ex_A 6 o2 /\
    o_metric o1 = Some 2 /\ o_metric o2 = Some 2 /\ o_coords o1 = Some 0 /\ o_coords o2 = Some 1 /\ coordinate_system ex_calc_w 0 2 /\
    0 < o_rank o1 /\ 0 < o_rank o2 /\
    opposite (c_syms ex_V) (o_indices o1) (c_syms ex_A) (o_indices o2) [-1]%Z /\
    get_components 3 (Some 0) (Some (o_indices o1)) ex_calc_w = (Ok a1, w1) /\
    get_components 6 (Some 1) (Some [-1]%Z) w1 = (Ok a2, w2) /\
    cubic 2 a1 /\ rank a1 = o_rank o1 /\ cubic 2 a2 /\ rank a2 = o_rank o2.
Proof. exact ex_mixed_hyps. Qed.
