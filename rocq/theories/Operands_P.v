(** Operands and arguments that are refused. *)
From Verif Require Import Alg Alg_P Arr Arr_P Spec TensorM WorldM SpecWorld World_P CalcM SpecCalc Calc_P Scalar_P CurvM GeodM LineM.
From Coq Require Import Permutation.
Local Open Scope nat_scope.

Section Operands.
Context {A : AlgOps}.

Lemma derivative_exact (l : list string) (w : world) :
  (length l <= 1 -> PartialD l w = (Ok (mkCalc None l RPartial), w) /\ CovariantD l w = (Ok (mkCalc None l RCovariant), w)) /\
  (1 < length l -> PartialD l w = (Err EValueError, w) /\ CovariantD l w = (Err EValueError, w)).
Proof. destruct l as [|x [|y l]]; cbn [length]; (split; intros H; [try lia; split; reflexivity|try lia; split; reflexivity]). Qed.

Lemma not_tensor x : c_role x <> RTensor -> negb (is_tensor_role (c_role x)) = true.
Proof. destruct (c_role x); [contradiction|reflexivity|reflexivity]. Qed.

Lemma derivative_operand x y k (w : world) z : c_role x <> RTensor ->
  calc_neg x w = (Err EValueError, w) /\ calc_rsub x z w = (Err EValueError, w) /\ calc_mul x z w = (Err EValueError, w) /\
  calc_div x k w = (Err EValueError, w) /\ calc_sub x (OCalc y) w = (Err EValueError, w) /\ calc_sub y (OCalc x) w = (Err EValueError, w) /\
  (c_role y <> RTensor -> forall letters, matmul_with letters x y w = (Err EValueError, w)).
Proof.
  intros H. assert (E := not_tensor x H). unfold calc_rsub, calc_neg, calc_mul, calc_div, calc_sub. rewrite E, orb_true_r. repeat (split; [reflexivity|]).
  intros Hy letters. unfold matmul_with, matmul0. destruct (c_role x), (c_role y); try contradiction; reflexivity.
Qed.

Lemma sub_operand x (w : world) y : calc_sub x OZero w = (Ok x, w) /\ ((exists k, y = OScalar k) \/ y = OOther -> calc_sub x y w = (Err ETypeError, w)).
Proof. split; [reflexivity|]. intros [[k ->]| ->]; reflexivity. Qed.

Lemma is_permutation_false l l' : ~ Permutation l l' -> is_permutation l l' = false.
Proof. intros H. destruct (is_permutation l l') eqn:E; [|reflexivity]. exfalso. apply H. apply is_permutation_spec, E. Qed.

Lemma sub_mismatch x y t1 t2 o1 o2 w : c_role x = RTensor -> c_role y = RTensor -> c_tensor x = Some t1 -> c_tensor y = Some t2 ->
  obj_of w t1 = Some o1 -> obj_of w t2 = Some o2 ->
  o_rank o1 <> o_rank o2 \/ (c_syms x <> [] /\ c_syms y <> [] /\ ~ Permutation (c_syms x) (c_syms y)) ->
  calc_sub x (OCalc y) w = (Err EValueError, w).
Proof.
  intros R1 R2 T1 T2 H1 H2 H. unfold calc_sub. rewrite R1, R2. cbn [is_tensor_role negb orb]. unfold mbind at 1, tensor_of. rewrite T1. cbn [mopt mret].
  unfold mbind at 1, getobj. rewrite H1. unfold mbind at 1. rewrite T2. cbn [mopt mret]. unfold mbind at 1. rewrite H2.
  destruct (Nat.eqb_spec (o_rank o1) (o_rank o2)) as [E|N]; [|reflexivity]. cbn [negb].
  destruct H as [H|(N1 & N2 & NP)]; [contradiction|]. rewrite is_permutation_false by exact NP.
  destruct (c_syms x); [contradiction|]. destruct (c_syms y); [contradiction|]. reflexivity.
Qed.

Lemma mul_operand x (w : world) : c_role x = RTensor -> calc_mul x OOther w = (Err ETypeError, w) /\ calc_mul x OZero w = calc_mul x (OScalar k0) w.
Proof. intros H. unfold calc_mul. rewrite H. split; reflexivity. Qed.
Lemma mul_derivative x y (w : world) : c_role x = RTensor -> c_tensor y = None -> calc_mul x (OCalc y) w = (Err EAttributeError, w).
Proof. intros H1 H2. unfold calc_mul. rewrite H1. cbn [is_tensor_role negb]. unfold mbind, tensor_of. rewrite H2. reflexivity. Qed.
Lemma mul_tensors x y t1 t2 o1 o2 (w : world) : c_role x = RTensor -> c_tensor x = Some t1 -> c_tensor y = Some t2 ->
  obj_of w t1 = Some o1 -> obj_of w t2 = Some o2 -> 0 < o_rank o1 -> 0 < o_rank o2 -> calc_mul x (OCalc y) w = (Err EValueError, w).
Proof.
  intros R1 T1 T2 H1 H2 P1 P2. unfold calc_mul. rewrite R1. cbn [is_tensor_role negb]. unfold mbind, tensor_of, getobj. rewrite T1, T2. cbn [mopt mret]. rewrite H2. cbn [mret]. rewrite H1.
  apply Nat.ltb_lt in P1, P2. rewrite P1, P2. reflexivity.
Qed.
Lemma matmul_metrics x y t1 t2 o1 o2 (w : world) letters : c_role x = RTensor -> c_role y = RTensor -> c_tensor x = Some t1 -> c_tensor y = Some t2 ->
  obj_of w t1 = Some o1 -> obj_of w t2 = Some o2 -> o_metric o1 <> o_metric o2 -> matmul_with letters x y w = (Err EValueError, w).
Proof.
  intros R1 R2 T1 T2 H1 H2 N. unfold matmul_with, matmul0. rewrite R1, R2. unfold mbind, metric_attr. rewrite T1, T2, H1, H2.
  destruct (opt_oid_eqb (o_metric o1) (o_metric o2)) eqn:E; [|reflexivity]. exfalso. apply N. unfold opt_oid_eqb in E.
  destruct (o_metric o1), (o_metric o2); try discriminate E; [apply Nat.eqb_eq in E; congruence|reflexivity].
Qed.

(** *** Arguments that must be metrics and coordinates *)
Lemma isinstance_other (w : world) i k : cls_of w i <> Some k -> isinstance i k w = (Ok false, w).
Proof.
  intros H. unfold isinstance. destruct (cls_of w i) as [k'|]; [|reflexivity]. destruct (cls_eqb k k') eqn:E; [|reflexivity].
  exfalso. apply H. f_equal. destruct k, k'; try reflexivity; discriminate E.
Qed.
Lemma metric_argument (w : world) m coords p : cls_of w m <> Some CMetric ->
  Forall (fun f : M oid => f w = (Err ETypeError, w))
    [calc_christoffel m; calc_riemann m; calc_ricci m; calc_ricci_scalar m; calc_einstein m; calc_weyl m;
     calc_lagrangian m coords; calc_geodesic_lagrangian_with p m coords; calc_geodesic_christoffel m coords; calc_geodesic_time m coords].
Proof.
  intros H. assert (E := isinstance_other w m CMetric H).
  repeat constructor; unfold calc_christoffel, calc_riemann, calc_ricci, calc_ricci_scalar, calc_einstein, calc_weyl, calc_lagrangian, calc_geodesic_lagrangian_with, calc_geodesic_christoffel, calc_geodesic_time, cached, cached_curve, mbind at 1; rewrite E; reflexivity.
Qed.
Lemma coords_argument (w : world) m c p : cls_of w c <> Some CCoordinates ->
  Forall (fun f : M oid => f w = (Err ETypeError, w))
    [calc_lagrangian m (Some c); calc_geodesic_lagrangian_with p m (Some c); calc_geodesic_christoffel m (Some c); calc_geodesic_time m (Some c)] /\
  line_element m (Some c) w = (Err ETypeError, w) /\ volume_element m (Some c) w = (Err ETypeError, w) /\
  change_default_coords m c w = (Err ETypeError, w) /\ forall rules, add_coord_transformation m (VObj c) rules w = (Err ETransformation, w).
Proof.
  intros H. assert (E := isinstance_other w c CCoordinates H).
  assert (B : forall m (k : K) (f : oid -> string -> M oid) s kk, cached_curve kk m (Some c) s f w = (Err ETypeError, w)).
  { intros m' k f s kk. unfold cached_curve, mbind at 1. assert (E2 : exists b, isinstance m' CMetric w = (Ok b, w)) by (eexists; reflexivity).
    destruct E2 as [b ->]. destruct b; [|reflexivity]. cbn [negb]. unfold mbind at 1. rewrite E. reflexivity. }
  split; [repeat constructor; apply (B m k0)|]. split; [|split; [|split]].
  - unfold line_element, display_components, mbind. rewrite E. reflexivity.
  - unfold volume_element, display_components, mbind. rewrite E. reflexivity.
  - unfold change_default_coords, mbind. rewrite E. reflexivity.
  - intros rules. unfold add_coord_transformation, mbind. rewrite E. reflexivity.
Qed.
Lemma coords_argument_components (w : world) t o c i : obj_of w t = Some o -> cls_of w c <> Some CCoordinates -> get_components t (Some c) i w = (Err ETypeError, w).
Proof.
  intros Ho H. assert (E := isinstance_other w c CCoordinates H). unfold get_components, get_representation, mbind, getobj. rewrite Ho. cbn [mret]. rewrite E. reflexivity.
Qed.
End Operands.

Section Zero.
Context {A : AlgOps} {L : AlgLaws A} {D : DiffLaws A}.
Add Ring Kring : kring (setoid keq_equiv kring_ext).
Lemma zero_times w x t o m c n a : typed w -> labelled w x t o -> stored_default o c a -> o_metric o = Some m ->
  coordinate_system w c n -> cubic n a -> rank a = o_rank o ->
  exists z w' b, calc_mul x OZero w = (Ok z, w') /\ result_is w' z (c_syms x) m c (o_indices o) b /\ cubic n b /\
  forall f, (forall s, In s (c_syms x) -> f s < n) -> keq (aget b (map f (c_syms x))) k0.
Proof.
  intros H1 H2 H3 H4 H5 H6 H7. destruct (scale_values w x t o m c n a H1 H2 H3 H4 H5 H6 H7 k0) as (z & w' & b & E & R & C & V).
  exists z, w', b. rewrite (proj2 (mul_operand x w (proj1 H2))). split; [exact E|]. split; [exact R|]. split; [exact C|].
  intros f Hf. rewrite (V f Hf). ring.
Qed.
End Zero.
