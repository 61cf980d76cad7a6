(** Products of spaces: C192. *)
From Coq Require Import QArith.
From Verif Require Import Alg Arr Spec TensorM WorldM SpecWorld CalcM SpecCalc CurvM SpecCurv SpecBlock Block_P Inst InstExp ExWorld Witness_Volume_P Witness_Const_P Witness_Block_P.
Local Open Scope nat_scope.

Section Block.
Context {A : AlgOps} {L : AlgLaws A} {D : DiffLaws A}.
Variables (n1 n2 : nat) (xs1 xs2 : list string).

(** C192.  The Christoffel symbols, the Riemann tensor and the Ricci tensor that are computed for
    the product of two spaces consist of those that are computed for the two spaces, and of zeros;
    the Ricci scalar is the sum. *)
Theorem C192_product_of_spaces m1 c1 m2 c2 m c name1 name2 name g1 gi1 g2 gi2 g gi w1 w2 w :
  metric_session w1 n1 m1 c1 name1 xs1 g1 gi1 -> known_results n1 xs1 g1 gi1 w1 m1 c1 name1 ->
  metric_session w2 n2 m2 c2 name2 xs2 g2 gi2 -> known_results n2 xs2 g2 gi2 w2 m2 c2 name2 ->
  metric_session w (n1 + n2) m c name (xs1 ++ xs2) g gi -> known_results (n1 + n2) (xs1 ++ xs2) g gi w m c name ->
  product_metric n1 n2 xs1 xs2 g1 g2 g ->
  joins n1 n2 [1; -1; -1]%Z (calc_christoffel m1) m1 c1 w1 (calc_christoffel m2) m2 c2 w2 (calc_christoffel m) m c w /\
  joins n1 n2 [1; -1; -1; -1]%Z (calc_riemann m1) m1 c1 w1 (calc_riemann m2) m2 c2 w2 (calc_riemann m) m c w /\
  joins n1 n2 [-1; -1]%Z (calc_ricci m1) m1 c1 w1 (calc_ricci m2) m2 c2 w2 (calc_ricci m) m c w /\
  exists t1 v1 s1 t2 v2 s2 t v,
    calc_ricci_scalar m1 w1 = (Ok t1, v1) /\ tensor_value v1 n1 m1 c1 t1 [] (fun _ => s1) /\
    calc_ricci_scalar m2 w2 = (Ok t2, v2) /\ tensor_value v2 n2 m2 c2 t2 [] (fun _ => s2) /\
    calc_ricci_scalar m w = (Ok t, v) /\ tensor_value v (n1 + n2) m c t [] (fun _ => kadd s1 s2).
Proof. exact (block_computed n1 n2 xs1 xs2 m1 c1 m2 c2 m c name1 name2 name g1 gi1 g2 gi2 g gi w1 w2 w). Qed.
End Block.
Print Assumptions C192_product_of_spaces.

(** Two hyperbolic planes dx^2 + exp(2x) dy^2 and dz^2 + exp(2z) dt^2; the Ricci scalar of the
    product is -4. *)
Example product_sessions_met :
  (metric_session plane_w 2 1 0 "g" plane_xy (emat plane_g) (emat plane_gi) /\ known_results 2 plane_xy (emat plane_g) (emat plane_gi) plane_w 1 0 "g" /\
   @keq ExpOps (@Sca ExpOps 2 plane_xy (emat plane_g) (emat plane_gi)) (PC (-2)%Q) /\ ~ @keq ExpOps (PC (-2)%Q) (@k0 ExpOps)) /\
  (metric_session zt_w 2 1 0 "h" zt (emat zt_g) (emat zt_gi) /\ known_results 2 zt (emat zt_g) (emat zt_gi) zt_w 1 0 "h") /\
  (metric_session pair_w (2 + 2) 1 0 "p" (plane_xy ++ zt) (emat pair_g) (emat pair_gi) /\
   known_results (2 + 2) (plane_xy ++ zt) (emat pair_g) (emat pair_gi) pair_w 1 0 "p").
Proof. exact (conj plane_session (conj zt_session pair_session)). Qed.
Example product_metric_met : @product_metric ExpOps 2 2 plane_xy zt (emat plane_g) (emat zt_g) (emat pair_g).
Proof. exact pair_product. Qed.
Example product_curved : @keq ExpOps (@Sca ExpOps 4 (plane_xy ++ zt) (emat pair_g) (emat pair_gi)) (PC (-4)%Q) /\ ~ @keq ExpOps (PC (-4)%Q) (@k0 ExpOps).
Proof. exact pair_scalar. Qed.
