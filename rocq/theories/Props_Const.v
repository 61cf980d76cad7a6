(** Constant curvature, Einstein spaces, curvature in two dimensions: C180 - C182. *)
From Coq Require Import QArith.
From Verif Require Import Alg Arr Spec TensorM WorldM SpecWorld CalcM SpecCalc CurvM SpecCurv SpecDim SpecConst CurvConst_P Inst InstExp ExWorld Witness_Volume_P Witness_Const_P.
Local Open Scope nat_scope.

Section Const.
Context {A : AlgOps} {L : AlgLaws A} {D : DiffLaws A}.
Variables (n : nat) (m c : oid) (name : string) (xs : list string) (g gi : nat -> nat -> K).
Notation session w := (metric_session w n m c name xs g gi).
Notation known w := (known_results n xs g gi w m c name).
Notation gives := (gives n xs g gi).

(** C180.  If R_ijlm = k (g_il g_jm - g_im g_jl), the Ricci tensor that is computed is
    k (n - 1) g, the Ricci scalar k n (n - 1), the Einstein tensor k (n - 1) (1 - n/2) g. *)
Theorem C180_constant_curvature k w : session w -> known w -> curvature_like n xs g gi k ->
  gives (calc_ricci m) m c name [(name ++ " Christoffel"); (name ++ " Riemann"); (name ++ " Ricci Tensor")]%string [-1; -1]%Z
    (fun idx => kmul (kmul k (ksub (knat n) k1)) (g (nth 0 idx 0) (nth 1 idx 0))) w /\
  gives (calc_ricci_scalar m) m c name
    [(name ++ " Christoffel"); (name ++ " Riemann"); (name ++ " Ricci Tensor"); (name ++ " Ricci Scalar")]%string []
    (fun _ => kmul (kmul k (ksub (knat n) k1)) (knat n)) w /\
  gives (calc_einstein m) m c name
    [(name ++ " Christoffel"); (name ++ " Riemann"); (name ++ " Ricci Tensor"); (name ++ " Ricci Scalar"); (name ++ " Einstein")]%string
    [-1; -1]%Z
    (fun idx => kmul (kmul (kmul k (ksub (knat n) k1)) (ksub k1 (kmul (kinvn 2) (knat n)))) (g (nth 0 idx 0) (nth 1 idx 0))) w.
Proof. exact (const_computed n m c name xs g gi k w). Qed.
Theorem C180_constant_curvature_weyl k w : session w -> known w -> curvature_like n xs g gi k -> 3 <= n ->
  (forall j, In j (insts w) -> named w (name ++ " Ricci Tensor") j -> ~ used w j) ->
  exists t w', calc_weyl m w = (Ok t, w') /\ In t (insts w') /\
    tensor_value w' n m c t [-1; -1; -1; -1]%Z (fun _ => k0) /\ session w' /\ known w'.
Proof. exact (const_weyl_computed n m c name xs g gi k w). Qed.

(** C181.  Vacuum with a cosmological constant: the Einstein tensor is -l g if and only if the
    Ricci tensor is 2 l / (n - 2) g. *)
Theorem C181_cosmological_constant l w : session w -> known w -> 3 <= n ->
  exists t w1 u w2 e r, calc_einstein m w = (Ok t, w1) /\ tensor_value w1 n m c t [-1; -1]%Z e /\
    calc_ricci m w1 = (Ok u, w2) /\ tensor_value w2 n m c u [-1; -1]%Z r /\
    (multiple n g (kopp l) e <-> multiple n g (kmul (kmul (knat 2) (kinvn (n - 2))) l) r).
Proof. exact (cosmological_computed n m c name xs g gi l w). Qed.

(** C182.  In two dimensions the Riemann tensor is S/2 (g_ip g_jq - g_iq g_jp), where S is the
    Ricci scalar. *)
Theorem C182_curvature_in_two_dimensions w : session w -> known w -> n = 2 ->
  exists t w1 u w2 r s, calc_riemann m w = (Ok t, w1) /\ tensor_value w1 n m c t [1; -1; -1; -1]%Z (at4 r) /\
    calc_ricci_scalar m w1 = (Ok u, w2) /\ tensor_value w2 n m c u [] (fun _ => s) /\
    forall i j p q, i < n -> j < n -> p < n -> q < n -> keq (lowered n g r i j p q) (gg g (kmul (kinvn 2) s) i j p q).
Proof. exact (two_computed n m c name xs g gi w). Qed.
End Const.
Print Assumptions C180_constant_curvature.
Print Assumptions C180_constant_curvature_weyl.
Print Assumptions C181_cosmological_constant.
Print Assumptions C182_curvature_in_two_dimensions.

(** Hyperbolic space dx^2 + exp(2x) (dy^2 + dz^2) has the curvature -1. *)
Example constant_session_met :
  metric_session hyp_w 3 1 0 "g" hyp_xyz (emat hyp_g) (emat hyp_gi) /\
  known_results 3 hyp_xyz (emat hyp_g) (emat hyp_gi) hyp_w 1 0 "g".
Proof. exact hyp_session. Qed.
Example constant_curvature_met : @curvature_like ExpOps 3 hyp_xyz (emat hyp_g) (emat hyp_gi) (PC (-1)%Q).
Proof. exact hyp_curvature. Qed.
Example constant_weyl_met : forall j, In j (insts hyp_w) -> named hyp_w ("g" ++ " Ricci Tensor") j -> ~ used hyp_w j.
Proof. exact hyp_no_ricci. Qed.
(** The hyperbolic plane dx^2 + exp(2x) dy^2, with the Ricci scalar -2. *)
Example two_dimensions_met :
  metric_session plane_w 2 1 0 "g" plane_xy (emat plane_g) (emat plane_gi) /\ known_results 2 plane_xy (emat plane_g) (emat plane_gi) plane_w 1 0 "g" /\
  @keq ExpOps (@Sca ExpOps 2 plane_xy (emat plane_g) (emat plane_gi)) (PC (-2)%Q) /\ ~ @keq ExpOps (PC (-2)%Q) (@k0 ExpOps).
Proof. exact plane_session. Qed.
