(** Properties of curvature and of covariant derivatives under changes of coordinates: C121 - C124. *)
From Verif Require Import Alg Arr Spec TensorM WorldM SpecWorld CalcM SpecCalc CurvM SpecCurv SpecChange CurvCov3_P CurvCov4_P Inst Ex ExWorld Witness_Change_P.
Local Open Scope nat_scope.

Section Change.
Context {A : AlgOps} {L : AlgLaws A} {DL : DiffLaws A} {SL : SubsLaws A} {IL : InvLaws A}.

(** C121.  [transform], applied to the curvature computed in the old coordinates, gives the
    curvature that the textbook formulas give for the transformed metric in the new ones. *)
Theorem C121_curvature_changes_coordinates n xs ys R J Ji C g gi g' gi' :
  coordinate_change n xs ys R -> calculate_jacobian xs ys R = Ok (J, Ji, C) ->
  metric_change n ys R J Ji g gi g' gi' ->
  moved n R J Ji [1; -1; -1; -1]%Z (at4 (Rie n xs g gi)) (at4 (Rie n ys g' gi')) /\
  moved n R J Ji [-1; -1]%Z (at2 (Ric n xs g gi)) (at2 (Ric n ys g' gi')) /\
  moved n R J Ji [] (fun _ => Sca n xs g gi) (fun _ => Sca n ys g' gi') /\
  moved n R J Ji [-1; -1]%Z (at2 (Ein n xs g gi)) (at2 (Ein n ys g' gi')).
Proof. exact (change_curvature n xs ys R J Ji C g gi g' gi'). Qed.

Theorem C121_weyl_changes_coordinates n xs ys R J Ji C g gi g' gi' :
  coordinate_change n xs ys R -> calculate_jacobian xs ys R = Ok (J, Ji, C) ->
  metric_change n ys R J Ji g gi g' gi' -> 3 <= n ->
  moved n R J Ji [-1; -1; -1; -1]%Z (at4 (Wey n xs g gi)) (at4 (Wey n ys g' gi')).
Proof. exact (change_weyl n xs ys R J Ji C g gi g' gi'). Qed.

(** C122.  Any rank and any configuration. *)
Theorem C122_covariant_derivative_changes_coordinates n xs ys R J Ji C g gi g' gi' i f f' :
  coordinate_change n xs ys R -> calculate_jacobian xs ys R = Ok (J, Ji, C) ->
  metric_change n ys R J Ji g gi g' gi' -> valid_cfg i ->
  without_symbols n ys (length i) f -> moved n R J Ji i f f' ->
  moved n R J Ji (-1 :: i)%Z (derived n xs g gi i f) (derived n ys g' gi' i f').
Proof. intros HX EJ HM. exact (change_derived n xs ys R J Ji C g gi g' gi' HX EJ HM i f f'). Qed.

(** C123.  If the metric is given consistently in all coordinate systems, so is its curvature,
    however many coordinate systems there are and however the rules connect them. *)
Theorem C123_curvature_is_consistent G : consistent G -> regular G ->
  consistent (with_tensor G 4 (geo_riemann G)) /\ consistent (with_tensor G 2 (geo_ricci G)) /\
  consistent (with_tensor G 0 (geo_scalar G)) /\ consistent (with_tensor G 2 (geo_einstein G)) /\
  (3 <= g_n G -> consistent (with_tensor G 4 (geo_weyl G))).
Proof.
  exact (fun HC HR => conj (consistent_riemann G HC HR) (conj (consistent_ricci G HC HR)
    (conj (consistent_scalar G HC HR) (conj (consistent_einstein G HC HR) (consistent_weyl G HC HR))))).
Qed.

(** C124.  The curvature functions work in the default coordinates [c] of the metric; what is
    obtained from their results in other coordinates is the curvature there. *)
Theorem C124_curvature_in_all_coordinates G m c name w :
  consistent G -> regular G -> g_sys G c ->
  metric_session w (g_n G) m c name (g_syms G c) (g_G G c) (g_Gi G c) ->
  known_results (g_n G) (g_syms G c) (g_G G c) (g_Gi G c) w m c name ->
  metric_represents G m w -> (forall k, g_sys G k -> ~ named w "TEMP" k) ->
  gives_everywhere G (calc_riemann m) m 4 (geo_riemann G) w /\
  gives_everywhere G (calc_ricci m) m 2 (geo_ricci G) w /\
  gives_everywhere G (calc_ricci_scalar m) m 0 (geo_scalar G) w /\
  gives_everywhere G (calc_einstein m) m 2 (geo_einstein G) w.
Proof.
  exact (fun HC HR Hc HS HK HM HT => conj (riemann_everywhere G m c name HC HR Hc w HS HK HM HT)
    (conj (ricci_everywhere G m c name HC HR Hc w HS HK HM HT)
    (conj (scalar_everywhere G m c name HC HR Hc w HS HK HM HT) (einstein_everywhere G m c name HC HR Hc w HS HK HM HT)))).
Qed.
Theorem C124_weyl_in_all_coordinates G m c name w :
  consistent G -> regular G -> g_sys G c ->
  metric_session w (g_n G) m c name (g_syms G c) (g_G G c) (g_Gi G c) ->
  known_results (g_n G) (g_syms G c) (g_G G c) (g_Gi G c) w m c name ->
  metric_represents G m w -> (forall k, g_sys G k -> ~ named w "TEMP" k) -> 3 <= g_n G ->
  (forall j, In j (insts w) -> named w (name ++ " Ricci Tensor") j -> ~ used w j) ->
  gives_everywhere G (calc_weyl m) m 4 (geo_weyl G) w.
Proof. exact (fun HC HR Hc HS HK HM HT => weyl_everywhere G m c name HC HR Hc w HS HK HM HT). Qed.
End Change.

Print Assumptions C121_curvature_changes_coordinates.
Print Assumptions C121_weyl_changes_coordinates.
Print Assumptions C122_covariant_derivative_changes_coordinates.
Print Assumptions C123_curvature_is_consistent.
Print Assumptions C124_curvature_in_all_coordinates.
Print Assumptions C124_weyl_in_all_coordinates.

Example C121_example : exists J Ji C, coordinate_change 3 ex_xyz ex_uvw ex_rules3 /\
  calculate_jacobian ex_xyz ex_uvw ex_rules3 = Ok (J, Ji, C) /\
  metric_change 3 ex_uvw ex_rules3 J Ji (mfun ex_g3) (mfun ex_gi3) (mfun ex_G3) (mfun ex_Gi3).
Proof. exact ex_change_hyps. Qed.
Example C122_example : exists J Ji C f', coordinate_change 3 ex_xyz ex_uvw ex_rules3 /\
  calculate_jacobian ex_xyz ex_uvw ex_rules3 = Ok (J, Ji, C) /\
  metric_change 3 ex_uvw ex_rules3 J Ji (mfun ex_g3) (mfun ex_gi3) (mfun ex_G3) (mfun ex_Gi3) /\
  valid_cfg [1]%Z /\ without_symbols (A := PolyOps) 3 ex_uvw 1 ex_vec3 /\ moved 3 ex_rules3 J Ji [1]%Z ex_vec3 f'.
Proof. exact ex_vector_hyps. Qed.
Example C123_C124_example :
  consistent ex_geo3 /\ regular ex_geo3 /\ g_sys ex_geo3 0 /\ 3 <= g_n ex_geo3 /\
  metric_session ex_change_w (g_n ex_geo3) 2 0 "g" (g_syms ex_geo3 0) (g_G ex_geo3 0) (g_Gi ex_geo3 0) /\
  known_results (g_n ex_geo3) (g_syms ex_geo3 0) (g_G ex_geo3 0) (g_Gi ex_geo3 0) ex_change_w 2 0 "g" /\
  metric_represents ex_geo3 2 ex_change_w /\ (forall k, g_sys ex_geo3 k -> ~ named ex_change_w "TEMP" k) /\
  (forall j, In j (insts ex_change_w) -> ~ named ex_change_w "g Ricci Tensor" j) /\
  exists t w' a w'', calc_ricci 2 ex_change_w = (Ok t, w') /\ ~ In t (insts ex_change_w) /\
    get_components t (Some 1) (Some [1; -1]%Z) w' = (Ok a, w'') /\ ~ keq (aget a [0; 0]) k0.
Proof. exact ex_change_all. Qed.
